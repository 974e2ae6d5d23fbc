(** [concurrent_registry.rs]: the registry shared between threads and the
    cache of functions each thread keeps in front of it. *)
From Coq Require Import String List ZArith NArith Bool.
From Verif Require Import Base F64 Syntax Ext Registry.
Import ListNotations.
Local Open Scope N_scope.

(** [reused as f64 / (created + reused) as f64 * 100.0], or 0 when nothing was
    counted ([concurrent_registry.rs:170-174], [memory_pool.rs:64-68]).
    Simplification: the sum of the counters does not overflow. *)
Definition percentage (part other : N) : f64 :=
  if 0 <? part + other
  then f_mul (f_div (f_of_Z (Z.of_N part)) (f_of_Z (Z.of_N (part + other)))) (f_of_Z 100)
  else f_zero.

Section FnCache.
  Context {X : Ext}.

  (** ** [ConcurrentFunctionRegistry] ([concurrent_registry.rs:9-95])
      Each method makes one access to the [DashMap], so calls from several
      threads are some sequence of these. *)
  (** [concurrent_registry.rs:21-34] *)
  Definition shared_register (r : registry) (f : custom_fn) : res registry :=
    let name := to_uppercase (cf_name f) in
    match name with
    | [] => Err (err "Function name cannot be empty")
    | _ => if match cf_max f with Some m => m <? cf_min f | None => false end
           then Err (err "min_args cannot be greater than max_args")
           else Ok (minsert name f r)
    end.
  (** [concurrent_registry.rs:37-39] *)
  Definition shared_has (r : registry) (name : str) : bool := mhas (to_uppercase name) r.
  (** the count check of [concurrent_registry.rs:49-67] and [145-163] *)
  Definition run_checked (name : str) (f : custom_fn) (args : list value) : res value :=
    let n := N.of_nat (length args) in
    if n <? cf_min f
    then Err (mkErr (name ++ lit " expects at least " ++ N_to_str (cf_min f)
                          ++ lit " arguments, got " ++ N_to_str n) None)
    else match cf_max f with
         | Some m => if m <? n
                     then Err (mkErr (name ++ lit " expects at most " ++ N_to_str m
                                           ++ lit " arguments, got " ++ N_to_str n) None)
                     else cf_exec f args
         | None => cf_exec f args
         end.
  Definition unknown_fn (name : str) : error := mkErr (lit "Unknown custom function: " ++ name) None.
  (** [concurrent_registry.rs:42-72] *)
  Definition shared_execute (r : registry) (name : str) (args : list value) : res value :=
    match mget (to_uppercase name) r with
    | Some f => run_checked name f args
    | None => Err (unknown_fn name)
    end.
  (** [concurrent_registry.rs:75-77] *)
  Definition shared_list (r : registry) : list str := mkeys r.
  (** [concurrent_registry.rs:80-82] *)
  Definition shared_unregister (r : registry) (name : str) : bool * registry :=
    let k := to_uppercase name in (mhas k r, mremove k r).
  (** [concurrent_registry.rs:85-92] *)
  Definition shared_len (r : registry) : nat := length r.
  Definition shared_is_empty (r : registry) : bool := match r with [] => true | _ => false end.

  (** ** [ThreadLocalFunctionCache] ([concurrent_registry.rs:105-186])
      Simplification: the counters do not overflow. *)
  Record fn_cache := mkCache { fc_map : smap custom_fn; fc_hits : N; fc_misses : N }.
  (** [concurrent_registry.rs:113-120] *)
  Definition cache_new : fn_cache := mkCache [] 0 0.
  (** [concurrent_registry.rs:122-140] *)
  Definition cache_get (r : registry) (c : fn_cache) (name : str) : option custom_fn * fn_cache :=
    let k := to_uppercase name in
    match mget k (fc_map c) with
    | Some f => (Some f, mkCache (fc_map c) (fc_hits c + 1) (fc_misses c))
    | None =>
        match mget k r with
        | Some f => (Some f, mkCache (minsert k f (fc_map c)) (fc_hits c) (fc_misses c + 1))
        | None => (None, c)
        end
    end.
  (** [concurrent_registry.rs:142-165] *)
  Definition cache_execute (r : registry) (c : fn_cache) (name : str) (args : list value) : res value * fn_cache :=
    match cache_get r c name with
    | (Some f, c') => (run_checked name f args, c')
    | (None, c') => (Err (unknown_fn name), c')
    end.
  (** [concurrent_registry.rs:167-176] *)
  Definition cache_stats (c : fn_cache) : N * N * f64 :=
    (fc_hits c, fc_misses c, percentage (fc_hits c) (fc_misses c)).
  (** [concurrent_registry.rs:178-182] *)
  Definition cache_clear (c : fn_cache) : fn_cache := mkCache [] 0 0.
End FnCache.
