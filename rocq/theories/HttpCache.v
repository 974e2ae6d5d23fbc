(** [http_server/cache.rs:11-175]: the cache of results.  The cache behind the
    lock is a value; one operation under the lock is one function on it.
    Simplifications: [hit_count] and [last_accessed], which nothing reads, are
    left out; the counters do not overflow; the lock is never poisoned. *)
From Coq Require Import String List ZArith NArith Bool.
From Verif Require Import Base F64 Syntax Ext Json Registry Methods Api.
Import ListNotations.

(** cache.rs:19-26 *)
Record entry := mkEntry { e_result : value; e_vars : option env; e_ms : f64 }.
(** cache.rs:35-42 *)
Record cache_stats := mkCStats { cs_hits : N; cs_misses : N; cs_entries : N; cs_evictions : N; cs_saved : f64 }.
Definition no_stats : cache_stats := mkCStats 0 0 0 0 f_zero.
(** cache.rs:29-32; the LRU cache is the list of its entries, last used first *)
Record cache := mkCache { c_lru : smap entry; c_stats : cache_stats }.
(** cache.rs:55-57 *)
Definition cache_capacity : nat := 1000.
Definition new_cache : cache := mkCache [] no_stats.

(** [LruCache::put] (crate lru): the entry that had the key, if any *)
Definition lru_put (k : str) (e : entry) (m : smap entry) : option entry * smap entry :=
  match mget k m with
  | Some old => (Some old, (k, e) :: mremove k m)
  | None => (None, (k, e) :: if (length m <? cache_capacity)%nat then m else removelast m)
  end.

(** cache.rs:68-79; [LruCache::get_mut] makes the entry the last used *)
Definition cache_get (k : str) (c : cache) : option entry * cache :=
  let s := c_stats c in
  match mget k (c_lru c) with
  | Some e => (Some e, mkCache ((k, e) :: mremove k (c_lru c))
                               (mkCStats (cs_hits s + 1) (cs_misses s) (cs_entries s) (cs_evictions s) (f_add (cs_saved s) (e_ms e))))
  | None => (None, mkCache (c_lru c) (mkCStats (cs_hits s) (cs_misses s + 1) (cs_entries s) (cs_evictions s) (cs_saved s)))
  end.
(** cache.rs:81-86 *)
Definition cache_put (k : str) (e : entry) (c : cache) : cache :=
  let s := c_stats c in
  let '(old, m) := lru_put k e (c_lru c) in
  mkCache m (mkCStats (cs_hits s) (cs_misses s) (N.of_nat (length m))
                      (match old with Some _ => cs_evictions s + 1 | None => cs_evictions s end)%N (cs_saved s)).
(** cache.rs:92-95 *)
Definition cache_clear (c : cache) : cache := mkCache [] no_stats.

(** [Vec<String>::sort]: by code points (UTF-8 order is the same) *)
Fixpoint insert_str (x : str) (xs : list str) : list str :=
  match xs with
  | [] => [x]
  | y :: r => match str_cmp x y with Gt => y :: insert_str x r | _ => x :: xs end
  end.
Definition sort_strs (xs : list str) : list str := fold_right insert_str [] xs.

Section Cached.
  Context {X : Ext}.
  (** cache.rs:99-111 *)
  Definition generate_cache_key (expression : str) (variables : env) : str :=
    match variables with
    | [] => expression
    | _ => expression ++ 124%N :: join [44%N] (sort_strs (map (fun kv => fst kv ++ 58%N :: value_debug (snd kv)) variables))
    end.
  (** [str::contains] *)
  Definition contains (p s : str) : bool := match find_str p s with Some _ => true | None => false end.
  (** cache.rs:136-148: what is evaluated on a miss *)
  Definition evaluate_request (reg : registry) (expression : str) (variables : env) (include_variables : bool) : res (value * option env) :=
    if contains (lit ";") expression || contains (lit ":=") expression
    then if include_variables
         then '(v, ctx) <- evaluate_with_assignments_and_context expression variables ;; Ok (v, Some ctx)
         else v <- evaluate_with_assignments expression variables ;; Ok (v, None)
    else v <- evaluate_with_custom reg expression variables ;; Ok (v, None).
End Cached.
