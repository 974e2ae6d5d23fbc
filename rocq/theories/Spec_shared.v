(** Vocabulary for the objects shared between threads: the cache of functions,
    the pool of variable maps, copy-on-write variables. *)
From Coq Require Import String List ZArith NArith QArith Bool Arith.
From Verif Require Import Base F64 Syntax Ext Methods Registry FnCache Pool Cow Spec_numbers Spec_registry.
Import ListNotations.
Local Open Scope nat_scope.

(** a percentage: a finite number between 0 and 100 *)
Definition is_percentage (x : f64) : Prop := is_finite x = true /\ (0 <= exact x <= 100)%Q.

(** ** Cache of functions *)
Section Cache.
  Context {X : Ext}.
  (** what happens to a cache and the registry behind it: other threads change
      the registry, the owner looks functions up and clears the cache *)
  Inductive cache_event := Change (o : operation) | Look (name : str) | Clear.
  (** the changes of the registry in a history *)
  Definition changes (h : list cache_event) : list operation :=
    flat_map (fun e => match e with Change o => [o] | _ => [] end) h.
  Definition cache_step (s : registry * fn_cache) (e : cache_event) : registry * fn_cache :=
    let (r, c) := s in
    match e with
    | Change (Register f) => (match shared_register r f with Ok r' => r' | _ => r end, c)
    | Change (Unregister n) => (snd (shared_unregister r n), c)
    | Look n => (r, snd (cache_get r c n))
    | Clear => (r, cache_clear c)
    end.
  (** the registry and the cache after a history, the oldest event first *)
  Definition cache_after (h : list cache_event) : registry * fn_cache := fold_left cache_step h (reg_new, cache_new).
  (** what a lookup now answers *)
  Definition answer (h : list cache_event) (name : str) : option custom_fn :=
    let (r, c) := cache_after h in fst (cache_get r c name).

  (** what [stats] reports *)
  Definition hits (h : list cache_event) : N := fst (fst (cache_stats (snd (cache_after h)))).
  Definition misses (h : list cache_event) : N := snd (fst (cache_stats (snd (cache_after h)))).

  Definition not_clear (e : cache_event) : Prop := e <> Clear.
  (** since the last [Clear], [f] is what the registry held under [name] the
      first time that a lookup of it succeeded *)
  Definition remembers (h : list cache_event) (name : str) (f : custom_fn) : Prop :=
    exists h1 n h2, h = h1 ++ Look n :: h2 /\ same_name n name /\ Forall not_clear h2 /\ registered (changes h1) name f /\
      forall a m b g, h1 = a ++ Look m :: b -> same_name m name -> Forall not_clear b -> ~ registered (changes a) name g.

  (** the registry shared between threads after a history of calls, whichever thread made each of them *)
  Definition shared_step (r : registry) (o : operation) : registry :=
    match o with
    | Register f => match shared_register r f with Ok r' => r' | _ => r end
    | Unregister n => snd (shared_unregister r n)
    end.
  Definition shared_after (h : list operation) : registry := fold_left shared_step h reg_new.
End Cache.

(** ** Pool *)
(** the pool [p] is reached by some interleaving of any number of threads *)
Definition reached (max : nat) (p : pool) : Prop := exists es, steps (pool_new max) es = Some p.
Definition quiet (p : pool) : Prop := forall t, t_pc (p_threads p t) = Idle.
(** calls of acquire that began, and that returned *)
Definition calls (l : list seen) : nat := length (filter (fun s => match s with AcquireCalled _ => true | _ => false end) l).
Definition acquired (l : list seen) : nat := length (filter (fun s => match s with Acquired _ _ => true | _ => false end) l).

(** ** Copy-on-write variables *)
Definition inserts (c : cow) (kvs : list (str * value)) : cow := fold_left (fun c kv => cow_insert c (fst kv) (snd kv)) kvs c.
