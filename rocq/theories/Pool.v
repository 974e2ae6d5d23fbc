(** [memory_pool.rs:5-130]: the pool of variable maps, used by several threads.

    One step of the model is one access to shared state: taking the lock, one
    action on the vector behind it, releasing it, or one operation on an atomic
    counter.  Any thread may run between two steps.  Simplifications: the lock
    is never poisoned (no code that runs while it is held can panic, short of
    running out of memory, so the [else] branches of [if let Ok(..)] are not
    taken); the counters do not overflow; atomic operations take effect in one
    global order. *)
From Coq Require Import String List ZArith NArith Bool Arith.
From Verif Require Import Base F64 Syntax Methods FnCache Cow.
Import ListNotations.
Local Open Scope nat_scope.

(** what a thread is in the middle of *)
Inductive pc :=
| Idle
| AcqLock                       (* :26 about to lock *)
| AcqPop                        (* :27 holds the lock, about to pop *)
| AcqCount (m : env) (reused : bool)  (* :29, :32 holds the lock and the map, about to count *)
| AcqUnlock (m : env)           (* :40 guard dropped, the context returned *)
| RelLock (m : env)             (* :45 about to lock *)
| RelCheck (m : env)            (* :46 holds the lock, about to compare the size *)
| RelPush (m : env)             (* :47-48 holds the lock, about to clear and push *)
| RelUnlock                     (* :51 guard dropped *)
| StLock                        (* :56 about to lock *)
| StSize                        (* :56 holds the lock, about to read the size *)
| StCreated (size : nat)        (* :57 *)
| StReused (size created : nat). (* :58 *)

(** a thread: where it is, and the contexts it owns ([PooledContext]) *)
Record thread := mkThread { t_pc : pc; t_owned : list env }.
(** what the callers see, the newest first *)
Inductive seen :=
| AcquireCalled (t : nat)
| Acquired (t : nat) (m : env)
| StatsCalled (t : nat)
| Stats (t : nat) (size created reused : nat) (rate : f64).
Record pool := mkPool {
  p_max : nat;
  p_items : list env;           (* the vector, its last element first *)
  p_lock : option nat;
  p_created : nat;
  p_reused : nat;
  p_threads : nat -> thread;
  p_seen : list seen
}.
(** [memory_pool.rs:15-22] *)
Definition pool_new (max : nat) : pool := mkPool max [] None 0 0 (fun _ => mkThread Idle []) [].

(** what a thread may do: call a method when it is idle, use a context it owns, or run on *)
Inductive event :=
| Acquire (t : nat)             (* [acquire] *)
| Drop (t : nat) (i : nat)      (* [drop] of its [i]-th context *)
| Insert (t : nat) (i : nat) (k : str) (v : value) (* [PooledContext::insert] *)
| WithBase (t : nat) (i : nat) (m : env) (* [PooledContext::with_base] *)
| GetStats (t : nat)            (* [stats] *)
| Run (t : nat).                (* one step *)

Definition set_thread (p : pool) (t : nat) (th : thread) : pool :=
  mkPool (p_max p) (p_items p) (p_lock p) (p_created p) (p_reused p)
         (fun u => if Nat.eqb u t then th else p_threads p u) (p_seen p).
Definition note (p : pool) (s : seen) : pool :=
  mkPool (p_max p) (p_items p) (p_lock p) (p_created p) (p_reused p) (p_threads p) (s :: p_seen p).
Definition set_items (p : pool) (l : list env) : pool :=
  mkPool (p_max p) l (p_lock p) (p_created p) (p_reused p) (p_threads p) (p_seen p).
Definition set_lock (p : pool) (l : option nat) : pool :=
  mkPool (p_max p) (p_items p) l (p_created p) (p_reused p) (p_threads p) (p_seen p).
Definition count (p : pool) (reused : bool) : pool :=
  mkPool (p_max p) (p_items p) (p_lock p) (if reused then p_created p else S (p_created p))
         (if reused then S (p_reused p) else p_reused p) (p_threads p) (p_seen p).
Definition go (p : pool) (t : nat) (c : pc) : pool := set_thread p t (mkThread c (t_owned (p_threads p t))).
Definition own (p : pool) (t : nat) (l : list env) : pool := set_thread p t (mkThread (t_pc (p_threads p t)) l).

Fixpoint remove_at {A} (i : nat) (l : list A) : list A :=
  match l, i with
  | [], _ => []
  | _ :: r, O => r
  | x :: r, S i => x :: remove_at i r
  end.
Fixpoint replace_at {A} (i : nat) (a : A) (l : list A) : list A :=
  match l, i with
  | [], _ => []
  | _ :: r, O => a :: r
  | x :: r, S i => x :: replace_at i a r
  end.

(** [HashMap::clear] *)
Definition clear (m : env) : env := [].

(** one step of thread [t]; [None]: it cannot run *)
Definition run (p : pool) (t : nat) : option pool :=
  let th := p_threads p t in
  match t_pc th with
  | Idle => None
  (* memory_pool.rs:25-41 *)
  | AcqLock => match p_lock p with
               | None => Some (go (set_lock p (Some t)) t AcqPop)
               | Some _ => None
               end
  | AcqPop => match p_items p with
              | m :: r => Some (go (set_items p r) t (AcqCount (clear m) true))
              | [] => Some (go p t (AcqCount [] false))
              end
  | AcqCount m reused => Some (go (count p reused) t (AcqUnlock m))
  | AcqUnlock m => Some (note (set_thread (set_lock p None) t (mkThread Idle (m :: t_owned th))) (Acquired t m))
  (* memory_pool.rs:44-53 *)
  | RelLock m => match p_lock p with
                 | None => Some (go (set_lock p (Some t)) t (RelCheck m))
                 | Some _ => None
                 end
  | RelCheck m => Some (go p t (if length (p_items p) <? p_max p then RelPush m else RelUnlock))
  | RelPush m => Some (go (set_items p (clear m :: p_items p)) t RelUnlock)
  | RelUnlock => Some (go (set_lock p None) t Idle)
  (* memory_pool.rs:55-69 *)
  | StLock => match p_lock p with
              | None => Some (go (set_lock p (Some t)) t StSize)
              | Some _ => None
              end
  | StSize => Some (go (set_lock p None) t (StCreated (length (p_items p))))
  | StCreated n => Some (go p t (StReused n (p_created p)))
  | StReused n c => Some (note (go p t Idle)
      (Stats t n c (p_reused p) (percentage (N.of_nat (p_reused p)) (N.of_nat c))))
  end.

Definition idle (p : pool) (t : nat) : bool := match t_pc (p_threads p t) with Idle => true | _ => false end.
(** one event; [None]: it is not possible in this state *)
Definition step (p : pool) (e : event) : option pool :=
  match e with
  | Acquire t => if idle p t then Some (note (go p t AcqLock) (AcquireCalled t)) else None
  | GetStats t => if idle p t then Some (note (go p t StLock) (StatsCalled t)) else None
  (* memory_pool.rs:124-130 *)
  | Drop t i => if idle p t then
      match nth_error (t_owned (p_threads p t)) i with
      | Some m => Some (go (own p t (remove_at i (t_owned (p_threads p t)))) t (RelLock m))
      | None => None
      end else None
  (* memory_pool.rs:104-106 *)
  | Insert t i k v => if idle p t then
      match nth_error (t_owned (p_threads p t)) i with
      | Some m => Some (own p t (replace_at i (minsert k v m) (t_owned (p_threads p t))))
      | None => None
      end else None
  (* memory_pool.rs:97-101 *)
  | WithBase t i base => if idle p t then
      match nth_error (t_owned (p_threads p t)) i with
      | Some m => Some (own p t (replace_at i (extend m base) (t_owned (p_threads p t))))
      | None => None
      end else None
  | Run t => run p t
  end.
(** [p'] is reached from [p] by the events [es], in this order *)
Fixpoint steps (p : pool) (es : list event) : option pool :=
  match es with
  | [] => Some p
  | e :: r => match step p e with Some p' => steps p' r | None => None end
  end.
