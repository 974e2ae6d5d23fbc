(** Vocabulary for starting in the background. *)
From Coq Require Import String List ZArith NArith Bool.
From Verif Require Import Base ServerArgs Daemon.
Import ListNotations.
Local Open Scope N_scope.

(** the operating system never gives a new process the number of a process or session that exists *)
Definition fresh (o : system) (w : world) : Prop :=
  forall c, first_child o = Some c -> c <> pid (current w) /\ c <> session (current w) /\
  forall d, second_child o = Some d -> d <> c /\ d <> pid (current w) /\ d <> session (current w).
(** descriptor [n] of the process refers to [t] *)
Definition refers (p : process) (n : N) (t : target) : Prop := descriptor n (descriptors p) = Some t.
Definition closed (p : process) (n : N) : Prop := descriptor n (descriptors p) = None.
(** all calls to the operating system succeed *)
Definition succeeds (o : system) (c d : N) : Prop :=
  first_child o = Some c /\ new_session o = true /\ second_child o = Some d /\ null_opens o = true /\ file_stored o = true.
(** the process that was started ended with this status; a process has one status at most *)
Definition status_of (n : N) (w : world) (k : N) : Prop := In (n, k) (exited w) /\ forall k', In (n, k') (exited w) -> k' = k.
(** descriptors in use have one target each *)
Definition table (p : process) : Prop := NoDup (map fst (descriptors p)).
(** a shell that starts a server in the background *)
Definition example_shell : world := mkWorld (mkProcess 100 90 [(0, Inherited 0); (1, Inherited 1); (2, Inherited 2); (5, Inherited 5)]) [] [] [].
Definition example_daemon : settings := mkSettings 5074 (lit "127.0.0.1") 8 true (lit "a.pid") None None.
