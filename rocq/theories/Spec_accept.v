(** Vocabulary for runs of the accept loop and the thread pool. *)
From Coq Require Import List NArith Bool.
From Verif Require Import Accept.
Import ListNotations.

(** the connections a run lets in, in their order *)
Fixpoint connections (es : list event) : list N :=
  match es with [] => [] | Arrives c :: r => c :: connections r | _ :: r => connections r end.
(** how often something is done in a run *)
Fixpoint count (e : event -> bool) (es : list event) : nat :=
  match es with [] => 0 | x :: r => (if e x then 1 else 0) + count e r end.
Definition starts (e : event) : bool := match e with Starts => true | _ => false end.
Definition ends (e : event) : bool := match e with Ends _ => true | _ => false end.
(** what the server does by itself, as opposed to clients and the operator *)
Definition own (e : event) : bool := match e with Arrives _ | Interrupt => false | _ => true end.
