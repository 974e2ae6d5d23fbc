(** Servers in the background. *)
From Coq Require Import String List ZArith NArith Bool.
From Verif Require Import Base ServerArgs Daemon Spec_daemon Daemon_proofs.
Import ListNotations.
Local Open Scope N_scope.

(** * C82 A server started with --daemon is detached, and its pid file names the process that serves *)

(** when every call to the operating system succeeds, the program goes on as the second child: it is in a session of its own that it does not lead, both
    parents have ended with status 0, output goes nowhere, other descriptors are kept, and the pid file alone has changed: it has the number of the serving process *)
Theorem C82_detached : forall o s w c d, s_daemon s = true -> fresh o w -> exited w = [] -> succeeds o c d -> exists w',
  enter o s w = Goes w' /\ pid (current w') = d /\ session (current w') = c /\ session (current w') <> pid (current w') /\ session (current w') <> session (current w)
  /\ exited w' = [(c, 0); (pid (current w), 0)]
  /\ refers (current w') 1 DevNull /\ refers (current w') 2 DevNull /\ (forall n, 2 < n -> descriptor n (descriptors (current w')) = descriptor n (descriptors (current w)))
  /\ (forall f, mget f (stored w') = if str_eqb f (s_pid_file s) then Some (N_to_str d ++ [10]) else mget f (stored w)) /\ reported w' = reported w.
Proof. exact daemon_runs. Qed.
Print Assumptions C82_detached.

(** when a call fails, nothing serves, no pid file is written, and the process that found out ends with status 1 *)
Theorem C82_fails : forall o s w, s_daemon s = true -> (forall c d, ~ succeeds o c d) -> exists w',
  enter o s w = Ended w' /\ stored w' = stored w /\ In (pid (current w'), 1) (exited w').
Proof. exact daemon_fails. Qed.
Print Assumptions C82_fails.

Theorem C82_foreground : forall o s w, s_daemon s = false -> enter o s w = Goes w.
Proof. exact foreground. Qed.
Print Assumptions C82_foreground.

(** the status of the command says nothing about the server: once the first fork succeeds, the process that was started ends with status 0 whatever happens later *)
Theorem C82_status_refuted : forall o s w c, s_daemon s = true -> fresh o w -> exited w = [] -> first_child o = Some c -> exists w',
  (enter o s w = Goes w' \/ enter o s w = Ended w') /\ status_of (pid (current w)) w' 0.
Proof. exact daemon_status. Qed.
Print Assumptions C82_status_refuted.

(** standard input is not redirected to /dev/null but left closed, so that the next file or socket opened becomes descriptor 0 *)
Theorem C82_input_refuted : forall o s w c d w' t, s_daemon s = true -> succeeds o c d -> enter o s w = Goes w' ->
  closed (current w') 0 /\ fst (open t (descriptors (current w'))) = 0.
Proof. exact daemon_input. Qed.
Print Assumptions C82_input_refuted.

(** files are opened as the lowest descriptor not in use *)
Theorem C82_open_lowest : forall t ds, let n := fst (open t ds) in ~ In n (map fst ds) /\ (forall m, m < n -> In m (map fst ds)) /\ snd (open t ds) = (n, t) :: ds.
Proof. exact open_lowest. Qed.
Print Assumptions C82_open_lowest.

Example C82_nonvacuous :
  let good := mkSystem (Some 101) true (Some 102) true true in
  succeeds good 101 102 /\ fresh good example_shell
  /\ enter good example_daemon example_shell = Goes (mkWorld (mkProcess 102 101 [(2, DevNull); (1, DevNull); (5, Inherited 5)]) [(101, 0); (100, 0)] [(lit "a.pid", lit "102" ++ [10])] [])
  /\ enter (mkSystem (Some 101) true (Some 102) true false) example_daemon example_shell = Ended (mkWorld (mkProcess 102 101 [(2, DevNull); (1, DevNull); (5, Inherited 5)]) [(102, 1); (101, 0); (100, 0)] [] [])
  /\ (forall c d, ~ succeeds (mkSystem (Some 101) false (Some 102) true true) c d)
  /\ match enter (mkSystem (Some 101) false (Some 102) true true) example_daemon example_shell with Ended w => reported w = [(Inherited 2, lit "Failed to daemonize: Failed to create new session")] | Goes _ => False end
  /\ match enter (mkSystem (Some 101) true (Some 102) false true) example_daemon example_shell with Ended w => reported w = [] | Goes _ => False end.
Proof.
  split; [repeat split|]. split; [|repeat split; try reflexivity; now intros c d (_ & K & _)].
  intros c [= <-]. split; [discriminate|]. split; [discriminate|]. intros d [= <-]. repeat split; discriminate.
Qed.
