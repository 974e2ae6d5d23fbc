(** Connections, threads and shutting down. *)
From Coq Require Import List NArith Bool Permutation.
From Verif Require Import Accept Spec_accept Accept_proofs.
Import ListNotations.
Local Open Scope nat_scope.

(** * C83 Connections are served in order, each once, at most one per thread; an interrupted sk_server finishes what it let in *)

(** in every run of either server, at most as many connections are being handled as there are threads *)
Theorem C83_bounded : forall n joins es s, steps n joins begin es = Some s -> length (handled s) <= n.
Proof. exact bounded. Qed.
Print Assumptions C83_bounded.

(** the connections are handled in the order in which they arrive: those started, then those waiting for a thread, then those not let in yet; each started
    connection is being handled or completed, and none is handled twice *)
Theorem C83_in_order : forall n joins es s, steps n joins begin es = Some s ->
  exists started, connections es = started ++ queued s ++ arrived s /\ Permutation started (handled s ++ completed s) /\ length started = count starts es /\ length (completed s) = count ends es.
Proof. exact in_order. Qed.
Print Assumptions C83_in_order.

(** sk_server ends only after an interrupt, and then every connection it let in has been handled to the end *)
Theorem C83_graceful : forall n es s, line_server n es = Some s -> main s = Gone -> handled s = [] /\ queued s = [] /\ Permutation (connections es) (completed s ++ arrived s) /\ In Interrupt es.
Proof. exact gone_line. Qed.
Print Assumptions C83_graceful.

(** after the interrupt at most one more connection is let in *)
Theorem C83_late : forall n joins es s s', running s = false -> steps n joins s es = Some s' -> exists more, length more <= 1 /\ arrived s ++ connections es = more ++ arrived s' /\ (main s <> Accepting -> more = []).
Proof. exact late. Qed.
Print Assumptions C83_late.

(** an interrupted server ends: it takes a bounded number of steps, and while it has not ended it can take one *)
Theorem C83_stops : forall n joins s es s', running s = false -> forallb own es = true -> steps n joins s es = Some s' -> length es <= 2 * length (queued s) + length (handled s) + 5.
Proof. exact stops. Qed.
Print Assumptions C83_stops.
Theorem C83_not_stuck : forall n joins s, 0 < n -> running s = false -> main s <> Gone -> exists e s', own e = true /\ step n joins s e = Some s'.
Proof. exact not_stuck. Qed.
Print Assumptions C83_not_stuck.

(** sk_http_server does not wait: interrupted, it may end while one connection is being handled and another one it let in has not been looked at *)
Theorem C83_http_refuted : forall n, 0 < n -> exists es s, http_server n es = Some s /\ main s = Gone /\ handled s = [1%N] /\ queued s = [2%N] /\ connections es = [1%N; 2%N] /\ completed s = [].
Proof. exact cut_short. Qed.
Print Assumptions C83_http_refuted.

(** as many connections as threads that stay open keep all others waiting, and an interrupted sk_server from ending *)
Theorem C83_held_up_refuted : forall n joins s es s', length (handled s) = n -> (forall c, ~ In (Ends c) es) -> steps n joins s es = Some s' ->
  handled s' = handled s /\ completed s' = completed s /\ (joins = true -> n <> 0 -> main s <> Gone -> main s' <> Gone).
Proof. exact all_taken. Qed.
Print Assumptions C83_held_up_refuted.

Example C83_nonvacuous :
  let es := [Arrives 7; Arrives 8; Arrives 9; Main; Main; Main; Main; Main; Refused; Starts; Starts; Main; Interrupt; Main; Main; Ends 8]%N in
  line_server 2 es = Some (mkPool [] [9%N] [7%N] [8%N] false Joining)
  /\ line_server 2 (es ++ [Starts; Ends 9; Ends 7; Main])%N = Some (mkPool [] [] [] [7; 9; 8]%N false Gone)
  /\ line_server 1 es = None
  /\ http_server 2 es = None
  /\ http_server 2 (removelast es) = Some (mkPool [] [9%N] [8%N; 7%N] [] false Gone).
Proof. vm_compute. repeat split. Qed.
