(** Property theorems about the same question asked twice. *)
From Coq Require Import String List ZArith NArith Bool Permutation.
From Verif Require Import Base F64 Utf8 Syntax Ext Json Registry Methods Core Evaluator Parser Api Lines Host HttpCache HttpServer HttpThreads Spec Spec_syntax Spec_text Spec_http Spec_command Spec_js Spec_json Spec_eval HttpExamples_proofs Same_proofs Same_examples_proofs.
From Verif Require Import Spec_json Spec_eval Spec_same.
Import ListNotations.
Local Open Scope N_scope.

(** * C89 The HTTP server gives the same answer to the same question
    [told … t answer]: a request for [t] was given [answer], among any requests served by
    threads in any order.  The two may be of one run or of two, of the same server or
    of two on different computers ([H], [H']): order of maps, times and earlier
    requests do not matter, as long as the functions are the same. *)
Theorem C89_same : forall (X : Ext) (H H' : Host) (token token' admin admin' : option str) (w w' : world) evs evs' i i' t t' answer answer', unicode X ->
  @told X H token admin w evs i t answer -> @told X H' token' admin' w' evs' i' t' answer' -> w_registry w = w_registry w' ->
  apart (t_arguments t) -> by_name (t_expression t) -> alike t t' -> same_answer answer answer'.
Proof. exact @told_same. Qed.
Print Assumptions C89_same.

Example C89_nonvacuous : let X := example_ext in
  (let H := example_host in told None None (first_world []) (one_by_one 0 [asking_sum """a-1"":1,""b"":2"]) 0 sum_task (answer_to (asked_once H (asking_sum """a-1"":1,""b"":2")) 0))
  /\ (let H := backward_host in told None None (first_world []) (one_by_one 0 [asking_sum """b"":2, ""a-1"":1"]) 0 sum_task (answer_to (asked_once H (asking_sum """b"":2, ""a-1"":1")) 0))
  /\ apart (t_arguments sum_task) /\ by_name (t_expression sum_task) /\ alike sum_task sum_task.
Proof. exact same_example. Qed.

(** of two arguments that become the same name, either may win *)
Theorem C89_names_refuted : exists t a a', let X := example_ext in
  (let H := example_host in told None None (first_world []) (one_by_one 0 [asking_name]) 0 t a) /\ (let H := backward_host in told None None (first_world []) (one_by_one 0 [asking_name]) 0 t a')
  /\ by_name (t_expression t) /\ mentions """result"":2.0" a /\ mentions """result"":1.0" a'.
Proof. exact names_refuted. Qed.
Print Assumptions C89_names_refuted.

(** the text of all arguments has them in any order *)
Theorem C89_text_refuted : exists t a a', let X := example_ext in
  (let H := example_host in told None None (first_world []) (one_by_one 0 [asking_text]) 0 t a) /\ (let H := backward_host in told None None (first_world []) (one_by_one 0 [asking_text]) 0 t a')
  /\ apart (t_arguments t) /\ mentions """{\""a\"":1,\""b\"":2}""" a /\ mentions """{\""b\"":2,\""a\"":1}""" a'.
Proof. exact text_refuted. Qed.
Print Assumptions C89_text_refuted.
