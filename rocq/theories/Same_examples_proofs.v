(** The same question gets the same answer: examples. *)
From Coq Require Import String List ZArith NArith Bool Lia Permutation.
From Verif Require Import Base Struct F64 Utf8 Syntax Ext Json Registry Methods Core Evaluator Parser Api Lines Host HttpCache HttpServer HttpThreads Spec Spec_syntax Spec_text Spec_http Spec_command Spec_js Spec_json Spec_eval Spec_same.
From Verif Require Import Base_proofs Object_proofs HttpServer_proofs HttpRoutes_proofs HttpExamples_proofs Reply_proofs Same_proofs.
From Verif Require Import Spec_json Spec_eval Spec_same.
Import ListNotations.
Local Open Scope N_scope.

Lemma once : forall text t, In (Arrive (inl t)) (one_by_one 0 [text]) -> t = text.
Proof. intros text t K. cbn [one_by_one repeat app In] in K. repeat (destruct K as [K|K]; [try discriminate K; now injection K as <-|]). contradiction. Qed.
Lemma backward_orders : @orders backward_host.
Proof. intros id kvs. apply Permutation_rev. Qed.
Lemma answered_by : forall s i r, is_answered s i r = true -> answered s i (inl r) (answer_to s i).
Proof. intros s i r. unfold is_answered, answered, job_at, answer_to. destruct (nth_error (sv_jobs s) i) as [[[t|e] [[a|]|f]]|]; try discriminate. intros K. apply str_eqb_eq in K. now subst. Qed.
Lemma told_once : forall (H : Host) text l ls v more t kvs, @orders H -> lines text = l :: ls -> split_whitespace l = lit "POST" :: lit "/eval" :: v :: more -> wants text t -> t_arguments t = Some kvs ->
  is_answered (asked_once H text) 0 text = true -> @told example_ext H None None (first_world []) (one_by_one 0 [text]) 0 t (answer_to (asked_once H text) 0).
Proof.
  intros H text l ls v more t kvs O L W Wt A J. constructor.
  - exact O.
  - reflexivity.
  - intros text' K (l' & ls' & q' & v' & more' & L' & W' & _). apply once in K. subst text'. rewrite L in L'. injection L' as <- _. rewrite W in W'. injection W' as W'. discriminate.
  - intros text' t' K Wt' N. apply once in K. subst text'. destruct (@wants_one example_host _ _ _ Wt Wt') as (_ & _ & _ & K). rewrite A, N in K. contradiction.
  - exists text. split; [exact Logic.I|]. split; [exact Wt|]. unfold asked_once in *. apply answered_by. exact J.
Qed.
Definition sum_task : task := mkTask (lit ":a_1 + :b") (Some [(lit "a-1", JNum (JPos 1)); (lit "b", JNum (JPos 2))]) false nothing.
Definition name_task : task := mkTask (lit ":a_b") (Some [(lit "a-b", JNum (JPos 1)); (lit "a_b", JNum (JPos 2))]) false nothing.
Definition text_task : task := mkTask (lit ":arguments::String") (Some [(lit "a", JNum (JPos 1)); (lit "b", JNum (JPos 2))]) false nothing.
Ltac told_by := eapply told_once; [first [exact example_orders|exact backward_orders]|vm_compute; reflexivity|vm_compute; reflexivity
  |eapply wants_by_post with (q := []); [vm_compute; reflexivity|vm_compute; reflexivity|now left|vm_compute; reflexivity|vm_compute; reflexivity]|reflexivity|vm_compute; reflexivity].
Lemma mentions_by : forall part text a b, str_eqb text (a ++ lit part ++ b) = true -> mentions part text.
Proof. intros part text a b K. apply str_eqb_eq in K. now exists a, b. Qed.
Lemma sum_apart : let X := example_ext in apart (t_arguments sum_task).
Proof.
  intros X kvs before k j after k' name E El I Sk Sk'. injection E as <-. apply sanitised_iff in Sk, Sk'. subst name.
  destruct before as [|p [|p' [|]]]; [| |discriminate|discriminate]; injection El; intros; subst; cbn in I; destruct I as [<- |[]]; vm_compute in Sk'; discriminate.
Qed.
Lemma sum_by_name : by_name (t_expression sum_task).
Proof. intros e P. vm_compute in P. injection P as <-. cbn. intuition discriminate. Qed.
Lemma same_example : let X := example_ext in
  (let H := example_host in told None None (first_world []) (one_by_one 0 [asking_sum """a-1"":1,""b"":2"]) 0 sum_task (answer_to (asked_once H (asking_sum """a-1"":1,""b"":2")) 0))
  /\ (let H := backward_host in told None None (first_world []) (one_by_one 0 [asking_sum """b"":2, ""a-1"":1"]) 0 sum_task (answer_to (asked_once H (asking_sum """b"":2, ""a-1"":1")) 0))
  /\ apart (t_arguments sum_task) /\ by_name (t_expression sum_task) /\ alike sum_task sum_task.
Proof.
  intros X. split; [told_by|]. split; [told_by|]. split; [exact sum_apart|]. split; [exact sum_by_name|]. repeat split. apply Permutation_refl.
Qed.
Lemma names_refuted : exists t a a', let X := example_ext in
  (let H := example_host in told None None (first_world []) (one_by_one 0 [asking_name]) 0 t a) /\ (let H := backward_host in told None None (first_world []) (one_by_one 0 [asking_name]) 0 t a')
  /\ by_name (t_expression t) /\ mentions """result"":2.0" a /\ mentions """result"":1.0" a'.
Proof.
  exists name_task, (answer_to (asked_once example_host asking_name) 0), (answer_to (asked_once backward_host asking_name) 0). intros X. split; [told_by|]. split; [told_by|].
  split. { intros e P. vm_compute in P. injection P as <-. cbn. intuition discriminate. }
  split; [set (a := answer_to (asked_once example_host asking_name) 0)|set (a := answer_to (asked_once backward_host asking_name) 0)];
    (apply (mentions_by _ a (firstn (length a - 65) a) (skipn (length a - 53) a)); vm_compute; reflexivity).
Qed.
Lemma text_refuted : exists t a a', let X := example_ext in
  (let H := example_host in told None None (first_world []) (one_by_one 0 [asking_text]) 0 t a) /\ (let H := backward_host in told None None (first_world []) (one_by_one 0 [asking_text]) 0 t a')
  /\ apart (t_arguments t) /\ mentions """{\""a\"":1,\""b\"":2}""" a /\ mentions """{\""b\"":2,\""a\"":1}""" a'.
Proof.
  exists text_task, (answer_to (asked_once example_host asking_text) 0), (answer_to (asked_once backward_host asking_text) 0). intros X. split; [told_by|]. split; [told_by|].
  split.
  { intros kvs before k j after k' name E El I Sk Sk'. injection E as <-. apply sanitised_iff in Sk, Sk'. subst name.
    destruct before as [|p [|p' [|]]]; [| |discriminate|discriminate]; injection El; intros; subst; cbn in I; destruct I as [<- |[]]; vm_compute in Sk'; discriminate. }
  split; [set (a := answer_to (asked_once example_host asking_text) 0)|set (a := answer_to (asked_once backward_host asking_text) 0)];
    (apply (mentions_by _ a (firstn (length a - 72) a) (skipn (length a - 53) a)); vm_compute; reflexivity).
Qed.
