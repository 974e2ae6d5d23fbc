(** Calls of functions written in JavaScript: examples. *)
From Coq Require Import String List ZArith NArith Bool Lia.
From Verif Require Import Base F64 Utf8 Syntax Ext Registry Methods Core Evaluator Api JsEngine Host JsPlugin HttpServer Spec Spec_registry Spec_crash Spec_http Spec_cross Spec_js Spec_start Spec_jscall.
From Verif Require Import Base_proofs Start_proofs Cross_proofs Jscall_proofs.
Import ListNotations.
Local Open Scope N_scope.

Lemma echo_calls : forall (H : Host) v, let X := example_ext in calls echo_function (lit "Echo") [EVariable (lit "x")] [(lit "x", v)] echo_registry [v].
Proof.
  intros H v X. constructor.
  - exists [echo_function], [], []. split; [|split; [reflexivity|intros g []]]. exact (fold_registered [echo_function]).
  - split; [reflexivity|]. cbn. intuition discriminate.
  - constructor; [reflexivity|constructor].
  - split; [vm_compute; discriminate|]. intros m K. injection K as <-. vm_compute. discriminate.
Qed.
Lemma echo_back : forall v, let X := example_ext in let H := echo_host in gives_back echo_function [v] 0.
Proof. intros v X H. exists [value_to_js v], (value_to_js v). split; [now apply arguments_in|]. now split. Qed.
Lemma crossing_example : let X := example_ext in let H := echo_host in
  (forall v, calls echo_function (lit "Echo") [EVariable (lit "x")] [(lit "x", v)] echo_registry [v] /\ gives_back echo_function [v] 0)
  /\ evaluate_with_custom echo_registry (lit "echo([1.5, ""a" ++ [128512] ++ lit """, [true, null]])") [] = Ok (VArray [VNumber (f_div (f_of_Z 3) (f_of_Z 2)); VString (97 :: [128512]); VArray [VBoolean true; VNull]])
  /\ evaluate_with_custom echo_registry (lit "echo(2::Currency)") [] = Ok (VNumber (f_of_Z 2))
  /\ goes_in (VString [128512]) (JsText [55357; 56832]) /\ ~ (exists v, comes_out (JsText [55357]) v).
Proof.
  intros X H. split; [|split; [|split; [|split]]].
  - intros v. split; [exact (echo_calls H v)|exact (echo_back v)].
  - vm_compute. reflexivity.
  - vm_compute. reflexivity.
  - now apply goes_in_iff.
  - intros (v & C). apply comes_out_iff in C. discriminate.
Qed.
Lemma loop_example : let X := example_ext in let H := loop_host in
  (forall v, calls echo_function (lit "Echo") [EVariable (lit "x")] [(lit "x", v)] echo_registry [v]) /\ exists x, evaluate_with_custom echo_registry (lit "[1, 2].map(echo(:x)) ") [] = Panic x.
Proof. intros X H. split; [exact (echo_calls H)|]. eexists. vm_compute. reflexivity. Qed.
Lemma types_refuted : ~ (forall (X : Ext) (H : Host) f call es vars reg vs i v, calls f call es vars reg vs -> Forall unicode_value vs -> gives_back f vs i -> nth_error vs i = Some v ->
  eval (EFunctionCall call es) (custom_ctx vars reg) = Ok v).
Proof.
  intros K. specialize (K example_ext echo_host echo_function (lit "Echo") [EVariable (lit "x")] [(lit "x", VCurrency f_zero)] echo_registry [VCurrency f_zero] 0%nat (VCurrency f_zero) (@echo_calls echo_host _)).
  assert (Forall unicode_value [VCurrency f_zero]) as U by (repeat constructor). specialize (K U (echo_back _) eq_refl). vm_compute in K. discriminate.
Qed.
Lemma engine_example : let X := example_ext in let H := echo_host in engine_doubles /\ exists l, registered_as l echo_registry.
Proof.
  intros X H. split.
  - intros code args r D E. cbn in E. destruct args as [|a args]; [discriminate|]. injection E as <-. now inversion D.
  - exists [echo_function]. exact (fold_registered [echo_function]).
Qed.
