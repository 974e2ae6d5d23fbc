(** Property theorems about what a cast gives, and about the arguments of functions on arrays. *)
From Coq Require Import Floats.SpecFloat QArith.
From Coq Require Import String List ZArith NArith Bool Lia.
From Verif Require Import Base F64 F64Text Syntax Ext Json Registry Core Methods Evaluator Api Spec Spec_syntax Spec_numbers Spec_text Spec_http Base_proofs Casts_proofs.
From Verif Require Import Spec Spec_http Spec_shown Spec_casts.
Import ListNotations.
Local Open Scope Z_scope.

(** * C93 What a cast gives *)

(** every cast that succeeds gives what [cast_as] says; C31_fails says which succeed, and C31_text_to_integer what Integer makes of a text *)
Theorem C93_cast : forall (X : Ext) e ty c v w, eval e c = Ok v -> doubles v -> (ty = TyInteger -> forall s, v <> VString s) ->
  eval (ETypeCast e ty) c = Ok w -> cast_as v ty w.
Proof. exact @casts. Qed.
Print Assumptions C93_cast.

(** a cast to Json does not make JSON of a text *)
Theorem C93_json_refuted : let X := example_ext in evaluate (lit "'a b'::Json") = Ok (VJson (lit "a b")) /\ json_parse (lit "a b") = None.
Proof. vm_compute. split; reflexivity. Qed.
Print Assumptions C93_json_refuted.

Example C93_nonvacuous :
  let X := example_ext in
  evaluate (lit "(0.00025::Currency)::String") = Ok (VString (lit "0.0003")) /\ evaluate (lit "((0-12.34575)::Currency)::String") = Ok (VString (lit "-12.3458")) /\ evaluate (lit "TRUE::String") = Ok (VString (lit "TRUE")) /\ evaluate (lit "NULL::String") = Ok (VString [])
  /\ evaluate (lit "[1, 'a', [TRUE]]::String") = Ok (VString (lit "[Number(1.0), String(""a""), Array([Boolean(true)])]")) /\ evaluate (lit "[1.5, NULL, [TRUE]]::Json") = Ok (VJson (lit "[1.5,null,[true]]"))
  /\ evaluate (lit "5::Array") = Ok (VArray [num 5]) /\ evaluate (lit "(0-7.9)::DateTime") = Ok (VDateTime (-7)) /\ evaluate (lit "TRUE::Currency") = Ok (VCurrency f_one) /\ doubles (VArray [num 1; VCurrency f_one]).
Proof. vm_compute. repeat split. Qed.

(** * C94 The arguments of functions on arrays *)

(** JOIN puts the separator, a comma if there is none, between the texts of the elements *)
Theorem C94_join : forall (X : Ext) c es xs more, uncustomised c "JOIN" -> evaluate_to c es (VArray xs :: more) -> doubles (VArray xs) -> (forall ys, ~ In (VArray ys) xs) ->
  exists texts s, eval (call "JOIN" es) c = Ok (VString s) /\ Forall2 text_of xs texts /\ joined (separator more) texts s.
Proof. exact @join_values. Qed.
Print Assumptions C94_join.

Theorem C94_join_nested : forall (X : Ext) c es xs more ys, uncustomised c "JOIN" -> evaluate_to c es (VArray xs :: more) -> In (VArray ys) xs -> fails (eval (call "JOIN" es) c).
Proof. exact @join_nested. Qed.
Print Assumptions C94_join_nested.

(** these functions fail unless their first argument is an array *)
Theorem C94_arrays_only : forall (X : Ext) name c es vs, In name array_names -> uncustomised c name -> evaluate_to c es vs -> (forall xs more, vs <> VArray xs :: more) ->
  fails (eval (call name es) c).
Proof. exact @arrays_only. Qed.
Print Assumptions C94_arrays_only.

(** COUNT takes one array; null counts as an empty one *)
Theorem C94_count : forall (X : Ext) c es vs, uncustomised c "COUNT" -> evaluate_to c es vs ->
  (vs = [VNull] -> eval (call "COUNT" es) c = Ok (num 0)) /\ (vs <> [VNull] -> (forall xs, vs <> [VArray xs]) -> fails (eval (call "COUNT" es) c)).
Proof. exact @count_arguments. Qed.
Print Assumptions C94_count.

(** IN takes an array and a value; CONTAINS without a value looks for null *)
Theorem C94_in : forall (X : Ext) c es vs, uncustomised c "IN" -> evaluate_to c es vs -> (forall xs v, vs <> [VArray xs; v]) -> fails (eval (call "IN" es) c).
Proof. exact @in_arguments. Qed.
Print Assumptions C94_in.
Theorem C94_contains_nothing : forall (X : Ext) c es xs, uncustomised c "CONTAINS" -> evaluate_to c es [VArray xs] -> decides (eval (call "CONTAINS" es) c) (In VNull xs).
Proof. exact @contains_nothing. Qed.
Print Assumptions C94_contains_nothing.

Example C94_nonvacuous :
  let X := example_ext in
  evaluate (lit "JOIN([1.5, TRUE, NULL, 'x', 2::Currency, 60::DateTime])") = Ok (VString (lit "1.5,TRUE,,x,2.0000,60")) /\ evaluate (lit "JOIN(['a', 'b'], 5)") = Ok (VString (lit "a,b")) /\ (exists er, evaluate (lit "JOIN([1, [2]])") = Err er)
  /\ In "REVERSE"%string array_names /\ (exists er, evaluate (lit "REVERSE('abc')") = Err er) /\ evaluate (lit "COUNT(NULL)") = Ok (num 0) /\ evaluate (lit "CONTAINS([1, NULL])") = Ok (VBoolean true).
Proof. intros X. split; [vm_compute; reflexivity|]. split; [vm_compute; reflexivity|]. split; [vm_compute; eexists; reflexivity|]. split; [unfold array_names; cbn [In]; tauto|]. split; [vm_compute; eexists; reflexivity|]. split; vm_compute; reflexivity. Qed.
