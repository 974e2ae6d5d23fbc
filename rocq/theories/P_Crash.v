(** Where evaluation can crash, and that its numbers are doubles. *)
From Coq Require Import String List ZArith NArith Bool.
From Coq Require Import Floats.SpecFloat.
From Verif Require Import Base F64 F64Text Syntax Parser Ext Json Registry Methods Core Evaluator Api Spec Spec_text Spec_http Spec_crash Crash_proofs Crash_examples_proofs.
Import ListNotations.

(** * C59 Evaluation crashes only where the list says *)

(** if an evaluation crashes, the text starts with two '=', or it contains a
    position that can be -2^63 or less, a call of a built-in function that can
    be given values it crashes on, a call of a registered function that crashes
    on values it can be given, or a call of the method sort on an array that can
    hold a NaN *)
Theorem C59_located : forall (X : Ext) reg input vars w, evaluate_with_custom reg input vars = Panic w -> can_crash reg input.
Proof. exact @custom_located. Qed.
Print Assumptions C59_located.

Theorem C59_located_variables : forall (X : Ext) input vars w, evaluate_with input vars = Panic w -> can_crash [] input.
Proof. exact @with_located. Qed.
Print Assumptions C59_located_variables.

Theorem C59_located_plain : forall (X : Ext) input w, evaluate input = Panic w -> can_crash [] input.
Proof. exact @plain_located. Qed.
Print Assumptions C59_located_plain.

Theorem C59_located_json : forall (X : Ext) reg input text w, evaluate_with_json_custom reg input text = Panic w -> can_crash reg input.
Proof. exact @json_custom_located. Qed.
Print Assumptions C59_located_json.

Theorem C59_located_json_plain : forall (X : Ext) input text w, evaluate_with_json input text = Panic w -> can_crash [] input.
Proof. exact @json_located. Qed.
Print Assumptions C59_located_json_plain.

Theorem C59_located_assignments : forall (X : Ext) input vars w,
  evaluate_with_assignments input vars = Panic w \/ evaluate_with_assignments_and_context input vars = Panic w -> can_crash [] input.
Proof. exact @either_located. Qed.
Print Assumptions C59_located_assignments.

(** an expression none of whose parts is on the list crashes for no variables at all *)
Theorem C59_harmless : forall (X : Ext) reg input vars e, parse input = Ok e -> (forall s, part s e -> harmless reg s) ->
  forall w, evaluate_with_custom reg input vars <> Panic w.
Proof. exact @never_crashes. Qed.
Print Assumptions C59_harmless.

(** so evaluation is not free of crashes: every kind on the list happens *)
Theorem C59_no_crash_refuted :
  let X := example_ext in
  ~ (forall input w, evaluate input <> Panic w)
  /\ Forall (fun t => exists w, evaluate (lit t) = Panic w)
       [" ==1"; "[1, 2][0 - 1/0]"; "[[3]][0][0 - 9300000000000000000]"; "1 + SORT([3, SQRT(0-1)])[0]"; "MEDIAN(1, SQRT(0 - 1))";
        "PERCENTILE_INC(SQRT(0 - 1), 1, 0.5)"; "QUARTILE_INC([1, SQRT(0 - 1)], 2)"; "DATEADD(DATE(2024,3,1), 99999999999, ""days"")";
        "[1].map(MEDIAN(:x, SQRT(0 - :x)))"]%string
  /\ (exists w, evaluate_with_custom [(lit "BOOM", mkFn (lit "BOOM") 0 None (fun _ => Panic "boom"))] (lit "1 + boom()") [] = Panic w)
  /\ (exists w, @evaluate sorting_panics (lit "[1, SQRT(0 - 1)].sort()") = Panic w).
Proof. exact no_crash_refuted. Qed.
Print Assumptions C59_no_crash_refuted.
Example C59_harmless_nonvacuous :
  let X := example_ext in
  exists e, parse (lit "SUM([1, 2, :x].map(:x * 2)) + :y > 2 ? ""a"".upper() : MAX(...[1, 2][0:1])") = Ok e /\ (forall s, part s e -> harmless [] s).
Proof. exact harmless_example. Qed.

(** * C61 The numbers of a result are doubles, and their texts read back *)

(** numbers of results are 64-bit floating-point numbers, whatever the
    expression, if the platform's functions, the registered functions and the
    variables hold such numbers *)
Theorem C61_doubles : forall (X : Ext) reg input vars v, platform_doubles X -> functions_double reg -> variables_double vars ->
  evaluate_with_custom reg input vars = Ok v -> doubles v.
Proof. exact @doubles_custom. Qed.
Print Assumptions C61_doubles.

Theorem C61_doubles_variables : forall (X : Ext) input vars v, platform_doubles X -> variables_double vars -> evaluate_with input vars = Ok v -> doubles v.
Proof. exact @doubles_with. Qed.
Print Assumptions C61_doubles_variables.

(** variables read from JSON need no condition *)
Theorem C61_doubles_json : forall (X : Ext) reg input text v, platform_doubles X -> functions_double reg ->
  evaluate_with_json_custom reg input text = Ok v -> doubles v.
Proof. exact @doubles_json. Qed.
Print Assumptions C61_doubles_json.

Theorem C61_doubles_json_plain : forall (X : Ext) input text v, platform_doubles X -> evaluate_with_json input text = Ok v -> doubles v.
Proof. exact @doubles_plain_json. Qed.
Print Assumptions C61_doubles_json_plain.

(** nor do variables assigned on the way leave the doubles *)
Theorem C61_doubles_assignments : forall (X : Ext) input vars v vars', platform_doubles X -> variables_double vars ->
  evaluate_with_assignments_and_context input vars = Ok (v, vars') -> doubles v /\ variables_double vars'.
Proof. exact @doubles_assignments. Qed.
Print Assumptions C61_doubles_assignments.

(** so a result written as text denotes the result, and casting the text back gives it *)
Theorem C61_text : forall (X : Ext) reg input vars e x, platform_doubles X -> functions_double reg -> variables_double vars -> parse input = Ok e ->
  evaluate_with_custom reg input vars = Ok (VNumber x) ->
  (exists s, eval (ETypeCast e TyString) (custom_ctx vars reg) = Ok (VString s) /\ float_text s x) /\
  eval (ETypeCast (ETypeCast e TyString) TyFloat) (custom_ctx vars reg) = Ok (VNumber x).
Proof. exact @text_of_result. Qed.
Print Assumptions C61_text.
Example C61_nonvacuous :
  let X := example_ext in
  let reg := [(lit "TWICE", mkFn (lit "TWICE") 1 (Some 1%N) (fun vs => match vs with [VNumber n] => Ok (VNumber (f_add n n)) | _ => Err (err "no") end))] in
  let vars := [(lit "x", VNumber (f_of_Z 3)); (lit "s", VString (lit "0.1"))] in
  platform_doubles X /\ functions_double reg /\ variables_double vars
  /\ (exists e x, parse (lit "twice(:x / 7) + :s::Float ^ 2") = Ok e /\ evaluate_with_custom reg (lit "twice(:x / 7) + :s::Float ^ 2") vars = Ok (VNumber x)).
Proof. exact doubles_example. Qed.
