(** Property theorems about values that pass into JavaScript and out of it. *)
From Coq Require Import String List ZArith NArith Bool.
From Verif Require Import Base F64 Utf8 Syntax Ext Registry Methods Core Evaluator Api JsEngine Host JsPlugin HttpServer Spec Spec_registry Spec_crash Spec_http Spec_cross Spec_js Spec_start Spec_jscall Jscall_proofs Jscall_examples_proofs.
Import ListNotations.
Local Open Scope N_scope.

(** * C88 Values pass into JavaScript and out of it as what they are *)

(** a call of a JavaScript function gives what it returns for the arguments, as JavaScript sees them *)
Theorem C88_call : forall (X : Ext) (H : Host) f call es vars reg vs v, calls f call es vars reg vs -> (eval (EFunctionCall call es) (custom_ctx vars reg) = Ok v <-> js_gives (js_code f) vs v).
Proof. exact @call_gives. Qed.
Print Assumptions C88_call.

(** a source that cannot be run, has no function or throws is an error with the message *)
Theorem C88_fails : forall (X : Ext) (H : Host) f call es vars reg vs args msg, calls f call es vars reg vs -> Forall2 goes_in vs args ->
  (h_js (js_code f) args = JsNotLoaded msg -> eval (EFunctionCall call es) (custom_ctx vars reg) = Err (mkErr (lit "JS execution error: " ++ msg) None))
  /\ (h_js (js_code f) args = JsNoExecute msg -> eval (EFunctionCall call es) (custom_ctx vars reg) = Err (mkErr (lit "Function 'execute' not found in JS code: " ++ msg) None))
  /\ (h_js (js_code f) args = JsThrown msg -> eval (EFunctionCall call es) (custom_ctx vars reg) = Err (mkErr (lit "JS function execution failed: " ++ msg) None)).
Proof. exact @call_fails. Qed.
Print Assumptions C88_fails.

(** ... and so is a result that stands for no value *)
Theorem C88_unread : forall (X : Ext) (H : Host) f call es vars reg vs args r, calls f call es vars reg vs -> Forall2 goes_in vs args -> h_js (js_code f) args = JsReturned r -> ~ endless r -> (forall v, ~ comes_out r v) ->
  exists e, eval (EFunctionCall call es) (custom_ctx vars reg) = Err e.
Proof. exact @call_unread. Qed.
Print Assumptions C88_unread.

(** each value enters in one way, and what is returned stands for at most one value *)
Theorem C88_unique : (forall v, exists j, goes_in v j /\ forall j', goes_in v j' -> j' = j) /\ (forall j v w, comes_out j v -> comes_out j w -> v = w) /\ (forall v w w', comes_back v w -> comes_back v w' -> w = w').
Proof. exact (@crossing_unique echo_host). Qed.
Print Assumptions C88_unique.

(** an argument that is returned comes back: numbers, texts, booleans, null and
    arrays of them unchanged; amounts and dates as numbers, JSON values as texts *)
Theorem C88_returned : forall (X : Ext) (H : Host) f call es vars reg vs i v, calls f call es vars reg vs -> Forall unicode_value vs -> gives_back f vs i -> nth_error vs i = Some v ->
  exists w, eval (EFunctionCall call es) (custom_ctx vars reg) = Ok w /\ comes_back v w.
Proof. exact @call_back. Qed.
Print Assumptions C88_returned.

Theorem C88_unchanged : forall (X : Ext) (H : Host) f call es vars reg vs i v, calls f call es vars reg vs -> Forall unicode_value vs -> gives_back f vs i -> nth_error vs i = Some v -> plain_value v ->
  eval (EFunctionCall call es) (custom_ctx vars reg) = Ok v.
Proof. exact @call_plain. Qed.
Print Assumptions C88_unchanged.

Theorem C88_types_refuted : ~ (forall (X : Ext) (H : Host) f call es vars reg vs i v, calls f call es vars reg vs -> Forall unicode_value vs -> gives_back f vs i -> nth_error vs i = Some v ->
  eval (EFunctionCall call es) (custom_ctx vars reg) = Ok v).
Proof. exact types_refuted. Qed.
Print Assumptions C88_types_refuted.

Example C88_nonvacuous : let X := example_ext in let H := echo_host in
  (forall v, calls echo_function (lit "Echo") [EVariable (lit "x")] [(lit "x", v)] echo_registry [v] /\ gives_back echo_function [v] 0)
  /\ evaluate_with_custom echo_registry (lit "echo([1.5, ""a" ++ [128512] ++ lit """, [true, null]])") [] = Ok (VArray [VNumber (f_div (f_of_Z 3) (f_of_Z 2)); VString (97 :: [128512]); VArray [VBoolean true; VNull]])
  /\ evaluate_with_custom echo_registry (lit "echo(2::Currency)") [] = Ok (VNumber (f_of_Z 2))
  /\ goes_in (VString [128512]) (JsText [55357; 56832]) /\ ~ (exists v, comes_out (JsText [55357]) v).
Proof. exact crossing_example. Qed.

(** a call crashes the process only if the function returns an array that
    contains itself, somewhere; such an array never gives a value *)
Theorem C88_crash : forall (X : Ext) (H : Host) f call es vars reg vs, calls f call es vars reg vs ->
  (forall x, eval (EFunctionCall call es) (custom_ctx vars reg) = Panic x -> exists args r, Forall2 goes_in vs args /\ h_js (js_code f) args = JsReturned r /\ endless r)
  /\ (forall args r, Forall2 goes_in vs args -> h_js (js_code f) args = JsReturned r -> endless r -> forall v, eval (EFunctionCall call es) (custom_ctx vars reg) <> Ok v)
  /\ (forall args, Forall2 goes_in vs args -> h_js (js_code f) args = JsReturned JsLoop -> exists x, eval (EFunctionCall call es) (custom_ctx vars reg) = Panic x).
Proof. exact @call_crashes. Qed.
Print Assumptions C88_crash.

Example C88_crash_nonvacuous : let X := example_ext in let H := loop_host in
  (forall v, calls echo_function (lit "Echo") [EVariable (lit "x")] [(lit "x", v)] echo_registry [v]) /\ exists x, evaluate_with_custom echo_registry (lit "[1, 2].map(echo(:x)) ") [] = Panic x.
Proof. exact loop_example. Qed.

(** functions of JavaScript files satisfy what C61 asks of functions: from
    doubles they give doubles, if the engine does *)
Theorem C88_doubles : forall (X : Ext) (H : Host) l reg, registered_as l reg -> engine_doubles -> functions_double reg.
Proof. exact @loaded_doubles. Qed.
Print Assumptions C88_doubles.

Example C88_doubles_nonvacuous : let X := example_ext in let H := echo_host in engine_doubles /\ exists l, registered_as l echo_registry.
Proof. exact engine_example. Qed.
