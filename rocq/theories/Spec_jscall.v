(** Vocabulary for calls of functions written in JavaScript. *)
From Coq Require Import String List ZArith NArith Bool.
From Verif Require Import Base F64 Utf8 Syntax Ext Registry Methods Core Evaluator JsEngine Host JsPlugin HttpServer Spec Spec_registry Spec_crash Spec_http Spec_cross Spec_js Spec_start.
Import ListNotations.
Local Open Scope N_scope.

Section Calls.
  Context {X : Ext} {H : Host}.
  (** [calls f call es vars reg vs]: the call "call(es)" is one of [f], the last
      function of that name among those registered, with the values [vs], of
      which there are as many as the function takes *)
  Record calls (f : js_function) (call : str) (es : list expr) (vars : env) (reg : registry) (vs : list value) : Prop := {
    calls_registered : exists l before after, registered_as l reg /\ l = before ++ f :: after /\ forall g, In g after -> ~ same_name (js_name g) (js_name f);
    calls_name : same_name call (js_name f) /\ ~ In call (map lit ["__TERNARY__"; "__CONST_TRUE__"; "__CONST_FALSE__"]%string);
    calls_values : evaluate_to (custom_ctx vars reg) es vs;
    calls_count : js_min f <= N.of_nat (length vs) /\ forall m, js_max f = Some m -> N.of_nat (length vs) <= m
  }.
  (** the function returns its argument with the number [i], as JavaScript sees it *)
  Definition gives_back (f : js_function) (vs : list value) (i : nat) : Prop :=
    exists args j, Forall2 goes_in vs args /\ nth_error args i = Some j /\ h_js (js_code f) args = JsReturned j.
  (** every number inside is a double *)
  Inductive js_doubles : js -> Prop :=
  | double_number : forall n, representable n -> js_doubles (JsNumber n)
  | double_array : forall xs, Forall js_doubles xs -> js_doubles (JsArray xs)
  | double_less : forall j, (forall n, j <> JsNumber n) -> (forall xs, j <> JsArray xs) -> js_doubles j.
  (** what JavaScript computes from doubles are doubles *)
  Definition engine_doubles : Prop := forall code args r, Forall js_doubles args -> h_js code args = JsReturned r -> js_doubles r.
End Calls.

(** ** Examples *)
(** an engine in which every function returns its first argument *)
Definition echo_host : Host :=
  Build_Host (fun _ => []) (fun _ kvs => kvs) (fun _ => f_zero) (fun n => n) (fun _ => f_zero) (fun _ => lit "bad")
    (fun _ args => match args with a :: _ => JsReturned a | [] => JsThrown (lit "no argument") end) (fun _ => lit "not Unicode") [] [] [] [lit "srv"] (lit "hooks") (fun fs => fs) (fun _ => None) (fun _ => None) None None (fun _ => []).
(** ... and one in which every function returns an array that contains itself *)
Definition loop_host : Host :=
  Build_Host (fun _ => []) (fun _ kvs => kvs) (fun _ => f_zero) (fun n => n) (fun _ => f_zero) (fun _ => lit "bad")
    (fun _ args => JsReturned JsLoop) (fun _ => lit "not Unicode") [] [] [] [lit "srv"] (lit "hooks") (fun fs => fs) (fun _ => None) (fun _ => None) None None (fun _ => []).
Definition echo_function : js_function := mkJs (lit "ECHO") 1 (Some 1) None None (lit "function execute(args) { return args[0]; }").
Definition echo_registry {H : Host} : registry := [(lit "ECHO", js_custom echo_function)].
