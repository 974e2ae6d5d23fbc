(** Property theorems about custom functions. *)
From Coq Require Import String List ZArith NArith Bool.
From Coq Require Import Floats.SpecFloat.
From Verif Require Import Base F64 Syntax Ext Registry Core Evaluator Lexer Parser Api Spec Spec_registry Registry_proofs Plain_proofs.
Import ListNotations.
Local Open Scope N_scope.

(** * C35 The function registry is a case-insensitive map
    [after h] is the registry after the history [h] of register and unregister
    calls; [registered h name f]: the last call in [h] that concerns [name] in
    any letter case is a valid registration of [f]. *)

Theorem C35_has : forall (X : Ext) h name, has_custom_function (after h) name = true <-> exists f, registered h name f.
Proof. exact @has_spec. Qed.
Print Assumptions C35_has.

(** every registered function is listed once, under its upper-cased name, and nothing else is *)
Theorem C35_list : forall (X : Ext) h, NoDup (list_custom_functions (after h)) /\
  forall n, In n (list_custom_functions (after h)) <-> exists f, registered h (cf_name f) f /\ n = to_uppercase (cf_name f).
Proof. exact @list_spec. Qed.
Print Assumptions C35_list.

(** execution runs the last registration *)
Theorem C35_execute : forall (X : Ext) h name f args, registered h name f -> accepts f (length args) -> reg_execute (after h) name args = cf_exec f args.
Proof. exact @executes. Qed.
Print Assumptions C35_execute.

Theorem C35_unknown : forall (X : Ext) h name args, (forall f, ~ registered h name f) -> exists e, reg_execute (after h) name args = Err e.
Proof. exact @unknown. Qed.
Print Assumptions C35_unknown.

(** a registration is accepted when the name is not empty and the bounds are in order, whatever happened before *)
Theorem C35_register : forall (X : Ext) h f, (exists r, register_function (after h) f = Ok r) <-> well_formed f.
Proof. exact @register_spec. Qed.
Print Assumptions C35_register.

(** unregister reports whether there was something to remove *)
Theorem C35_unregister : forall (X : Ext) h name, fst (unregister_function (after h) name) = true <-> exists f, registered h name f.
Proof. exact @unregister_spec. Qed.
Print Assumptions C35_unregister.

(** the registries of the examples *)
Example C35_nonvacuous :
  let X := example_ext in
  let sum := mkFn (lit "addUp") 1 (Some 3) (fun vs => Ok (num (Z.of_nat (length vs)))) in
  let bad := mkFn (lit "addup") 2 (Some 1) (fun vs => Ok VNull) in
  let other := mkFn (lit "other") 0 None (fun vs => Ok (VArray vs)) in
  let h := [Register other; Register sum; Register bad; Unregister (lit "OTHER"); Unregister (lit "nothing")] in
  registered h (lit "AddUp") sum /\ (forall f, ~ registered h (lit "other") f)
  /\ list_custom_functions (after h) = [lit "ADDUP"] /\ has_custom_function (after h) (lit "aDDup") = true
  /\ reg_execute (after h) (lit "addup") [VNull; VNull] = Ok (num 2) /\ fst (unregister_function (after h) (lit "other")) = false.
Proof.
  intros X sum bad other h. assert (W : well_formed sum) by (split; [discriminate|intros m E; injection E as <-; discriminate]).
  assert (B : ~ well_formed bad) by (intros [_ B]; now specialize (B 1 eq_refl)).
  split; [|split].
  - exists [Register other], [Register bad; Unregister (lit "OTHER"); Unregister (lit "nothing")]. split; [reflexivity|]. split; [now split|].
    repeat constructor; cbn [concerns]; [tauto|discriminate|discriminate].
  - intros f R. assert (K : has_custom_function (after h) (lit "other") = true) by (apply has_spec; now exists f). vm_compute in K. discriminate.
  - vm_compute. repeat split; reflexivity.
Qed.

(** * C36 Arity is enforced before a custom function runs
    the outcome does not depend on what the function would have done *)

Theorem C36_execute : forall (X : Ext) h name f args, registered h name f -> ~ accepts f (length args) -> exists e, reg_execute (after h) name args = Err e.
Proof. exact @refuses. Qed.
Print Assumptions C36_execute.

Theorem C36_call : forall (X : Ext) h name f es vs vars, ~ In name (map lit ["__TERNARY__"; "__CONST_TRUE__"; "__CONST_FALSE__"]%string) ->
  registered h name f -> evaluate_to (custom_ctx vars (after h)) es vs -> ~ accepts f (length vs) ->
  exists e, eval (EFunctionCall name es) (custom_ctx vars (after h)) = Err e.
Proof. exact @custom_refused. Qed.
Print Assumptions C36_call.
Example C36_nonvacuous :
  let X := example_ext in
  let boom := mkFn (lit "BOOM") 1 (Some 2) (fun _ => Panic "boom") in
  ~ accepts boom 0 /\ accepts boom 1 /\ accepts boom 2 /\ ~ accepts boom 3
  /\ (exists e, evaluate_with_custom (after [Register boom]) (lit "BOOM()") [] = Err e)
  /\ (exists e, evaluate_with_custom (after [Register boom]) (lit "1 + boom(1, 2, 3)") [] = Err e)
  /\ evaluate_with_custom (after [Register boom]) (lit "Boom(1, 2)") [] = Panic "boom".
Proof. intros X boom. split; [intros [H _]; now apply H|]. split; [split; [discriminate|intros m E; injection E as <-; discriminate]|].
  split; [split; [discriminate|intros m E; injection E as <-; discriminate]|]. split; [intros [_ H]; now specialize (H 2 eq_refl)|].
  split; [eexists; vm_compute; reflexivity|]. split; [eexists; vm_compute; reflexivity|]. vm_compute. reflexivity. Qed.

(** * C37 Registered functions take precedence
    a registered name runs the registered function, whatever built-in function
    has the same name, except for the three names the parser itself uses *)

Theorem C37_precedence : forall (X : Ext) h name f es vs vars, ~ In name (map lit ["__TERNARY__"; "__CONST_TRUE__"; "__CONST_FALSE__"]%string) ->
  registered h name f -> evaluate_to (custom_ctx vars (after h)) es vs -> accepts f (length vs) ->
  eval (EFunctionCall name es) (custom_ctx vars (after h)) = cf_exec f vs.
Proof. exact @custom_runs. Qed.
Print Assumptions C37_precedence.

(** also in the body of a method such as map *)
Theorem C37_method_lambda : forall (X : Ext) h name f recv xs vars, name <> lit "__TERNARY__" -> registered h name f -> accepts f 1 ->
  eval recv (custom_ctx vars (after h)) = Ok (VArray xs) ->
  eval (EMethodCall recv (lit "map") [EFunctionCall name [EVariable (lit "x")]] false) (custom_ctx vars (after h)) =
    (ys <- mapM (fun x => cf_exec f [x]) xs ;; Ok (VArray ys)).
Proof. exact @lambda_custom. Qed.
Print Assumptions C37_method_lambda.

(** when no called function is registered, the registry makes no difference; arguments of methods are restricted, see below *)
Theorem C37_unregistered : forall (X : Ext) reg src e vars, parse src = Ok e -> calls_nothing_of reg e -> simple_methods e ->
  agree (evaluate_with_custom reg src vars) (evaluate_with src vars).
Proof. exact @plain. Qed.
Print Assumptions C37_unregistered.

Example C37_nonvacuous :
  let X := example_ext in
  let sum := mkFn (lit "sum") 0 None (fun vs => Ok (VString (lit "mine"))) in
  let filter := mkFn (lit "filter") 0 None (fun vs => Ok (VArray vs)) in
  let r := after [Register sum; Register filter] in
  evaluate_with_custom r (lit "SUM(1, 2)") [] = Ok (VString (lit "mine")) /\ evaluate_with_custom r (lit "FILTER(1, 2)") [] = Ok (VArray [num 1; num 2])
  /\ evaluate_with_custom r (lit "[1, 2].map(SUM(:x))") [] = Ok (VArray [VString (lit "mine"); VString (lit "mine")])
  /\ evaluate_with_custom r (lit "MAX(1, 2) + [3, 4].map(MIN(:x, 3)).first()") [] = Ok (num 5)
  /\ (exists e, parse (lit "MAX(1, 2) + [3, 4].map(MIN(:x, 3)).first()") = Ok e /\ calls_nothing_of r e /\ simple_methods e).
Proof. vm_compute. repeat split; try reflexivity. eexists. split; [reflexivity|]. now split. Qed.

(** the three reserved names keep their meaning *)
Theorem C37_reserved_refuted :
  let X := example_ext in
  let f := mkFn (lit "__CONST_TRUE__") 0 None (fun vs => Ok (VString (lit "mine"))) in
  let r := after [Register f] in
  has_custom_function r (lit "__CONST_TRUE__") = true /\ evaluate_with_custom r (lit "__CONST_TRUE__()") [] = Ok (VBoolean true).
Proof. vm_compute. split; reflexivity. Qed.
(** inside the body of FILTER, MAP and the other functions with a lambda a
    registered function is not seen *)
Theorem C37_function_lambda_refuted :
  let X := example_ext in
  let f := mkFn (lit "double") 1 (Some 1) (fun vs => Ok (num 8)) in
  let r := after [Register f] in
  evaluate_with_custom r (lit "DOUBLE(4)") [] = Ok (num 8) /\ fails (evaluate_with_custom r (lit "MAP([4], DOUBLE(:x))") [])
  /\ evaluate_with_custom r (lit "[4].map(DOUBLE(:x))") [] = Ok (VArray [num 8]).
Proof. vm_compute. split; [reflexivity|]. split; [eexists; reflexivity|reflexivity]. Qed.
(** with an empty registry, the body of a method that itself calls FILTER with
    a parameter name, or indexes, may have another outcome than without one *)
Theorem C37_unregistered_refuted :
  let X := example_ext in
  evaluate_with (lit "[[1, 2]].map(FILTER(:x, :y > 1, 'y'))") [] = Ok (VArray [VArray [num 2]])
  /\ fails (evaluate_with_custom reg_new (lit "[[1, 2]].map(FILTER(:x, :y > 1, 'y'))") []).
Proof. vm_compute. split; [reflexivity|]. eexists; reflexivity. Qed.
