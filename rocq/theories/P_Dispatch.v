(** C30: built-in calls at the top level ([eval]) and inside method-call
    arguments and lambdas ([ev], and [ev_custom] when custom functions are
    registered). *)
From Coq Require Import String List ZArith NArith Bool.
From Verif Require Import Base F64 Syntax Ext Core Evaluator Api Spec Logic_proofs.
Import ListNotations.

(** For the 78 names of [shared_names] the two paths return the same value, or
    panic alike, or both fail. *)
Theorem C30_shared : forall (X : Ext) name es vs c vars,
  In name shared_names -> uncustomised c name -> evaluate_to c es vs ->
  Forall2 (fun e v => ev e (Some vars) = Ok v) es vs ->
  agree (eval (call name es) c) (ev (call name es) (Some vars)).
Proof. exact @outer_inner_agree. Qed.
Print Assumptions C30_shared.
Theorem C30_shared_custom : forall (X : Ext) name es vs reg vars,
  In name shared_names -> has_custom_function reg (lit name) = false ->
  evaluate_to (custom_ctx vars reg) es vs ->
  Forall2 (fun e v => ev_custom reg e vars = Ok v) es vs ->
  agree (eval (call name es) (custom_ctx vars reg)) (ev_custom reg (call name es) vars).
Proof. exact @outer_inner_custom_agree. Qed.
Print Assumptions C30_shared_custom.
(** DIG and JQ are unknown inside *)
Theorem C30_only_outside : forall (X : Ext) name es vs vars,
  In name ["DIG"; "JQ"]%string -> Forall2 (fun e v => ev e (Some vars) = Ok v) es vs ->
  fails (ev (call name es) (Some vars)).
Proof. exact @inner_unknown. Qed.
Print Assumptions C30_only_outside.
(** BETWEEN is unknown outside *)
Theorem C30_only_inside : forall (X : Ext) es vs c,
  uncustomised c "BETWEEN" -> evaluate_to c es vs -> fails (eval (call "BETWEEN" es) c).
Proof. exact @outer_between. Qed.
Print Assumptions C30_only_inside.
(** REVERSE agrees on arrays; texts are only reversed inside *)
Theorem C30_reverse_outside : forall (X : Ext) c e v,
  uncustomised c "REVERSE" -> eval e c = Ok v ->
  eval (call "REVERSE" [e]) c =
    match v with VArray xs => Ok (VArray (rev xs)) | _ => Err (err "REVERSE expects array") end.
Proof. exact @outer_reverse. Qed.
Print Assumptions C30_reverse_outside.
Theorem C30_reverse_inside : forall (X : Ext) vars e v,
  ev e (Some vars) = Ok v ->
  match v with
  | VArray xs => ev (call "REVERSE" [e]) (Some vars) = Ok (VArray (rev xs))
  | VString s => ev (call "REVERSE" [e]) (Some vars) = Ok (VString (rev s))
  | _ => fails (ev (call "REVERSE" [e]) (Some vars))
  end.
Proof. exact @inner_reverse. Qed.
Print Assumptions C30_reverse_inside.
(** the list is complete: both paths reject every name outside it *)
Theorem C30_complete : forall (X : Ext) name es vs c vars,
  (forall n, In n known_names -> name <> lit n) ->
  match c_reg c with Some reg => has_custom_function reg name = false | None => True end ->
  evaluate_to c es vs -> Forall2 (fun e v => ev e (Some vars) = Ok v) es vs ->
  fails (eval (EFunctionCall name es) c) /\ fails (ev (EFunctionCall name es) (Some vars)).
Proof. exact @unknown_call. Qed.
Print Assumptions C30_complete.
(** the sides that do answer *)
Example C30_example :
  let X := example_ext in
  let vars := [(lit "s", VString (lit "abc"))] in
  eval (call "UPPER" [EVariable (lit "s")]) (vars_ctx vars) = ev (call "UPPER" [EVariable (lit "s")]) (Some vars)
  /\ evaluate (lit "DIG({a: 5}, ['a'])") = Ok (num 5)
  /\ evaluate (lit "[DIG({a: 5}, ['a'])].length()") = Ok (num 1)
  /\ fails (evaluate (lit "[1].map(DIG({a: 5}, ['a']))"))
  /\ fails (evaluate (lit "BETWEEN(1, 3, 2)"))
  /\ evaluate (lit "[2, 5].map(BETWEEN(1, 3, :x))") = Ok (VArray [VBoolean true; VBoolean false])
  /\ fails (evaluate (lit "REVERSE('ab')"))
  /\ evaluate (lit "['ab'].map(REVERSE(:x))") = Ok (VArray [VString (lit "ba")]).
Proof. vm_compute. repeat split; eexists; reflexivity. Qed.
