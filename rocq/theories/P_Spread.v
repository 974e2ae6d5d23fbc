(** Spread arguments as they are written. *)
From Coq Require Import String List ZArith NArith Bool.
From Verif Require Import Base F64 Utf8 Syntax Ext Lexer Parser Evaluator Api Spec Spec_syntax Spec_grammar SpreadText_proofs.
Import ListNotations.

(** C15: the source of a call with '...' before one of the arguments has the
    value of the source of the call with the elements written out. *)
Theorem C15_text : forall (X : Ext) f ts ts' before s after es src src' ss st vars vs,
  (forall n, In n lazy_names -> map upper_ascii f <> lit n) ->
  reads_args ts (before ++ ESpread s :: after) -> written (TIdentifier f :: TLParen :: ts ++ [TRParen]) src ->
  reads_args ts' (before ++ es ++ after) -> written (TIdentifier f :: TLParen :: ts' ++ [TRParen]) src' ->
  reads Whole ss s -> written ss st -> evaluate_with st vars = Ok (VArray vs) -> evaluate_to (vars_ctx vars) es vs ->
  evaluate_with src vars = evaluate_with src' vars.
Proof. exact @spread_text. Qed.
Print Assumptions C15_text.

(** [sum(...[null])] and [sum(null)] *)
Example C15_text_nonvacuous : forall X : Ext,
  (forall n, In n lazy_names -> map upper_ascii (lit "sum") <> lit n)
  /\ reads_args [TEllipsis; TLBracket; TNull; TRBracket] ([] ++ ESpread (EArray [ENull]) :: [])
  /\ reads_args [TNull] ([] ++ [ENull] ++ [])
  /\ written (TIdentifier (lit "sum") :: TLParen :: [TEllipsis; TLBracket; TNull; TRBracket] ++ [TRParen]) (lit "sum(...[null])")
  /\ evaluate_with (lit "[null]") [] = Ok (VArray [VNull]) /\ evaluate_to (vars_ctx []) [ENull] [VNull].
Proof.
  intro X.
  assert (L : forall ts e, reads Atom ts e -> reads Whole ts e).
  { intros ts e H. apply reads_whole, reads_condition. do 6 apply reads_binary. now apply reads_casted, reads_postfix, reads_atom. }
  split; [intros n H; cbn in H; intuition subst; vm_compute in *; discriminate|].
  split. { apply reads_some_args, reads_last_arg, reads_spread, L, (reads_array [TNull]), reads_last_item, L, reads_null. }
  split. { apply reads_some_args, reads_last_arg, reads_plain_arg, L, reads_null. }
  split; [|split; [vm_compute; reflexivity|repeat constructor]].
  apply (written_token [] (TIdentifier (lit "sum")) (lit "sum") _ (lit "(...[null])")); [constructor| | |right; reflexivity].
  { apply spelled_name. split; [exists 115%N, (lit "um"); repeat split|]. intros [H|[H|H]]; vm_compute in H; discriminate H. }
  apply (written_token [] TLParen (lit "(") _ (lit "...[null])")); [constructor|apply spelled_symbol; cbn; tauto| |right; reflexivity].
  apply (written_token [] TEllipsis (lit "...") _ (lit "[null])")); [constructor|apply spelled_symbol; cbn; tauto| |right; reflexivity].
  apply (written_token [] TLBracket (lit "[") _ (lit "null])")); [constructor|apply spelled_symbol; cbn; tauto| |right; reflexivity].
  apply (written_token [] TNull (lit "null") _ (lit "])")); [constructor|apply spelled_null; reflexivity| |right; reflexivity].
  apply (written_token [] TRBracket (lit "]") _ (lit ")")); [constructor|apply spelled_symbol; cbn; tauto| |right; reflexivity].
  apply (written_token [] TRParen (lit ")") [] []); [constructor|apply spelled_symbol; cbn; tauto|constructor; constructor|now left].
Qed.
