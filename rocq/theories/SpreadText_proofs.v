(** Spread arguments, as they are written. *)
From Coq Require Import String List ZArith NArith Bool.
From Verif Require Import Base F64 Utf8 Syntax Ext Lexer Parser Evaluator Api Spec Spec_syntax Spec_grammar Print_proofs Eval_proofs TernaryText_proofs.
Import ListNotations.

Lemma call_parses : forall f ts args src, reads_args ts args -> written (TIdentifier f :: TLParen :: ts ++ [TRParen]) src ->
  parse src = Ok (EFunctionCall (map upper_ascii f) args).
Proof.
  intros f ts args src R W. apply (phrase_parses (TIdentifier f :: TLParen :: ts ++ [TRParen])); [|exact W].
  apply reads_whole, reads_condition. do 6 apply reads_binary. apply reads_casted, reads_postfix, reads_atom, reads_call, R.
Qed.

Lemma spread_text : forall (X : Ext) f ts ts' before s after es src src' ss st vars vs,
  (forall n, In n lazy_names -> map upper_ascii f <> lit n) ->
  reads_args ts (before ++ ESpread s :: after) -> written (TIdentifier f :: TLParen :: ts ++ [TRParen]) src ->
  reads_args ts' (before ++ es ++ after) -> written (TIdentifier f :: TLParen :: ts' ++ [TRParen]) src' ->
  reads Whole ss s -> written ss st -> evaluate_with st vars = Ok (VArray vs) -> evaluate_to (vars_ctx vars) es vs ->
  evaluate_with src vars = evaluate_with src' vars.
Proof.
  intros X f ts ts' before s after es src src' ss st vars vs L R W R' W' S Ws E T. unfold evaluate_with in *.
  rewrite (phrase_parses _ _ st S Ws) in E. cbn [bind] in E.
  rewrite (call_parses _ _ _ src R W), (call_parses _ _ _ src' R' W'). cbn [bind].
  exact (spread_call (map upper_ascii f) before s after vs es (vars_ctx vars) L E T).
Qed.
