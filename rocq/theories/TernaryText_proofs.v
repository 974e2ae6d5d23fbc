(** The ternary operator, from the text of its parts to the text of the whole. *)
From Coq Require Import String List ZArith NArith Bool.
From Verif Require Import Base F64 Utf8 Syntax Ext Lexer Parser Evaluator Api Spec Spec_syntax Spec_grammar Print_proofs Eval_proofs.
Import ListNotations.

Lemma phrase_parses : forall ts e src, reads Whole ts e -> written ts src -> parse src = Ok e.
Proof.
  intros ts e src R W. apply (sentence_parses' ts); [|exact W].
  rewrite <- (app_nil_r ts). apply reads_one; [exact R|constructor].
Qed.

Lemma ternary_text : forall (X : Ext) ts c us a vs b src tc ta tb,
  reads (Binary 6) ts c -> ends_in_property ts = false -> reads Whole us a -> reads Whole vs b ->
  written (ts ++ TQMark :: us ++ TColon :: vs) src -> written ts tc -> written us ta -> written vs tb ->
  forall vars, evaluate_with src vars =
    match evaluate_with tc vars with
    | Ok (VBoolean true) => evaluate_with ta vars
    | Ok (VBoolean false) => evaluate_with tb vars
    | Ok _ => Err (err "Ternary condition must be boolean")
    | Err x => Err x
    | Panic w => Panic w
    end.
Proof.
  intros X ts c us a vs b src tc ta tb Rc E Ra Rb W Wc Wa Wb vars. unfold evaluate_with.
  rewrite (phrase_parses _ _ src (reads_whole _ _ (reads_ternary _ _ _ _ _ _ Rc E Ra Rb)) W).
  rewrite (phrase_parses _ _ tc (reads_whole _ _ (reads_condition _ _ Rc)) Wc).
  rewrite (phrase_parses _ _ ta Ra Wa), (phrase_parses _ _ tb Rb Wb).
  cbn [bind]. exact (ternary_eval c a b (vars_ctx vars)).
Qed.
