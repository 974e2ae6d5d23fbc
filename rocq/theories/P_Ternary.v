(** The ternary operator as it is written. *)
From Coq Require Import String List ZArith NArith Bool.
From Verif Require Import Base F64 Utf8 Syntax Ext Lexer Parser Evaluator Api Spec Spec_syntax Spec_grammar TernaryText_proofs.
Import ListNotations.

(** C09: a source that is a condition, '?', a phrase, ':' and another phrase
    has the value of the first phrase or of the second, each evaluated as a
    source of its own with the same variables; the other one plays no part. *)
Theorem C09_text : forall (X : Ext) ts c us a vs b src tc ta tb,
  reads (Binary 6) ts c -> ends_in_property ts = false -> reads Whole us a -> reads Whole vs b ->
  written (ts ++ TQMark :: us ++ TColon :: vs) src -> written ts tc -> written us ta -> written vs tb ->
  forall vars, evaluate_with src vars =
    match evaluate_with tc vars with
    | Ok (VBoolean true) => evaluate_with ta vars
    | Ok (VBoolean false) => evaluate_with tb vars
    | Ok _ => Err (err "Ternary condition must be boolean")
    | Err x => Err x
    | Panic w => Panic w
    end.
Proof. exact @ternary_text. Qed.
Print Assumptions C09_text.

(** [true ? null : :x]: the branch not taken would fail *)
Example C09_text_nonvacuous : forall X : Ext,
  reads (Binary 6) [TTrue] (EFunctionCall (lit "__CONST_TRUE__") []) /\ reads Whole [TNull] ENull
  /\ reads Whole [TColon; TIdentifier (lit "x")] (EVariable (lit "x"))
  /\ written ([TTrue] ++ TQMark :: [TNull] ++ TColon :: [TColon; TIdentifier (lit "x")]) (lit "true ? null : :x")
  /\ evaluate_with (lit "true ? null : :x") [] = Ok VNull
  /\ (forall v, evaluate_with (lit ":x") [] <> Ok v).
Proof.
  intro X.
  assert (L : forall ts e, reads Atom ts e -> reads (Binary 6) ts e).
  { intros ts e H. do 6 apply reads_binary. now apply reads_casted, reads_postfix, reads_atom. }
  split; [apply L; constructor|]. split; [apply reads_whole, reads_condition, L; constructor|].
  split; [apply reads_whole, reads_condition, L; constructor|].
  split; [|split; [vm_compute; reflexivity|intros v; vm_compute; discriminate]].
  apply (written_token [] TTrue (lit "true") _ (lit " ? null : :x")); [constructor|apply spelled_true; reflexivity| |right; reflexivity].
  apply (written_token (lit " ") TQMark (lit "?") _ (lit " null : :x")); [repeat constructor|apply spelled_symbol; cbn; tauto| |right; reflexivity].
  apply (written_token (lit " ") TNull (lit "null") _ (lit " : :x")); [repeat constructor|apply spelled_null; reflexivity| |right; reflexivity].
  apply (written_token (lit " ") TColon (lit ":") _ (lit " :x")); [repeat constructor|apply spelled_symbol; cbn; tauto| |right; reflexivity].
  apply (written_token (lit " ") TColon (lit ":") _ (lit "x")); [repeat constructor|apply spelled_symbol; cbn; tauto| |right; reflexivity].
  apply (written_token [] (TIdentifier (lit "x")) (lit "x") [] []); [constructor| |constructor; constructor|now left].
  apply spelled_name. split; [exists 120%N, []; repeat split|]. intros [H|[H|H]]; vm_compute in H; discriminate H.
Qed.
