(** Sources and their values. *)
From Coq Require Import String List NArith Bool Lia ZArith.
From Verif Require Import Base F64 Utf8 Syntax Ext Lexer Parser Evaluator Api Parse_proofs Spec_syntax Written_proofs Sim_proofs.
Import ListNotations.
Local Open Scope N_scope.
Section Source.
  Context {X : Ext}.
  Lemma string_literal : forall q text value, q = 34 \/ q = 39 -> quoted q text value ->
    parse (q :: text ++ [q]) = Ok (EStringLit value)
    /\ evaluate (q :: text ++ [q]) = Ok (VString value).
  Proof.
    intros q text value Hq H. pose proof (parse_quoted_text q text value Hq H) as P. split; [exact P|]. unfold evaluate. now rewrite P.
  Qed.
  Lemma every_text : forall q s, q = 34 \/ q = 39 -> valid_str s ->
    parse (q :: escape q s ++ [q]) = Ok (EStringLit s)
    /\ evaluate (q :: escape q s ++ [q]) = Ok (VString s).
  Proof. intros q s Hq H. apply string_literal; [assumption|]. now apply escape_quoted. Qed.
End Source.
Lemma reads_everything_refuted : ~ forall src e c, parse src = Ok e ->
  is_whitespace c = false -> c <> 59 -> parse (src ++ [c]) <> Ok e.
Proof.
  intros H. apply (H (lit "1") (ENumber (f_of_Z 1)) 41); [vm_compute; reflexivity|reflexivity|discriminate|vm_compute; reflexivity].
Qed.
