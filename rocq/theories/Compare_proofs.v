(** IEEE comparison is comparison of the exact values. *)
From Coq Require Import ZArith QArith Qabs Bool Lia Lqa.
From Coq Require Import Floats.SpecFloat.
From Verif Require Import Base F64 Syntax Spec Spec_numbers Float_proofs Round_proofs Nearest_proofs Rounding_proofs Number_proofs Doubles_proofs.

Lemma units_lt : forall a b e, (a < b)%Z <-> units a e < units b e.
Proof.
  intros a b e. split; intros H.
  - apply Qnot_le_lt. intros L. apply units_le in L. lia.
  - destruct (Z.lt_ge_cases a b) as [|G]; auto. exfalso. apply units_le with (e := e) in G. lra.
Qed.
Lemma units_compare : forall a b e, (units a e ?= units b e) = (a ?= b)%Z.
Proof.
  intros a b e. destruct (Z.compare_spec a b) as [->|L|L].
  - apply Qeq_alt. reflexivity.
  - apply -> Qlt_alt. now apply units_lt.
  - apply -> Qgt_alt. now apply units_lt.
Qed.
Lemma pos_compare : forall m1 e1 m2 e2, representable (S754_finite false m1 e1) -> representable (S754_finite false m2 e2) ->
  (e1 < e2)%Z -> units (Zpos m1) e1 < units (Zpos m2) e2.
Proof.
  intros m1 e1 m2 e2 R1 R2 L.
  destruct (representable_digits _ _ _ R1) as (A1 & A2 & A3). destruct (representable_digits _ _ _ R2) as (B1 & B2 & B3).
  rewrite <- (units_shift (Zpos m2) e1 e2) by lia. apply units_lt.
  assert (2 ^ 52 <= Zpos m2)%Z by (apply B2; lia).
  assert (P : (2 ^ (e2 - e1) = 2 * 2 ^ (e2 - e1 - 1))%Z).
  { replace (e2 - e1)%Z with (1 + (e2 - e1 - 1))%Z at 1 by lia. rewrite Z.pow_add_r by lia. reflexivity. }
  assert (0 < 2 ^ (e2 - e1 - 1))%Z by (apply Z.pow_pos_nonneg; lia).
  rewrite P. change (2 ^ 53)%Z with (2 * 2 ^ 52)%Z in A1. nia.
Qed.
Lemma units_neg : forall a e, units (- a) e == - units a e.
Proof. intros. unfold units. apply qneg. Qed.
Lemma units_pos : forall p e, 0 < units (Zpos p) e.
Proof. intros. unfold units, Qlt. cbn [Qnum Qden]. pose proof (pw_pos e). lia. Qed.

Lemma compare_exact : forall x y, representable x -> representable y -> is_finite x = true -> is_finite y = true ->
  f_cmp x y = Some (exact x ?= exact y).
Proof.
  intros x y Rx Ry Fx Fy. unfold f_cmp.
  destruct x as [s1|s1| |s1 m1 e1]; try discriminate; destruct y as [s2|s2| |s2 m2 e2]; try discriminate.
  - reflexivity.
  - rewrite exact_units. change (exact (S754_zero s1)) with 0. simpl SFcompare. pose proof (units_pos m2 e2). destruct s2; cbv iota; f_equal; symmetry.
    + apply -> Qgt_alt. change (Zneg m2) with (- Zpos m2)%Z. rewrite units_neg. lra.
    + apply -> Qlt_alt. lra.
  - rewrite exact_units. change (exact (S754_zero s2)) with 0. simpl SFcompare. pose proof (units_pos m1 e1). destruct s1; cbv iota; f_equal; symmetry.
    + apply -> Qlt_alt. change (Zneg m1) with (- Zpos m1)%Z. rewrite units_neg. lra.
    + apply -> Qgt_alt. lra.
  - rewrite !exact_units. pose proof (units_pos m1 e1) as P1. pose proof (units_pos m2 e2) as P2.
    assert (Q1 : representable (S754_finite false m1 e1)) by exact Rx. assert (Q2 : representable (S754_finite false m2 e2)) by exact Ry.
    change (Zneg m1) with (- Zpos m1)%Z. change (Zneg m2) with (- Zpos m2)%Z.
    destruct s1, s2; cbn [SFcompare]; cbv iota; try f_equal.
    + destruct (Z.compare_spec e1 e2) as [->|L|L].
      * rewrite units_compare, Z.compare_opp. f_equal. change (Zpos m2 ?= Zpos m1)%Z with (m2 ?= m1)%positive. now rewrite (Pos.compare_antisym m1 m2).
      * f_equal. symmetry. apply -> Qgt_alt. rewrite !units_neg. pose proof (pos_compare _ _ _ _ Q1 Q2 L). lra.
      * f_equal. symmetry. apply -> Qlt_alt. rewrite !units_neg. pose proof (pos_compare _ _ _ _ Q2 Q1 L). lra.
    + symmetry. apply -> Qlt_alt. rewrite units_neg. lra.
    + symmetry. apply -> Qgt_alt. rewrite units_neg. lra.
    + destruct (Z.compare_spec e1 e2) as [->|L|L].
      * now rewrite units_compare.
      * f_equal. symmetry. apply -> Qlt_alt. now apply pos_compare.
      * f_equal. symmetry. apply -> Qgt_alt. now apply pos_compare.
Qed.
Lemma ltb_exact : forall x y, representable x -> representable y -> is_finite x = true -> is_finite y = true ->
  (f_ltb x y = true <-> exact x < exact y).
Proof.
  intros x y Rx Ry Fx Fy. unfold f_ltb, SFltb. change (SFcompare x y) with (f_cmp x y). rewrite compare_exact by auto.
  rewrite Qlt_alt. destruct (exact x ?= exact y); intuition discriminate.
Qed.
Lemma leb_exact : forall x y, representable x -> representable y -> is_finite x = true -> is_finite y = true ->
  (f_leb x y = true <-> exact x <= exact y).
Proof.
  intros x y Rx Ry Fx Fy. unfold f_leb, SFleb. change (SFcompare x y) with (f_cmp x y). rewrite compare_exact by auto.
  rewrite Qle_alt. destruct (exact x ?= exact y); intuition discriminate.
Qed.
Lemma eqb_exact : forall x y, representable x -> representable y -> is_finite x = true -> is_finite y = true ->
  (f_eqb x y = true <-> exact x == exact y).
Proof.
  intros x y Rx Ry Fx Fy. unfold f_eqb, SFeqb. change (SFcompare x y) with (f_cmp x y). rewrite compare_exact by auto.
  rewrite Qeq_alt. destruct (exact x ?= exact y); intuition discriminate.
Qed.
