(** Arithmetic on numbers. *)
From Coq Require Import String List ZArith NArith QArith Qabs Qround Lqa Bool Lia.
From Coq Require Import Floats.SpecFloat.
From Verif Require Import Base F64 F64Text Syntax Ext Arith Cast Dispatch Registry Core Evaluator Lexer Parser Api Spec Spec_syntax Spec_grammar Spec_text Spec_numbers
  Float_proofs Exact_proofs Value_proofs Text_proofs Written_proofs Print_proofs Range_proofs Cast_proofs Round_proofs Display_proofs Nearest_proofs Rounding_proofs.
Import ListNotations.
Local Open Scope Q_scope.

Lemma normalize_rounded : forall z e s, rounded (binary_normalize prec emax z e s) (units z e).
Proof.
  intros [|p|p] e s; cbn [binary_normalize]; [apply rounded_eq with 0; [reflexivity|apply rounded_zero]| |]; rewrite round_rnd; pose proof (pw_pos e); pose proof (pw_pos (- e)).
  - apply (rnd_rounded false (Zpos p * pw e) (pw (- e))); lia.
  - apply rounded_eq with ((- (Zpos p * pw e)) # Z.to_pos (pw (- e)))%Z; [unfold units; change (Zneg p) with (- Zpos p)%Z; rewrite Z.mul_opp_l; reflexivity|]. apply (rnd_rounded true (Zpos p * pw e) (pw (- e))); lia.
Qed.
Lemma aligned : forall s m e ez, (ez <= e)%Z -> units (cond_Zopp s (Zpos (fst (shl_align m e ez)))) ez == exact (S754_finite s m e).
Proof.
  intros s m e ez H. rewrite exact_units, cond_align by assumption. rewrite units_shift by assumption. destruct s; reflexivity.
Qed.
Lemma add_rounded : forall x y, representable x -> representable y -> is_finite x = true -> is_finite y = true -> rounded (f_add x y) (exact x + exact y).
Proof.
  assert (Id : forall x v, representable x -> is_finite x = true -> v == exact x -> rounded x v).
  { intros x v R F E. apply rounded_eq with (exact x); [now symmetry|]. now apply self_rounded. }
  intros [a|a| |a m e] [b|b| |b m' e'] Rx Ry Fx Fy; try discriminate.
  - unfold f_add, SFadd. destruct (Bool.eqb a b); apply rounded_zero.
  - apply (Id (S754_finite b m' e')); try assumption. change (exact (S754_zero a)) with 0. ring.
  - apply (Id (S754_finite a m e)); try assumption. change (exact (S754_zero b)) with 0. ring.
  - unfold f_add, SFadd. eapply rounded_eq; [|apply normalize_rounded]. rewrite units_add, !aligned by lia. reflexivity.
Qed.
Lemma sub_as_add : forall x y, is_finite x = true -> is_finite y = true -> match x, y with S754_zero a, S754_zero b => True | _, _ => f_sub x y = f_add x (f_neg y) end.
Proof.
  intros [a|a| |a m e] [b|b| |b m' e'] Fx Fy; try discriminate; try exact I; try reflexivity.
  unfold f_sub, f_add, SFsub, SFadd, f_neg, SFopp. f_equal. destruct b; cbn [cond_Zopp negb]; lia.
Qed.
Lemma sub_rounded : forall x y, representable x -> representable y -> is_finite x = true -> is_finite y = true -> rounded (f_sub x y) (exact x - exact y).
Proof.
  intros x y Rx Ry Fx Fy. pose proof (sub_as_add x y Fx Fy) as E.
  assert (A : rounded (f_add x (f_neg y)) (exact x - exact y)).
  { apply rounded_eq with (exact x + exact (f_neg y)); [rewrite exact_neg; ring|]. apply add_rounded; try assumption; [now apply representable_neg|now rewrite finite_neg]. }
  destruct x as [a|a| |a m e], y as [b|b| |b m' e']; try discriminate; try (rewrite E; exact A).
  unfold f_sub, SFsub. apply rounded_eq with 0; [reflexivity|]. destruct (Bool.eqb a (negb b)); apply rounded_zero.
Qed.
Lemma mul_scaled : forall s1 m1 e1 s2 m2 e2, representable (S754_finite s1 m1 e1) -> representable (S754_finite s2 m2 e2) ->
  (e1 + e2 <= fexp prec emax (Zdigits2 (Zpos (m1 * m2)) + (e1 + e2)))%Z.
Proof.
  intros s1 m1 e1 s2 m2 e2 R1 R2. rewrite fexp_max. destruct (representable_digits s1 m1 e1 R1) as (A1 & A2 & A3). destruct (representable_digits s2 m2 e2 R2) as (B1 & B2 & B3).
  assert (D53 : forall m a, (2 ^ 52 <= Zpos m)%Z -> (53 <= Zdigits2 (Zpos (m * a)))%Z).
  { intros m a H. destruct (digits_bounds (Zpos (m * a)) ltac:(lia)) as (P & _ & U). assert (2 ^ 52 < 2 ^ Zdigits2 (Zpos (m * a)))%Z by (rewrite Pos2Z.inj_mul in *; nia). apply Z.pow_lt_mono_r_iff in H0; lia. }
  destruct (Z.eq_dec e1 (-1074)) as [E1|E1].
  - destruct (Z.eq_dec e2 (-1074)) as [E2|E2]; [lia|]. rewrite Pos.mul_comm. specialize (D53 m2 m1 ltac:(lia)). lia.
  - specialize (D53 m1 m2 ltac:(lia)). lia.
Qed.
Lemma mul_rounded : forall x y, representable x -> representable y -> is_finite x = true -> is_finite y = true -> rounded (f_mul x y) (exact x * exact y).
Proof.
  intros [a|a| |a m e] [b|b| |b m' e'] Rx Ry Fx Fy; try discriminate; try (apply rounded_eq with 0; [try change (exact (S754_zero a)) with 0; try change (exact (S754_zero b)) with 0; ring|apply rounded_zero]).
  unfold f_mul, SFmul. rewrite aux_rnd; [|lia|now apply (mul_scaled a m e b m' e')]. pose proof (pw_pos (e + e')). pose proof (pw_pos (- (e + e'))).
  eapply rounded_eq; [|apply rnd_rounded; lia]. rewrite !exact_units. unfold units, Qeq, Qmult. cbn [Qnum Qden]. rewrite !Pos2Z.inj_mul, !to_pos_pw.
  assert (P : (pw (e + e') * pw (- e) * pw (- e') = pw e * pw e' * pw (- (e + e')))%Z) by (unfold pw; rewrite <- !Z.pow_add_r by lia; f_equal; lia).
  destruct a, b; cbn [xorb].
  - transitivity (Zpos m * Zpos m' * (pw (e + e') * pw (- e) * pw (- e')))%Z; [ring|]. rewrite P. lia.
  - transitivity (- (Zpos m * Zpos m' * (pw (e + e') * pw (- e) * pw (- e'))))%Z; [ring|]. rewrite P. lia.
  - transitivity (- (Zpos m * Zpos m' * (pw (e + e') * pw (- e) * pw (- e'))))%Z; [ring|]. rewrite P. lia.
  - transitivity (Zpos m * Zpos m' * (pw (e + e') * pw (- e) * pw (- e')))%Z; [ring|]. rewrite P. lia.
Qed.
Lemma div_rounded : forall x y, is_finite x = true -> is_finite y = true -> ~ exact y == 0 -> rounded (f_div x y) (exact x / exact y).
Proof.
  intros [a|a| |a m e] [b|b| |b m' e'] Fx Fy Ny; try discriminate; try (exfalso; apply Ny; reflexivity).
  - apply rounded_eq with 0; [|apply rounded_zero]. change (exact (S754_zero a)) with 0. field. exact Ny.
  - unfold f_div, SFdiv. rewrite div_rnd by lia. pose proof (pw_pos (e - e')). pose proof (pw_pos (e' - e)).
    eapply rounded_eq; [|apply rnd_rounded; lia].
    assert (P : (pw (e - e') * pw (- e) * pw e' = pw e * pw (- e') * pw (e' - e))%Z) by (unfold pw; rewrite <- !Z.pow_add_r by lia; f_equal; lia).
    assert (Q : forall A B : Z, (0 < B)%Z -> (A * pw e # Z.to_pos (pw (- e))) / (B * pw e' # Z.to_pos (pw (- e'))) == (A * pw (e - e') # Z.to_pos (B * pw (e' - e)))).
    { intros A B HB. pose proof (pw_pos e'). assert (PB : (0 < B * pw e')%Z) by nia. unfold Qdiv, Qinv. cbn [Qnum Qden]. destruct (B * pw e')%Z as [|p|p] eqn:Ep; try lia. unfold Qeq, Qmult. cbn [Qnum Qden].
      rewrite !Pos2Z.inj_mul, !to_pos_pw, <- Ep. rewrite Z2Pos.id by nia. transitivity (A * B * (pw e * pw (- e') * pw (e' - e)))%Z; [ring|]. rewrite <- P. ring. }
    rewrite !exact_units. unfold units. destruct a, b; cbn [xorb].
    + change (Zneg m) with (- Zpos m)%Z. change (Zneg m') with (- Zpos m')%Z. specialize (Q (Zpos m) (Zpos m') ltac:(lia)). rewrite <- Q.
      rewrite (qneg (Zpos m)).
      rewrite (qneg (Zpos m')). field.
      unfold Qeq. cbn [Qnum Qden]. pose proof (pw_pos e'). nia.
    + specialize (Q (- Zpos m)%Z (Zpos m') ltac:(lia)). change (Zneg m) with (- Zpos m)%Z. rewrite Q. rewrite Z.mul_opp_l. reflexivity.
    + change (Zneg m') with (- Zpos m')%Z. specialize (Q (Zpos m) (Zpos m') ltac:(lia)).
      rewrite (qneg (Zpos m')).
      setoid_replace ((- (Zpos m * pw (e - e')))%Z # Z.to_pos (Zpos m' * pw (e' - e))) with (- (Zpos m * pw (e - e') # Z.to_pos (Zpos m' * pw (e' - e)))) by reflexivity. rewrite <- Q. field.
      unfold Qeq. cbn [Qnum Qden]. pose proof (pw_pos e'). nia.
    + symmetry. apply Q. lia.
Qed.

(** ** Exact results *)
Lemma rounded_exact : forall x v, rounded x v -> is_double v -> is_finite x = true /\ representable x /\ exact x == v.
Proof.
  intros x v H (y & Ry & Fy & Ey).
  assert (N : nearest x v -> is_finite x = true /\ representable x /\ exact x == v).
  { intros (F & R & K & _). split; [assumption|]. split; [assumption|]. specialize (K y Ry Fy). rewrite Ey in K. setoid_replace (v - v) with 0 in K by ring. apply abs_zero in K. lra. }
  destruct x as [b|b| |b m e]; try (apply N, H). exfalso. destruct H as [O _]. unfold overflows in O.
  pose proof (double_bound y Ry Fy) as B. rewrite Ey in B. apply (Qlt_not_le _ _ B O).
Qed.
Lemma grid_double : forall z e, (Z.abs z < 2 ^ 53)%Z -> (-1074 <= e <= 971)%Z -> is_double (units z e).
Proof.
  intros z e Hz He. destruct (Z.eq_dec z 0) as [->|Nz]; [exists (S754_zero false); repeat split; reflexivity|].
  assert (P : exists p s, z = if s : bool then Zneg p else Zpos p) by (destruct z as [|p|p]; [lia|exists p, false|exists p, true]; reflexivity).
  destruct P as (p & s & Ez). assert (Hp : (Zpos p < 2 ^ 53)%Z) by (destruct s; lia). assert (Dp : (Zpos (digits2_pos p) <= 53)%Z) by (apply digits2_le; lia).
  set (k := Z.min (53 - Zpos (digits2_pos p)) (e + 1074)). assert (K0 : (0 <= k)%Z) by lia.
  assert (Pk : (0 < Zpos p * 2 ^ k)%Z) by (apply Z.mul_pos_pos; [lia|apply Z.pow_pos_nonneg; lia]). destruct (Zpos p * 2 ^ k)%Z as [|m|m] eqn:Em; try lia.
  exists (S754_finite s m (e - k)). split; [|split; [reflexivity|]].
  - unfold representable. cbn [valid_binary]. unfold bounded, canonical_mantissa. apply andb_true_iff. split; [|apply Z.leb_le; unfold emax, prec; lia].
    apply Zeq_is_eq_bool. rewrite (digits_shifted m p k K0 (eq_sym Em)), fexp_max. lia.
  - rewrite exact_units. replace e with ((e - k) + k)%Z at 2 by lia. rewrite <- (units_shift z (e - k) (e - k + k)) by lia. replace (e - k + k - (e - k))%Z with k by lia.
    rewrite Ez. destruct s; [change (Zneg p) with (- Zpos p)%Z; rewrite Z.mul_opp_l, Em|rewrite Em]; reflexivity.
Qed.
Lemma units_0 : forall z, units z 0 == inject_Z z.
Proof. intros. unfold units, inject_Z, Qeq. cbn [Qnum Qden]. change (pw 0) with 1%Z. change (Z.to_pos (pw (- 0))) with 1%positive. ring. Qed.
Lemma whole_double : forall z, (Z.abs z <= 2 ^ 53)%Z -> is_double (inject_Z z).
Proof.
  intros z H. destruct (Z.eq_dec (Z.abs z) (2 ^ 53)) as [E|E].
  - destruct (grid_double (z / 2) 1) as (y & Ry & Fy & Ey); [|lia|].
    + assert (z = 2 ^ 53 \/ z = - 2 ^ 53)%Z as [->| ->] by lia; vm_compute; reflexivity.
    + exists y. split; [assumption|]. split; [assumption|]. rewrite Ey. assert (z = 2 ^ 53 \/ z = - 2 ^ 53)%Z as [->| ->] by lia; vm_compute; reflexivity.
  - destruct (grid_double z 0) as (y & Ry & Fy & Ey); [lia|lia|]. exists y. now rewrite <- units_0.
Qed.
Lemma of_Z_exact : forall z, (Z.abs z <= 2 ^ 53)%Z -> is_finite (f_of_Z z) = true /\ representable (f_of_Z z) /\ exact (f_of_Z z) == inject_Z z.
Proof. intros z H. apply rounded_exact; [|now apply whole_double]. apply rounded_eq with (units z 0); [apply units_0|]. apply normalize_rounded. Qed.
Lemma of_Z_signed_exact : forall s z, (Z.abs z <= 2 ^ 53)%Z -> is_finite (f_of_Z_signed s z) = true /\ representable (f_of_Z_signed s z) /\ exact (f_of_Z_signed s z) == inject_Z z.
Proof. intros s [|p|p] H; [repeat split; reflexivity|exact (of_Z_exact _ H)|exact (of_Z_exact _ H)]. Qed.

(** ** Whole parts *)
Lemma exact_frac : forall s m e, (e < 0)%Z -> exact (S754_finite s m e) = (signed s m # Z.to_pos (2 ^ (- e))).
Proof. intros s m e H. unfold exact. replace (Z.max e 0) with 0%Z by lia. replace (Z.max (- e) 0) with (- e)%Z by lia. change (2 ^ 0)%Z with 1%Z. rewrite Z.mul_1_r. reflexivity. Qed.
Lemma exact_int : forall s m e, (0 <= e)%Z -> exact (S754_finite s m e) == inject_Z (signed s m * 2 ^ e).
Proof. intros s m e H. unfold exact. replace (Z.max e 0) with e by lia. replace (Z.max (- e) 0) with 0%Z by lia. reflexivity. Qed.
Lemma quot_small : forall s m e, representable (S754_finite s m e) -> (e < 0)%Z -> forall a, (0 <= a <= 2 * Zpos m + 2 ^ (- e))%Z -> (a / (2 * 2 ^ (- e)) <= 2 ^ 53)%Z /\ (Zpos m / 2 ^ (- e) < 2 ^ 53)%Z /\ (- 2 ^ 53 <= - Zpos m / 2 ^ (- e))%Z.
Proof.
  intros s m e R He a Ha. destruct (representable_digits s m e R) as (D1 & D2 & D3). assert (P : (2 ^ 1 <= 2 ^ (- e))%Z) by (apply Z.pow_le_mono_r; lia). change (2 ^ 1)%Z with 2%Z in P. split; [|split].
  - apply Z.div_le_upper_bound; nia.
  - apply Z.div_lt_upper_bound; nia.
  - apply Z.div_le_lower_bound; nia.
Qed.
Lemma floor_exact : forall x, representable x -> is_finite x = true -> is_finite (f_floor x) = true /\ representable (f_floor x) /\ exact (f_floor x) == inject_Z (Qfloor (exact x)).
Proof.
  intros [b|b| |s m e] R F; try discriminate; [repeat split; reflexivity|]. unfold f_floor. destruct (Z.leb_spec 0 e) as [H|H].
  - split; [reflexivity|]. split; [assumption|]. rewrite exact_int by assumption. now rewrite Qfloor_Z.
  - rewrite exact_frac by assumption. cbn [Qfloor]. rewrite Z2Pos.id by (apply Z.pow_pos_nonneg; lia). apply of_Z_signed_exact.
    destruct (quot_small s m e R H 0) as (_ & A & B); [pose proof (Z.pow_pos_nonneg 2 (- e)); lia|]. assert (0 <= Zpos m / 2 ^ (- e))%Z by (apply Z.div_pos; [lia|apply Z.pow_pos_nonneg; lia]).
    destruct s; cbn [signed]; [|lia]. change (Zneg m) with (- Zpos m)%Z. assert (- Zpos m / 2 ^ (- e) <= 0)%Z by (apply Z.div_le_upper_bound; [apply Z.pow_pos_nonneg; lia|lia]). lia.
Qed.
Lemma ceil_exact : forall x, representable x -> is_finite x = true -> is_finite (f_ceil x) = true /\ representable (f_ceil x) /\ exact (f_ceil x) == inject_Z (Qceiling (exact x)).
Proof.
  intros x R F. unfold f_ceil. destruct (floor_exact (f_neg x)) as (A & B & C); [now apply representable_neg|now rewrite finite_neg|].
  split; [now rewrite finite_neg|]. split; [now apply representable_neg|]. rewrite exact_neg, C. unfold Qceiling. rewrite exact_neg. now rewrite inject_Z_opp.
Qed.
Lemma abs_exact : forall x, representable x -> is_finite x = true -> is_finite (f_abs x) = true /\ representable (f_abs x) /\ exact (f_abs x) == Qabs (exact x).
Proof.
  intros [b|b| |s m e] R F; try discriminate; [repeat split; reflexivity|]. split; [reflexivity|]. split; [exact R|]. unfold f_abs, SFabs. rewrite !exact_units. unfold units.
  destruct s; [change (Zneg m) with (- Zpos m)%Z; rewrite qneg, Qabs_opp|]; (rewrite Qabs_pos; [reflexivity|]; unfold Qle; cbn [Qnum Qden]; pose proof (pw_pos e); nia).
Qed.
Lemma floor_half : forall a d, (0 < d)%Z -> ((2 * a + d) / (2 * d))%Z = Qfloor ((a # Z.to_pos d) + (1 # 2)).
Proof.
  intros a d H. cbn [Qplus Qfloor Qnum Qden]. rewrite Pos2Z.inj_mul, Z2Pos.id by assumption. f_equal; ring.
Qed.
Lemma half_away_Z : forall q z, q == inject_Z z -> half_away q = z.
Proof.
  intros q z E. unfold half_away. destruct (Qlt_le_dec q 0) as [L|L].
  - assert (E1 : - (q - (1 # 2)) == (1 - 2 * z # 2)) by (rewrite E; unfold Qeq, Qminus, Qplus, Qopp, inject_Z; cbn [Qnum Qden]; lia).
    unfold Qceiling. rewrite (Qfloor_comp _ _ E1). cbn [Qfloor]. assert ((1 - 2 * z) / 2 = - z)%Z; [symmetry; apply Z.div_unique with 1%Z; lia|lia].
  - assert (E1 : q + (1 # 2) == (1 + 2 * z # 2)) by (rewrite E; unfold Qeq, Qminus, Qplus, Qopp, inject_Z; cbn [Qnum Qden]; lia).
    rewrite (Qfloor_comp _ _ E1). cbn [Qfloor]. symmetry. apply Z.div_unique with 1%Z; lia.
Qed.
Lemma round_exact_half : forall x, representable x -> is_finite x = true -> is_finite (f_round x) = true /\ representable (f_round x) /\ exact (f_round x) == inject_Z (half_away (exact x)).
Proof.
  intros [b|b| |s m e] R F; try discriminate; [repeat split; vm_compute; reflexivity|]. unfold f_round. destruct (Z.leb_spec 0 e) as [H|H].
  - split; [reflexivity|]. split; [assumption|]. rewrite (half_away_Z _ _ (exact_int s m e H)). now apply exact_int.
  - assert (P : (0 < 2 ^ (- e))%Z) by (apply Z.pow_pos_nonneg; lia). set (a := ((2 * Zpos m + 2 ^ (- e)) / (2 * 2 ^ (- e)))%Z).
    destruct (quot_small s m e R H (2 * Zpos m + 2 ^ (- e)) ltac:(lia)) as (A & _ & _). fold a in A. assert (A0 : (0 <= a)%Z) by (apply Z.div_pos; lia).
    assert (Hh : half_away (exact (S754_finite s m e)) = if s then (- a)%Z else a).
    { rewrite exact_frac by assumption. unfold half_away, a. rewrite floor_half by assumption. destruct s; cbn [signed].
      - destruct (Qlt_le_dec (Z.neg m # Z.to_pos (2 ^ (- e))) 0) as [L|L]; [|exfalso; unfold Qle in L; cbn in L; lia]. unfold Qceiling. apply f_equal, Qfloor_comp.
        unfold Qeq, Qminus, Qplus, Qopp. cbn [Qnum Qden]. rewrite !Pos2Z.inj_mul. change (Zneg m) with (- Zpos m)%Z. ring.
      - destruct (Qlt_le_dec (Z.pos m # Z.to_pos (2 ^ (- e))) 0) as [L|L]; [exfalso; unfold Qlt in L; cbn in L; lia|]. reflexivity. }
    rewrite Hh. apply of_Z_signed_exact. destruct s; lia.
Qed.

(** ** Remainder *)
Lemma rem_exact : forall x y, representable x -> representable y -> is_finite x = true -> is_finite y = true -> ~ exact y == 0 ->
  is_finite (f_rem x y) = true /\ representable (f_rem x y) /\ exact (f_rem x y) == exact x - inject_Z (truncated (exact x / exact y)) * exact y.
Proof.
  intros [a|a| |a m e] [b|b| |b m' e'] Rx Ry Fx Fy Ny; try discriminate; try (exfalso; apply Ny; reflexivity).
  - split; [reflexivity|]. split; [reflexivity|]. change (f_rem (S754_zero a) (S754_finite b m' e')) with (S754_zero a). change (exact (S754_zero a)) with 0.
    assert (Z : truncated (0 / exact (S754_finite b m' e')) = 0%Z). { unfold truncated. assert (E : 0 / exact (S754_finite b m' e') == 0) by (field; exact Ny).
      destruct (Qlt_le_dec _ _); [exfalso; lra|]. rewrite (Qfloor_comp _ _ E). reflexivity. }
    rewrite Z. ring.
  - unfold f_rem. set (ez := Z.min e e'). set (A := (Zpos m * 2 ^ (e - ez))%Z). set (B := (Zpos m' * 2 ^ (e' - ez))%Z). 
    destruct (representable_digits a m e Rx) as (D1 & D2 & D3). destruct (representable_digits b m' e' Ry) as (D1' & D2' & D3').
    assert (PA : (0 < A)%Z) by (apply Z.mul_pos_pos; [lia|apply Z.pow_pos_nonneg; lia]). assert (PB : (0 < B)%Z) by (apply Z.mul_pos_pos; [lia|apply Z.pow_pos_nonneg; lia]).
    assert (Rm : Z.rem A B = (A mod B)%Z) by (apply Z.rem_mod_nonneg; lia). rewrite Rm. pose proof (Z.mod_pos_bound A B PB) as Bd. pose proof (Z.div_mod A B ltac:(lia)) as Dv. set (r := (A mod B)%Z) in *. set (q := (A / B)%Z) in *.
    assert (Q0 : (0 <= q)%Z) by (apply Z.div_pos; lia).
    assert (Sm : (r < 2 ^ 53)%Z).
    { destruct (Z.le_gt_cases e e') as [L|L].
      - apply Z.le_lt_trans with A; [apply Z.mod_le; lia|]. unfold A, ez. replace (e - Z.min e e')%Z with 0%Z by lia. change (2 ^ 0)%Z with 1%Z. lia.
      - apply Z.lt_trans with B; [lia|]. unfold B, ez. replace (e' - Z.min e e')%Z with 0%Z by lia. change (2 ^ 0)%Z with 1%Z. lia. }
    assert (Ex : exact (S754_finite a m e) == units (if a then - A else A) ez).
    { rewrite exact_units. rewrite <- (units_shift _ ez e) by lia. unfold A. destruct a; [change (Zneg m) with (- Zpos m)%Z; rewrite Z.mul_opp_l|]; reflexivity. }
    assert (Ey : exact (S754_finite b m' e') == units (if b then - B else B) ez).
    { rewrite exact_units. rewrite <- (units_shift _ ez e') by lia. unfold B. destruct b; [change (Zneg m') with (- Zpos m')%Z; rewrite Z.mul_opp_l|]; reflexivity. }
    assert (Un : forall k, units k ez == inject_Z k * units 1 ez). { intros k. unfold units, inject_Z, Qeq, Qmult. cbn [Qnum Qden]. rewrite Pos.mul_1_l. ring. }
    assert (U1 : ~ units 1 ez == 0). { unfold units, Qeq. cbn [Qnum Qden]. pose proof (pw_pos ez). lia. }
    assert (Tq : truncated (exact (S754_finite a m e) / exact (S754_finite b m' e')) = if xorb a b then (- q)%Z else q).
    { assert (R1 : exact (S754_finite a m e) / exact (S754_finite b m' e') == if xorb a b then - (A # Z.to_pos B) else (A # Z.to_pos B)).
      { rewrite Ex, Ey, (Un (if a then _ else _)), (Un (if b then _ else _)). assert (AB : (A # Z.to_pos B) == inject_Z A / inject_Z B).
        { destruct B as [|p|p]; try lia. cbn [Z.to_pos]. unfold Qdiv, Qinv, inject_Z, Qmult, Qeq. cbn [Qnum Qden]. rewrite !Pos.mul_1_l. ring. }
        assert (NB : ~ inject_Z B == 0) by (intros K; apply (proj1 (inject_Z_injective B 0)) in K; lia).
        destruct a, b; cbn [xorb]; rewrite AB, ?inject_Z_opp; field; repeat split; assumption. }
      assert (Fq : Qfloor (A # Z.to_pos B) = q). { cbn [Qfloor]. rewrite Z2Pos.id by assumption. reflexivity. }
      assert (Pq : 0 < (A # Z.to_pos B)) by (unfold Qlt; cbn [Qnum Qden]; lia).
      unfold truncated. destruct (xorb a b).
      - destruct (Qlt_le_dec _ _) as [L|L]; [|exfalso; rewrite R1 in L; lra]. rewrite (Qceiling_comp _ _ R1). unfold Qceiling. f_equal. rewrite <- Fq. apply Qfloor_comp. ring.
      - destruct (Qlt_le_dec _ _) as [L|L]; [exfalso; rewrite R1 in L; lra|]. now rewrite (Qfloor_comp _ _ R1). }
    destruct (rounded_exact (binary_normalize prec emax (if a then - r else r) ez a) (units (if a then - r else r) ez)) as (F1 & F2 & F3).
    { apply normalize_rounded. } { apply grid_double; [destruct a; lia|lia]. }
    split; [exact F1|]. split; [exact F2|]. rewrite F3, Tq, Ex, Ey. rewrite (Un (if a then - A else A)%Z), (Un (if b then - B else B)%Z), (Un (if a then - r else r)%Z).
    assert (Er : inject_Z r == inject_Z A - inject_Z q * inject_Z B). { rewrite <- inject_Z_mult. unfold Qminus. rewrite <- inject_Z_opp, <- inject_Z_plus. rewrite inject_Z_injective. lia. }
    destruct a, b; cbn [xorb]; rewrite ?inject_Z_opp, Er; ring.
Qed.

Section Numbers.
  Context {X : Ext}.
  Lemma operators_rounded : forall op a b c x y v, eval a c = Ok (VNumber x) -> eval b c = Ok (VNumber y) ->
    representable x -> representable y -> is_finite x = true -> is_finite y = true ->
    exact_op op (exact x) (exact y) = Some v -> (op = BDiv -> ~ exact y == 0) ->
    exists r, eval (EBinary a op b) c = Ok (VNumber r) /\ rounded r v.
  Proof.
    intros op a b c x y v Ha Hb Rx Ry Fx Fy Hv Hd.
    assert (E : forall r, binary compare_values op (VNumber x) (VNumber y) = Ok (VNumber r) -> eval (EBinary a op b) c = Ok (VNumber r)).
    { intros r H. cbn [eval]. rewrite Ha, Hb. exact H. }
    destruct op; cbn [exact_op] in Hv; try discriminate; injection Hv as <-; (eexists; split; [apply E; reflexivity|]); cbn [arith].
    - now apply add_rounded.
    - now apply sub_rounded.
    - now apply mul_rounded.
    - apply div_rounded; auto.
  Qed.
  Lemma literal : forall s x, number s x -> evaluate s = Ok (VNumber x).
  Proof.
    intros s x H. unfold evaluate. rewrite (printed_parses' (ENumber x) s); [reflexivity| |].
    - left. now apply ok_number with s.
    - change (snd (print (ENumber x))) with [TNumber x]. rewrite <- (app_nil_r s). apply (written_token [] _ s [] []); [constructor| |constructor; constructor|now left]. now apply spelled_number.
  Qed.
  Lemma whole_literal : forall ds, digits ds -> exists x, evaluate ds = Ok (VNumber x) /\ denotes false (digits_value ds) 0 x.
  Proof. intros ds H. eexists. split; [apply literal, number_int; assumption|apply denotes_dec]. Qed.
  Lemma decimal_literal : forall ds fs, all_digits ds -> digits fs ->
    exists x, evaluate (ds ++ lit "." ++ fs) = Ok (VNumber x) /\ denotes false (digits_value (ds ++ fs)) (- Z.of_nat (length fs)) x.
  Proof. intros ds fs H1 H2. eexists. split; [apply literal, number_point; assumption|apply denotes_dec]. Qed.
  Lemma exact_literal : forall ds, digits ds -> (Z.of_N (digits_value ds) < 2 ^ 53)%Z -> evaluate ds = Ok (num (Z.of_N (digits_value ds))).
  Proof. intros ds H B. rewrite (literal ds _ (number_int ds H)). now rewrite f_of_dec_int. Qed.
  Lemma number_to_text : forall e c x, eval e c = Ok (VNumber x) -> representable x ->
    (exists s, eval (ETypeCast e TyString) c = Ok (VString s) /\ float_text s x) /\ eval (ETypeCast (ETypeCast e TyString) TyFloat) c = Ok (VNumber x).
  Proof.
    intros e c x H R. pose proof (display_text x R) as D. split.
    - exists (f_display x). split; [|exact D]. rewrite eval_cast, H. reflexivity.
    - apply (cast_string_float (ETypeCast e TyString) c (f_display x) x); [|exact D]. rewrite eval_cast, H. reflexivity.
  Qed.
  Lemma whole_to_text : forall e c z s, eval e c = Ok (num z) -> (Z.abs z < 2 ^ 53)%Z -> (eval (ETypeCast e TyString) c = Ok (VString s) <-> integer_written z s).
  Proof.
    intros e c z s H B. rewrite eval_cast, H. cbn [bind cast_value cast_string num]. unfold num. cbn [cast_string]. rewrite display_int by assumption. rewrite written_unique. split; [now intros [= <-]|now intros ->].
  Qed.
  Lemma operators_exact : forall op a b c x y v, eval a c = Ok (VNumber x) -> eval b c = Ok (VNumber y) ->
    representable x -> representable y -> is_finite x = true -> is_finite y = true ->
    exact_op op (exact x) (exact y) = Some v -> (op = BDiv -> ~ exact y == 0) -> is_double v ->
    exists r, eval (EBinary a op b) c = Ok (VNumber r) /\ is_exactly r v.
  Proof.
    intros op a b c x y v Ha Hb Rx Ry Fx Fy Hv Hd D. destruct (operators_rounded op a b c x y v Ha Hb Rx Ry Fx Fy Hv Hd) as (r & E & R).
    exists r. split; [assumption|]. now apply rounded_exact.
  Qed.
  Lemma whole_operators : forall op a b c m n v k, eval a c = Ok (num m) -> eval b c = Ok (num n) ->
    (Z.abs m <= 2 ^ 53)%Z -> (Z.abs n <= 2 ^ 53)%Z -> exact_op op (inject_Z m) (inject_Z n) = Some v -> (op = BDiv -> n <> 0%Z) ->
    v == inject_Z k -> (Z.abs k <= 2 ^ 53)%Z ->
    exists r, eval (EBinary a op b) c = Ok (VNumber r) /\ is_exactly r (inject_Z k).
  Proof.
    intros op a b c m n v k Ha Hb Bm Bn Hv Hd Ek Bk. destruct (of_Z_exact m Bm) as (Fm & Rm & Em). destruct (of_Z_exact n Bn) as (Fn & Rn & En).
    assert (Ev : exists v', exact_op op (exact (f_of_Z m)) (exact (f_of_Z n)) = Some v' /\ v' == inject_Z k).
    { destruct op; cbn [exact_op] in Hv; try discriminate; injection Hv as <-; (eexists; split; [reflexivity|]); now rewrite Em, En. }
    destruct Ev as (v' & Ev & Ek').
    destruct (operators_exact op a b c _ _ v' Ha Hb Rm Rn Fm Fn Ev) as (r & E & F & R & X1).
    - intros O. rewrite En. intros K. apply (proj1 (inject_Z_injective n 0)) in K. now apply Hd.
    - destruct (whole_double k Bk) as (y & A & B & C). exists y. now rewrite Ek'.
    - exists r. split; [assumption|]. split; [assumption|]. split; [assumption|]. now rewrite X1.
  Qed.
  Lemma remainder_exact : forall a b c x y, eval a c = Ok (VNumber x) -> eval b c = Ok (VNumber y) ->
    representable x -> representable y -> is_finite x = true -> is_finite y = true -> ~ exact y == 0 ->
    exists r, eval (EBinary a BMod b) c = Ok (VNumber r) /\ (uncustomised c "MOD" -> eval (call "MOD" [a; b]) c = Ok (VNumber r)) /\ is_exactly r (exact x - inject_Z (truncated (exact x / exact y)) * exact y).
  Proof.
    intros a b c x y Ha Hb Rx Ry Fx Fy Ny. exists (f_rem x y). split; [|split].
    - cbn [eval]. rewrite Ha, Hb. reflexivity.
    - intros U. assert (evaluate_to c [a; b] [VNumber x; VNumber y]) by (repeat constructor; assumption). run_builtin. reflexivity.
    - now apply rem_exact.
  Qed.
  Lemma one_exact : is_finite f_one = true /\ representable f_one /\ exact f_one == 1.
  Proof. repeat split; vm_compute; reflexivity. Qed.
  Lemma half_away_comp : forall p q, p == q -> half_away p = half_away q.
  Proof.
    intros p q E. unfold half_away. destruct (Qlt_le_dec p 0) as [A|A], (Qlt_le_dec q 0) as [B|B]; try (exfalso; lra); [apply Qceiling_comp|apply Qfloor_comp]; now rewrite E.
  Qed.
  Lemma whole_function : forall name f e c x, In (name, f) whole_functions -> uncustomised c name -> eval e c = Ok (VNumber x) -> representable x -> is_finite x = true ->
    exists r, eval (call name [e]) c = Ok (VNumber r) /\ is_exactly r (inject_Z (f (exact x))).
  Proof.
    intros name f e c x I U H R F. assert (V : evaluate_to c [e] [VNumber x]) by (repeat constructor; assumption).
    repeat (destruct I as [I|I]; [injection I as <- <-; run_builtin|]); [| | | | |contradiction];
      (eexists; split; [reflexivity|]); [now apply floor_exact|now apply floor_exact|now apply ceil_exact|now apply ceil_exact|].
    cbn [Z.max]. change (f_powi (f_of_Z 10) 0) with f_one. destruct one_exact as (O1 & O2 & O3).
    assert (M : is_exactly (f_mul x f_one) (exact x)).
    { apply rounded_exact; [|exists x; now split]. apply rounded_eq with (exact x * exact f_one); [rewrite O3; ring|]. now apply mul_rounded. }
    destruct M as (M1 & M2 & M3). destruct (round_exact_half _ M2 M1) as (N1 & N2 & N3). rewrite (half_away_comp _ _ M3) in N3.
    apply rounded_exact; [|exists (f_round (f_mul x f_one)); now split].
    apply rounded_eq with (exact (f_round (f_mul x f_one)) / exact f_one); [rewrite O3, N3; field|]. apply div_rounded; try assumption. rewrite O3. intros K. discriminate K.
  Qed.
  Lemma absolute_value : forall e c x, uncustomised c "ABS" -> eval e c = Ok (VNumber x) -> representable x -> is_finite x = true ->
    exists r, eval (call "ABS" [e]) c = Ok (VNumber r) /\ is_exactly r (Qabs (exact x)).
  Proof.
    intros e c x U H R F. assert (V : evaluate_to c [e] [VNumber x]) by (repeat constructor; assumption). run_builtin. eexists. split; [reflexivity|]. now apply abs_exact.
  Qed.
  Lemma negation : forall e c x, eval e c = Ok (VNumber x) -> representable x -> is_finite x = true ->
    exists r, eval (EUnary UMinus e) c = Ok (VNumber r) /\ is_exactly r (- exact x).
  Proof.
    intros e c x H R F. exists (f_neg x). split; [cbn [eval]; rewrite H; reflexivity|]. split; [now rewrite finite_neg|]. split; [now apply representable_neg|]. apply exact_neg.
  Qed.
  Definition power_ok (n : nat) : bool :=
    let z := Z.of_nat n in let x := f_powi (f_of_Z 10) z in is_finite x && valid_binary prec emax x && Qeq_bool (exact x) (inject_Z (10 ^ z)) && (f_to_i32 (f_of_Z z) =? z)%Z.
  Lemma powers_ok : forallb power_ok (seq 0 23) = true.
  Proof. vm_compute. reflexivity. Qed.
  Lemma power_exact : forall d, (0 <= d <= 22)%Z -> is_exactly (f_powi (f_of_Z 10) d) (inject_Z (10 ^ d)) /\ f_to_i32 (f_of_Z d) = d.
  Proof.
    intros d H. pose proof powers_ok as P. rewrite forallb_forall in P. specialize (P (Z.to_nat d) ltac:(apply in_seq; lia)). unfold power_ok in P. rewrite Z2Nat.id in P by lia.
    apply andb_true_iff in P as [P P4]. apply andb_true_iff in P as [P P3]. apply andb_true_iff in P as [P1 P2]. apply Z.eqb_eq in P4. apply Qeq_bool_iff in P3. now repeat split.
  Qed.
  Lemma rounded_nearest : forall y v, rounded y v -> ~ overflows v -> nearest y v.
  Proof. intros [b|b| |b m e] v H N; try apply H. exfalso. apply N, H. Qed.
  Lemma round_decimals : forall a b c x d, uncustomised c "ROUND" -> eval a c = Ok (VNumber x) -> eval b c = Ok (num d) -> representable x -> is_finite x = true ->
    (0 <= d <= 22)%Z -> ~ overflows (exact x * inject_Z (10 ^ d)) ->
    exists y r, eval (call "ROUND" [a; b]) c = Ok (VNumber r) /\ nearest y (exact x * inject_Z (10 ^ d)) /\ rounded r (inject_Z (half_away (exact y)) / inject_Z (10 ^ d)).
  Proof.
    intros a b c x d U Ha Hb R F Hd No. destruct (power_exact d Hd) as [(P1 & P2 & P3) P4]. assert (V : evaluate_to c [a; b] [VNumber x; num d]) by (repeat constructor; assumption).
    set (ten_d := f_powi (f_of_Z 10) d) in *. set (y := f_mul x ten_d). exists y, (f_div (f_round y) ten_d). split; [run_builtin; unfold num; change (fn_round [VNumber x; VNumber (f_of_Z d)] = Ok (VNumber (f_div (f_round y) ten_d))); unfold fn_round; rewrite P4; rewrite Z.max_l by lia; reflexivity|].
    assert (Ry : rounded y (exact x * inject_Z (10 ^ d))) by (apply rounded_eq with (exact x * exact ten_d); [now rewrite P3|now apply mul_rounded]).
    assert (Ny : nearest y (exact x * inject_Z (10 ^ d))). { now apply rounded_nearest. }
    split; [exact Ny|]. destruct Ny as (N1 & N2 & N3). destruct (round_exact_half y N2 N1) as (Q1 & Q2 & Q3).
    assert (Np : ~ inject_Z (10 ^ d) == 0). { intros K. apply (proj1 (inject_Z_injective (10 ^ d) 0)) in K. pose proof (Z.pow_pos_nonneg 10 d). lia. }
    apply rounded_eq with (exact (f_round y) / exact ten_d); [now rewrite P3, Q3|]. apply div_rounded; [assumption|assumption|]. now rewrite P3.
  Qed.
  Lemma sum_numbers : forall zs acc, (Z.abs acc + fold_right Z.add 0 (map Z.abs zs) < 2 ^ 53)%Z -> fold_left sum_value (map num zs) (f_of_Z acc) = f_of_Z (acc + fold_right Z.add 0 zs)%Z.
  Proof.
    induction zs as [|z zs IH]; intros acc B; cbn [map fold_left fold_right] in *; [now rewrite Z.add_0_r|]. unfold num at 2. cbn [sum_value].
    assert (P : (0 <= fold_right Z.add 0 (map Z.abs zs))%Z) by (clear; induction zs; cbn; lia). rewrite f_add_exact by lia. rewrite IH by lia. f_equal. lia.
  Qed.
  Lemma sum_whole : forall es c zs, uncustomised c "SUM" -> evaluate_to c es (map num zs) -> (fold_right Z.add 0 (map Z.abs zs) < 2 ^ 53)%Z ->
    eval (call "SUM" es) c = Ok (num (fold_right Z.add 0 zs)%Z).
  Proof. intros es c zs U V B. run_builtin. change (fn_sum (map num zs) = Ok (num (fold_right Z.add 0 zs)%Z)). unfold fn_sum. change f_zero with (f_of_Z 0). rewrite sum_numbers; [reflexivity|]. cbn [Z.abs]. lia. Qed.
  Lemma sum_whole_array : forall e c zs, uncustomised c "SUM" -> eval e c = Ok (VArray (map num zs)) -> (fold_right Z.add 0 (map Z.abs zs) < 2 ^ 53)%Z ->
    eval (call "SUM" [e]) c = Ok (num (fold_right Z.add 0 zs)%Z).
  Proof. intros e c zs U V B. assert (evaluate_to c [e] [VArray (map num zs)]) by (repeat constructor; assumption). run_builtin. change (fn_sum [VArray (map num zs)] = Ok (num (fold_right Z.add 0 zs)%Z)). unfold fn_sum. cbn [fold_left sum_value]. change f_zero with (f_of_Z 0). rewrite sum_numbers; [reflexivity|]. cbn [Z.abs]. lia. Qed.
End Numbers.
