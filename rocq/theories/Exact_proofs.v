(** Integer arithmetic in doubles is exact below 2^53. *)
From Coq Require Import ZArith NArith Bool List Lia.
From Coq Require Import Floats.SpecFloat.
From Verif Require Import Base F64 Value_proofs Float_proofs.
Import ListNotations.
Local Open Scope Z_scope.

Lemma shr_1_even : forall p, shr_1 (Build_shr_record (Zpos p * 2) false false) = Build_shr_record (Zpos p) false false.
Proof. intros p. rewrite Z.mul_comm. reflexivity. Qed.
Lemma shr_exact : forall n m, iter_pos shr_1 n (Build_shr_record (Zpos m * 2 ^ Zpos n) false false) = Build_shr_record (Zpos m) false false.
Proof.
  induction n as [n IH|n IH|]; intros m; cbn [iter_pos].
  - assert (E : Zpos m * 2 ^ Zpos n~1 = Zpos (m * 2 ^ n * 2 ^ n) * 2).
    { rewrite !Pos2Z.inj_mul, Pos2Z.inj_pow. replace (Zpos n~1) with (Zpos n + Zpos n + 1) by lia.
      rewrite !Z.pow_add_r by lia. change (2 ^ 1) with 2. ring. }
    rewrite E, shr_1_even. rewrite Pos2Z.inj_mul, Pos2Z.inj_pow. rewrite IH. rewrite Pos2Z.inj_mul, Pos2Z.inj_pow. apply IH.
  - assert (E : Zpos m * 2 ^ Zpos n~0 = Zpos (m * 2 ^ n) * 2 ^ Zpos n).
    { rewrite !Pos2Z.inj_mul, Pos2Z.inj_pow. replace (Zpos n~0) with (Zpos n + Zpos n) by lia.
      rewrite !Z.pow_add_r by lia. ring. }
    rewrite E, IH. rewrite Pos2Z.inj_mul, Pos2Z.inj_pow. apply IH.
  - apply shr_1_even.
Qed.

Lemma digits_shifted : forall M p k, 0 <= k -> Zpos M = Zpos p * 2 ^ k -> Zpos (digits2_pos M) = Zpos (digits2_pos p) + k.
Proof.
  intros M p k Hk E. apply digits2_unique; [lia|]. rewrite E. destruct (digits2_pos_bounds p) as [H1 H2].
  replace (Zpos (digits2_pos p) + k - 1) with ((Zpos (digits2_pos p) - 1) + k) by lia.
  rewrite !Z.pow_add_r by lia. assert (0 < 2 ^ k) by (apply Z.pow_pos_nonneg; lia). nia.
Qed.

Lemma round_aux_exact : forall s M E p, Zpos p < 2 ^ 53 -> E <= int_e p -> Zpos M = Zpos p * 2 ^ (- E) ->
  binary_round_aux prec emax s (Zpos M) E loc_Exact = S754_finite s (int_m p) (int_e p).
Proof.
  intros s M E p Hp HE HM. pose proof (int_e_range p Hp) as R.
  assert (Hd : Zpos (digits2_pos M) = Zpos (digits2_pos p) - E) by (rewrite (digits_shifted M p (- E)); lia).
  assert (A : shr_fexp prec emax (Zpos M) E loc_Exact = (Build_shr_record (Zpos (int_m p)) false false, int_e p)).
  { unfold shr_fexp, fexp, emin. cbn [Zdigits2 shr_record_of_loc]. rewrite Hd. change prec with 53. change emax with 1024.
    replace (Zpos (digits2_pos p) - E + E - 53) with (int_e p) by (unfold int_e; lia). rewrite Z.max_l by lia.
    assert (V : Zpos M = Zpos (int_m p) * 2 ^ (int_e p - E)).
    { rewrite HM, (int_m_val p Hp), <- Z.mul_assoc, <- Z.pow_add_r by lia. do 2 f_equal. lia. }
    unfold shr. destruct (int_e p - E) as [|n|n] eqn:D; [| |lia].
    - rewrite V. change (2 ^ 0) with 1. rewrite Z.mul_1_r. f_equal. lia.
    - rewrite V, shr_exact. f_equal. lia. }
  assert (B : shr_fexp prec emax (Zpos (int_m p)) (int_e p) loc_Exact = (Build_shr_record (Zpos (int_m p)) false false, int_e p)).
  { unfold shr_fexp, fexp, emin. cbn [Zdigits2 shr_record_of_loc]. rewrite (int_m_digits p Hp). change prec with 53. change emax with 1024.
    replace (53 + int_e p - 53) with (int_e p) by lia. rewrite Z.max_l by lia. rewrite Z.sub_diag. reflexivity. }
  unfold binary_round_aux. rewrite A. cbn [shr_m loc_of_shr_record round_nearest_even]. rewrite B. cbn [shr_m].
  assert (C : (int_e p <=? emax - prec) = true) by (apply Z.leb_le; change (emax - prec) with 971; lia). now rewrite C.
Qed.

Lemma round_exact : forall s M E p, Zpos p < 2 ^ 53 -> E <= 0 -> Zpos M = Zpos p * 2 ^ (- E) ->
  binary_round prec emax s M E = S754_finite s (int_m p) (int_e p).
Proof.
  intros s M E p Hp HE HM. pose proof (int_e_range p Hp) as R.
  assert (Hd : Zpos (digits2_pos M) = Zpos (digits2_pos p) - E) by (rewrite (digits_shifted M p (- E)); lia).
  unfold binary_round, fexp, emin. rewrite Hd. change prec with 53 at 1 2. change emax with 1024 at 1.
  replace (Zpos (digits2_pos p) - E + E - 53) with (int_e p) by (unfold int_e; lia). rewrite Z.max_l by lia.
  unfold shl_align. destruct (int_e p - E) as [|n|n] eqn:D.
  - apply round_aux_exact; [assumption|lia|assumption].
  - apply round_aux_exact; [assumption|lia|assumption].
  - apply round_aux_exact; [assumption|lia|]. rewrite shift_pos_val, HM, <- Z.mul_assoc, <- Z.pow_add_r by lia. do 2 f_equal. lia.
Qed.

Lemma normalize_exact : forall z E m zero, Z.abs z < 2 ^ 53 -> E <= 0 -> m = z * 2 ^ (- E) -> z <> 0 ->
  binary_normalize prec emax m E zero = f_of_Z z.
Proof.
  intros z E m zero Hz HE -> Hn. assert (P : 0 < 2 ^ (- E)) by (apply Z.pow_pos_nonneg; lia).
  destruct z as [|p|p]; [congruence| |].
  - assert (Q : Zpos p * 2 ^ (- E) = Zpos (p * Z.to_pos (2 ^ (- E)))) by (rewrite Pos2Z.inj_mul, Z2Pos.id by lia; reflexivity).
    rewrite Q. cbn [binary_normalize]. rewrite (round_exact _ _ _ p); [|assumption|assumption|now rewrite <- Q].
    symmetry. now apply f_of_Z_pos.
  - assert (Q : Zneg p * 2 ^ (- E) = Zneg (p * Z.to_pos (2 ^ (- E)))).
    { rewrite <- !Pos2Z.opp_pos, Pos2Z.inj_mul, Z2Pos.id by lia. ring. }
    rewrite Q. cbn [binary_normalize]. rewrite (round_exact _ _ _ p); [|assumption|assumption|].
    + symmetry. now apply f_of_Z_neg.
    + rewrite Pos2Z.inj_mul, Z2Pos.id by lia. reflexivity.
Qed.

Lemma align_val : forall m e e', e' <= e -> Zpos (fst (shl_align m e e')) = Zpos m * 2 ^ (e - e').
Proof.
  intros m e e' H. unfold shl_align. destruct (e' - e) as [|d|d] eqn:D; cbn [fst].
  - replace (e - e') with 0 by lia. change (2 ^ 0) with 1. lia.
  - lia.
  - rewrite shift_pos_val. do 2 f_equal. lia.
Qed.

(** the float of a nonzero integer *)
Lemma f_of_Z_form : forall z, Z.abs z < 2 ^ 53 -> z <> 0 ->
  exists m e, f_of_Z z = S754_finite (z <? 0) m e /\ -52 <= e <= 0 /\ cond_Zopp (z <? 0) (Zpos m) = z * 2 ^ (- e).
Proof.
  intros [|p|p] H Hn; [congruence| |].
  - exists (int_m p), (int_e p). rewrite f_of_Z_pos by assumption. split; [reflexivity|]. split; [now apply int_e_range|].
    cbn [Z.ltb Z.compare cond_Zopp]. now apply int_m_val.
  - exists (int_m p), (int_e p). rewrite f_of_Z_neg by assumption. split; [reflexivity|]. split; [now apply int_e_range|].
    cbn [Z.ltb Z.compare cond_Zopp]. rewrite int_m_val by assumption. rewrite <- Pos2Z.opp_pos. ring.
Qed.

Lemma cond_align : forall b m e e', e' <= e -> cond_Zopp b (Zpos (fst (shl_align m e e'))) = cond_Zopp b (Zpos m) * 2 ^ (e - e').
Proof. intros b m e e' H. rewrite align_val by assumption. destruct b; cbn [cond_Zopp]; ring. Qed.

Lemma f_of_Z_0 : f_of_Z 0 = S754_zero false. Proof. reflexivity. Qed.

Lemma f_add_exact : forall x y, Z.abs x < 2 ^ 53 -> Z.abs y < 2 ^ 53 -> Z.abs (x + y) < 2 ^ 53 ->
  f_add (f_of_Z x) (f_of_Z y) = f_of_Z (x + y).
Proof.
  intros x y Hx Hy Hs. destruct (Z.eq_dec x 0) as [->|Nx]; [|destruct (Z.eq_dec y 0) as [->|Ny]].
  - rewrite Z.add_0_l. rewrite f_of_Z_0. destruct (Z.eq_dec y 0) as [->|Ny]; [reflexivity|].
    destruct (f_of_Z_form y Hy Ny) as (m & e & E & _). rewrite E. reflexivity.
  - rewrite Z.add_0_r. rewrite f_of_Z_0. destruct (f_of_Z_form x Hx Nx) as (m & e & E & _). rewrite E. reflexivity.
  - destruct (f_of_Z_form x Hx Nx) as (m & e & E & R & V). destruct (f_of_Z_form y Hy Ny) as (m' & e' & E' & R' & V').
    rewrite E, E'. unfold f_add, SFadd. cbv zeta. rewrite !cond_align, V, V' by lia.
    rewrite <- !Z.mul_assoc, <- !Z.pow_add_r by lia.
    replace (- e + (e - Z.min e e')) with (- Z.min e e') by lia. replace (- e' + (e' - Z.min e e')) with (- Z.min e e') by lia.
    rewrite <- Z.mul_add_distr_r. destruct (Z.eq_dec (x + y) 0) as [->|Ns]; [reflexivity|].
    now apply normalize_exact; [|lia|..].
Qed.
Lemma f_sub_exact : forall x y, Z.abs x < 2 ^ 53 -> Z.abs y < 2 ^ 53 -> Z.abs (x - y) < 2 ^ 53 ->
  f_sub (f_of_Z x) (f_of_Z y) = f_of_Z (x - y).
Proof.
  intros x y Hx Hy Hs. destruct (Z.eq_dec x 0) as [->|Nx]; [|destruct (Z.eq_dec y 0) as [->|Ny]].
  - rewrite Z.sub_0_l. rewrite f_of_Z_0. destruct y as [|p|p]; [reflexivity| |].
    + rewrite f_of_Z_pos by assumption. change (- Zpos p) with (Zneg p). now rewrite f_of_Z_neg.
    + rewrite f_of_Z_neg by assumption. change (- Zneg p) with (Zpos p). now rewrite f_of_Z_pos.
  - rewrite Z.sub_0_r. rewrite f_of_Z_0. destruct (f_of_Z_form x Hx Nx) as (m & e & E & _). rewrite E. reflexivity.
  - destruct (f_of_Z_form x Hx Nx) as (m & e & E & R & V). destruct (f_of_Z_form y Hy Ny) as (m' & e' & E' & R' & V').
    rewrite E, E'. unfold f_sub, SFsub. cbv zeta. rewrite !cond_align, V, V' by lia.
    rewrite <- !Z.mul_assoc, <- !Z.pow_add_r by lia.
    replace (- e + (e - Z.min e e')) with (- Z.min e e') by lia. replace (- e' + (e' - Z.min e e')) with (- Z.min e e') by lia.
    rewrite <- Z.mul_sub_distr_r. destruct (Z.eq_dec (x - y) 0) as [->|Ns]; [reflexivity|].
    now apply normalize_exact; [|lia|..].
Qed.
(** the sign of a zero product is that of the factors; otherwise exact *)
Lemma f_mul_exact : forall x y, Z.abs x < 2 ^ 53 -> Z.abs y < 2 ^ 53 -> Z.abs (x * y) < 2 ^ 53 ->
  f_mul (f_of_Z x) (f_of_Z y) = if x * y =? 0 then S754_zero (xorb (x <? 0) (y <? 0)) else f_of_Z (x * y).
Proof.
  intros x y Hx Hy Hs. destruct (Z.eq_dec x 0) as [->|Nx]; [|destruct (Z.eq_dec y 0) as [->|Ny]].
  - rewrite Z.mul_0_l. rewrite f_of_Z_0. destruct (Z.eq_dec y 0) as [->|Ny]; [reflexivity|].
    destruct (f_of_Z_form y Hy Ny) as (m & e & E & _). rewrite E. reflexivity.
  - rewrite Z.mul_0_r. rewrite f_of_Z_0. destruct (f_of_Z_form x Hx Nx) as (m & e & E & _). rewrite E. reflexivity.
  - destruct (f_of_Z_form x Hx Nx) as (m & e & E & R & V). destruct (f_of_Z_form y Hy Ny) as (m' & e' & E' & R' & V').
    rewrite E, E'. unfold f_mul, SFmul. assert (Np : x * y <> 0) by nia.
    rewrite (proj2 (Z.eqb_neq _ _) Np).
    assert (Q : Zpos (m * m') = Zpos (Z.to_pos (Z.abs (x * y))) * 2 ^ (- (e + e'))).
    { rewrite Z2Pos.id by lia. rewrite Pos2Z.inj_mul. replace (- (e + e')) with (- e + - e') by lia. rewrite Z.pow_add_r by lia.
      rewrite Z.abs_mul. assert (W : forall z m e, e <= 0 -> cond_Zopp (z <? 0) (Zpos m) = z * 2 ^ (- e) -> Zpos m = Z.abs z * 2 ^ (- e)).
      { clear. intros z m e He H. assert (0 < 2 ^ (- e)) by (apply Z.pow_pos_nonneg; lia).
        destruct (Z.ltb_spec z 0); cbn [cond_Zopp] in H; [rewrite Z.abs_neq by lia|rewrite Z.abs_eq by lia]; nia. }
      rewrite (W x m e), (W y m' e') by (assumption || lia). ring. }
    assert (L : Zpos (Z.to_pos (Z.abs (x * y))) < 2 ^ 53) by (rewrite Z2Pos.id by lia; assumption).
    rewrite (round_aux_exact _ _ _ (Z.to_pos (Z.abs (x * y)))); [|assumption| |assumption].
    + destruct (Z.ltb_spec x 0); destruct (Z.ltb_spec y 0); cbn [xorb].
      * assert (0 < x * y) by nia. rewrite <- f_of_Z_pos, Z2Pos.id by lia. now rewrite Z.abs_eq by lia.
      * assert (x * y < 0) by nia. rewrite <- f_of_Z_neg, <- Pos2Z.opp_pos, Z2Pos.id by lia. f_equal. lia.
      * assert (x * y < 0) by nia. rewrite <- f_of_Z_neg, <- Pos2Z.opp_pos, Z2Pos.id by lia. f_equal. lia.
      * assert (0 < x * y) by nia. rewrite <- f_of_Z_pos, Z2Pos.id by lia. now rewrite Z.abs_eq by lia.
    + (* the product has at least as many digits *)
      assert (D : forall z m e, e <= 0 -> -52 <= e -> f_of_Z z = S754_finite (z <? 0) m e -> Z.abs z < 2 ^ 53 -> z <> 0 -> e = int_e (Z.to_pos (Z.abs z))).
      { clear. intros [|p|p] m e H1 H2 E Hz Hn; [congruence| |].
        - rewrite f_of_Z_pos in E by assumption. now injection E as _ <-.
        - rewrite f_of_Z_neg in E by assumption. now injection E as _ <-. }
      rewrite (D x m e), (D y m' e') by (assumption || lia). unfold int_e.
      assert (Zpos (digits2_pos (Z.to_pos (Z.abs x))) <= 53) by (apply digits2_le; [lia|rewrite Z2Pos.id by lia; assumption]).
      assert (Zpos (digits2_pos (Z.to_pos (Z.abs y))) <= 53) by (apply digits2_le; [lia|rewrite Z2Pos.id by lia; assumption]).
      assert (Zpos (digits2_pos (Z.to_pos (Z.abs y))) <= Zpos (digits2_pos (Z.to_pos (Z.abs (x * y))))); [|lia].
      destruct (digits2_pos_bounds (Z.to_pos (Z.abs y))) as [B1 _]. destruct (digits2_pos_bounds (Z.to_pos (Z.abs (x * y)))) as [_ B2].
      rewrite Z2Pos.id in B1, B2 by lia. assert (Z.abs y <= Z.abs (x * y)) by (rewrite Z.abs_mul; nia).
      assert (Zpos (digits2_pos (Z.to_pos (Z.abs y))) - 1 < Zpos (digits2_pos (Z.to_pos (Z.abs (x * y))))); [|lia].
      apply (Z.pow_lt_mono_r_iff 2); lia.
Qed.
