(** Facts about the float model: integers up to 2^53 are represented exactly. *)
From Coq Require Import ZArith NArith Bool List Lia.
From Coq Require Import Floats.SpecFloat.
From Verif Require Import Base F64 Value_proofs.
Import ListNotations.
Local Open Scope Z_scope.

Lemma digits2_pos_bounds : forall p, 2 ^ (Zpos (digits2_pos p) - 1) <= Zpos p < 2 ^ Zpos (digits2_pos p).
Proof.
  induction p; simpl digits2_pos.
  - rewrite Pos2Z.inj_succ. replace (Z.succ (Zpos (digits2_pos p)) - 1) with (Z.succ (Zpos (digits2_pos p) - 1)) by lia.
    rewrite !Z.pow_succ_r by lia. rewrite (Pos2Z.inj_xI p). lia.
  - rewrite Pos2Z.inj_succ. replace (Z.succ (Zpos (digits2_pos p)) - 1) with (Z.succ (Zpos (digits2_pos p) - 1)) by lia.
    rewrite !Z.pow_succ_r by lia. rewrite (Pos2Z.inj_xO p). lia.
  - simpl. lia.
Qed.
Lemma digits2_unique : forall p d, 0 < d -> 2 ^ (d - 1) <= Zpos p < 2 ^ d -> Zpos (digits2_pos p) = d.
Proof.
  intros p d Hd [H1 H2]. destruct (digits2_pos_bounds p) as [H3 H4].
  assert (d - 1 < Zpos (digits2_pos p)).
  { apply (Z.pow_lt_mono_r_iff 2); lia. }
  assert (Zpos (digits2_pos p) - 1 < d).
  { apply (Z.pow_lt_mono_r_iff 2); lia. }
  lia.
Qed.
Lemma digits2_le : forall p d, 0 <= d -> Zpos p < 2 ^ d -> Zpos (digits2_pos p) <= d.
Proof.
  intros p d Hd H. destruct (digits2_pos_bounds p) as [H3 H4].
  assert (Zpos (digits2_pos p) - 1 < d); [|lia].
  apply (Z.pow_lt_mono_r_iff 2); lia.
Qed.
Lemma shift_pos_val : forall d p, Zpos (shift_pos d p) = Zpos p * 2 ^ Zpos d.
Proof.
  intros. unfold shift_pos.
  revert p. induction d using Pos.peano_ind; intros p.
  - simpl. lia.
  - rewrite Pos.iter_succ. rewrite Pos2Z.inj_xO, IHd, Pos2Z.inj_succ, Z.pow_succ_r by lia. lia.
Qed.

(** the canonical representation of an integer of at most 53 bits *)
Definition int_m (p : positive) : positive :=
  match (53 - Zpos (digits2_pos p))%Z with Zpos d => shift_pos d p | _ => p end.
Definition int_e (p : positive) : Z := Zpos (digits2_pos p) - 53.

Lemma int_m_val : forall p, Zpos p < 2 ^ 53 -> Zpos (int_m p) = Zpos p * 2 ^ (- int_e p).
Proof.
  intros p H. unfold int_m, int_e.
  assert (Zpos (digits2_pos p) <= 53) by (apply digits2_le; lia).
  replace (- (Zpos (digits2_pos p) - 53)) with (53 - Zpos (digits2_pos p)) by lia.
  destruct (53 - Zpos (digits2_pos p)) eqn:E; try lia.
  apply shift_pos_val.
Qed.
Lemma int_m_digits : forall p, Zpos p < 2 ^ 53 -> Zpos (digits2_pos (int_m p)) = 53.
Proof.
  intros p H. apply digits2_unique; [lia|]. rewrite int_m_val by auto. unfold int_e.
  assert (Hd : Zpos (digits2_pos p) <= 53) by (apply digits2_le; lia).
  destruct (digits2_pos_bounds p) as [H1 H2].
  set (d := Zpos (digits2_pos p)) in *.
  assert (K1 : 2 ^ (53 - 1) = 2 ^ (d - 1) * 2 ^ (- (d - 53))).
  { rewrite <- Z.pow_add_r by lia. f_equal. lia. }
  assert (K2 : 2 ^ 53 = 2 ^ d * 2 ^ (- (d - 53))).
  { rewrite <- Z.pow_add_r by lia. f_equal. lia. }
  rewrite K1, K2.
  assert (0 < 2 ^ (- (d - 53))) by (apply Z.pow_pos_nonneg; lia). clear K1 K2 H. nia.
Qed.

Lemma round_int : forall s p, Zpos p < 2 ^ 53 ->
  binary_round prec emax s p 0 = S754_finite s (int_m p) (int_e p).
Proof.
  intros s p H. unfold binary_round, shl_align, fexp, emin.
  assert (Hd : Zpos (digits2_pos p) <= 53) by (apply digits2_le; lia).
  change prec with 53. change emax with 1024.
  rewrite Z.add_0_r, Z.max_l by lia. rewrite Z.sub_0_r.
  assert (HH : binary_round_aux 53 1024 s (Zpos (int_m p)) (int_e p) loc_Exact = S754_finite s (int_m p) (int_e p)).
  { unfold binary_round_aux. 
    assert (Hs : shr_fexp 53 1024 (Zpos (int_m p)) (int_e p) loc_Exact =
                 (Build_shr_record (Zpos (int_m p)) false false, int_e p)).
    { unfold shr_fexp. cbn [Zdigits2]. unfold fexp, emin. rewrite int_m_digits by auto.
      unfold int_e in *. rewrite Z.max_l by lia.
      replace (53 + (Zpos (digits2_pos p) - 53) - 53 - (Zpos (digits2_pos p) - 53)) with 0 by lia.
      reflexivity. }
    rewrite Hs. cbn [shr_m loc_of_shr_record shr_r shr_s round_nearest_even]. rewrite Hs. cbn [shr_m].
    assert ((int_e p <=? 1024 - 53) = true) as ->; auto. apply Z.leb_le. unfold int_e. lia. }
  unfold int_m, int_e in *.
  destruct (Zpos (digits2_pos p) - 53) eqn:E.
  - replace (53 - Zpos (digits2_pos p)) with 0 in * by lia. exact HH.
  - lia.
  - replace (53 - Zpos (digits2_pos p)) with (Zpos p0) in * by lia. exact HH.
Qed.

Lemma f_of_Z_pos : forall p, Zpos p < 2 ^ 53 -> f_of_Z (Zpos p) = S754_finite false (int_m p) (int_e p).
Proof. intros. unfold f_of_Z, binary_normalize. now apply round_int. Qed.
Lemma f_of_Z_neg : forall p, Zpos p < 2 ^ 53 -> f_of_Z (Zneg p) = S754_finite true (int_m p) (int_e p).
Proof. intros. unfold f_of_Z, binary_normalize. now apply round_int. Qed.
Lemma int_e_range : forall p, Zpos p < 2 ^ 53 -> -52 <= int_e p <= 0.
Proof. intros. unfold int_e. assert (Zpos (digits2_pos p) <= 53) by (apply digits2_le; lia). lia. Qed.

Lemma trunc_int : forall s p, Zpos p < 2 ^ 53 -> trunc_Z (S754_finite s (int_m p) (int_e p)) = if s then Zneg p else Zpos p.
Proof.
  intros s p H. unfold trunc_Z. pose proof (int_e_range p H). rewrite int_m_val by auto.
  assert (H0' : 0 < 2 ^ (- int_e p)) by (apply Z.pow_pos_nonneg; lia).
  destruct (0 <=? int_e p) eqn:E.
  - apply Z.leb_le in E. replace (int_e p) with 0 by lia.
    change (2 ^ (- 0)) with 1. change (2 ^ 0) with 1. rewrite !Z.mul_1_r. now destruct s.
  - rewrite Z.div_mul by lia. now destruct s.
Qed.
Lemma trunc_of_Z : forall z, Z.abs z < 2 ^ 53 -> trunc_Z (f_of_Z z) = z.
Proof.
  intros [|p|p] H; auto.
  - rewrite f_of_Z_pos, trunc_int; auto.
  - rewrite f_of_Z_neg, trunc_int; auto.
Qed.
Lemma f_of_Z_finite : forall z, Z.abs z < 2 ^ 53 -> is_finite (f_of_Z z) = true.
Proof.
  intros [|p|p] H; auto.
  - now rewrite f_of_Z_pos.
  - now rewrite f_of_Z_neg.
Qed.
Lemma f_to_int_of_Z : forall lo hi z, Z.abs z < 2 ^ 53 -> lo <= z <= hi -> f_to_int lo hi (f_of_Z z) = z.
Proof.
  intros lo hi z H Hz. unfold f_to_int. rewrite trunc_of_Z by auto.
  pose proof (f_of_Z_finite z H). destruct (f_of_Z z); try discriminate; lia.
Qed.

(** comparison of exact integers *)
Lemma int_key : forall p q, Zpos p < 2 ^ 53 -> Zpos q < 2 ^ 53 ->
  match Z.compare (int_e p) (int_e q) with Eq => Pos.compare (int_m p) (int_m q) | c => c end = Pos.compare p q.
Proof.
  intros p q Hp Hq. change (Pos.compare p q) with (Z.compare (Zpos p) (Zpos q)).
  destruct (digits2_pos_bounds p) as [P1 P2], (digits2_pos_bounds q) as [Q1 Q2].
  pose proof (int_m_val p Hp) as Vp. pose proof (int_m_val q Hq) as Vq.
  pose proof (int_e_range p Hp) as Ep. pose proof (int_e_range q Hq) as Eq'.
  unfold int_e in *. set (a := Zpos (digits2_pos p)) in *. set (b := Zpos (digits2_pos q)) in *.
  destruct (Z.compare_spec (a - 53) (b - 53)).
  - change (Pos.compare (int_m p) (int_m q)) with (Z.compare (Zpos (int_m p)) (Zpos (int_m q))).
    rewrite Vp, Vq. assert (a = b) as -> by lia.
    assert (0 < 2 ^ (- (b - 53))) by (apply Z.pow_pos_nonneg; lia).
    symmetry. rewrite (Z.mul_comm (Zpos p)), (Z.mul_comm (Zpos q)).
    destruct (Z.compare_spec (Zpos p) (Zpos q)); symmetry; [apply Z.compare_eq_iff|apply Z.compare_lt_iff|apply Z.compare_gt_iff]; nia.
  - symmetry. apply Z.compare_lt_iff. assert (2 ^ a <= 2 ^ (b - 1)) by (apply Z.pow_le_mono_r; lia). lia.
  - symmetry. apply Z.compare_gt_iff. assert (2 ^ b <= 2 ^ (a - 1)) by (apply Z.pow_le_mono_r; lia). lia.
Qed.
Lemma f_cmp_of_Z : forall x y, Z.abs x < 2 ^ 53 -> Z.abs y < 2 ^ 53 ->
  f_cmp (f_of_Z x) (f_of_Z y) = Some (Z.compare x y).
Proof.
  intros [|p|p] [|q|q] Hx Hy;
    rewrite ?f_of_Z_pos, ?f_of_Z_neg by lia; auto; unfold f_cmp, SFcompare;
    change (f_of_Z 0) with (S754_zero false); cbn [Z.compare]; auto.
  - rewrite <- (int_key p q) by lia. destruct (int_e p ?= int_e q); auto.
  - rewrite <- (int_key p q) by lia. destruct (int_e p ?= int_e q); auto.
Qed.
Lemma f_eqb_of_Z : forall x y, Z.abs x < 2 ^ 53 -> Z.abs y < 2 ^ 53 ->
  f_eqb (f_of_Z x) (f_of_Z y) = (x =? y).
Proof.
  intros. unfold f_eqb, SFeqb. change (SFcompare (f_of_Z x) (f_of_Z y)) with (f_cmp (f_of_Z x) (f_of_Z y)).
  rewrite f_cmp_of_Z by auto. destruct (Z.compare_spec x y).
  - symmetry. now apply Z.eqb_eq.
  - symmetry. apply Z.eqb_neq. lia.
  - symmetry. apply Z.eqb_neq. lia.
Qed.
Lemma f_ltb_of_Z : forall x y, Z.abs x < 2 ^ 53 -> Z.abs y < 2 ^ 53 ->
  f_ltb (f_of_Z x) (f_of_Z y) = (x <? y).
Proof.
  intros. unfold f_ltb, SFltb. change (SFcompare (f_of_Z x) (f_of_Z y)) with (f_cmp (f_of_Z x) (f_of_Z y)).
  rewrite f_cmp_of_Z by auto. unfold Z.ltb. now destruct (Z.compare x y).
Qed.
Lemma f_leb_of_Z : forall x y, Z.abs x < 2 ^ 53 -> Z.abs y < 2 ^ 53 ->
  f_leb (f_of_Z x) (f_of_Z y) = (x <=? y).
Proof.
  intros. unfold f_leb, SFleb. change (SFcompare (f_of_Z x) (f_of_Z y)) with (f_cmp (f_of_Z x) (f_of_Z y)).
  rewrite f_cmp_of_Z by auto. unfold Z.leb. now destruct (Z.compare x y).
Qed.
Lemma f_of_Z_inj : forall x y, Z.abs x < 2 ^ 53 -> Z.abs y < 2 ^ 53 -> f_of_Z x = f_of_Z y -> x = y.
Proof. intros x y Hx Hy H. rewrite <- (trunc_of_Z x), <- (trunc_of_Z y) by auto. now rewrite H. Qed.

(** ** Representable numbers *)
Lemma representable_digits : forall s m e, valid_binary prec emax (S754_finite s m e) = true ->
  Zpos m < 2 ^ 53 /\ (-1074 < e -> 2 ^ 52 <= Zpos m) /\ -1074 <= e <= 971.
Proof.
  intros s m e H. cbn [valid_binary] in H. unfold bounded, canonical_mantissa in H.
  apply andb_true_iff in H as [H1 H2]. apply Zeq_bool_eq in H1. apply Z.leb_le in H2.
  unfold fexp, emin in H1. change prec with 53 in *. change emax with 1024 in *.
  destruct (digits2_pos_bounds m) as [D1 D2]. set (d := Zpos (digits2_pos m)) in *.
  assert (d <= 53) by lia. split; [|split].
  - assert (2 ^ d <= 2 ^ 53) by (apply Z.pow_le_mono_r; lia). lia.
  - intros He. assert (d = 53) by lia. rewrite H0 in D1. exact D1.
  - lia.
Qed.

Lemma f_ltb_one : forall m e, valid_binary prec emax (S754_finite false m e) = true ->
  f_ltb (S754_finite false m e) f_one = (trunc_Z (S754_finite false m e) <? 1).
Proof.
  intros m e H. destruct (representable_digits _ _ _ H) as (H1 & H2 & H3).
  change f_one with (S754_finite false 4503599627370496 (-52)).
  unfold f_ltb, SFltb, SFcompare, trunc_Z.
  destruct (Z.compare_spec e (-52)) as [E|E|E].
  - subst. change (0 <=? -52) with false. cbn [Z.opp].
    assert (HC : forall k, Pos.compare_cont Eq m k = Z.compare (Zpos m) (Zpos k)) by reflexivity.
    rewrite HC. clear HC.
    symmetry. destruct (Z.compare_spec (Zpos m) 4503599627370496) as [C|C|C].
    + rewrite C. reflexivity.
    + apply Z.ltb_lt. apply Z.div_lt_upper_bound; lia.
    + apply Z.ltb_ge. apply Z.div_le_lower_bound; lia.
  - destruct (Z.leb_spec 0 e); [lia|]. symmetry. apply Z.ltb_lt.
    assert (2 ^ 53 <= 2 ^ (- e)) by (apply Z.pow_le_mono_r; lia).
    apply Z.div_lt_upper_bound; lia.
  - symmetry. apply Z.ltb_ge. assert (2 ^ 52 <= Zpos m) by (apply H2; lia).
    destruct (Z.leb_spec 0 e).
    + assert (0 < 2 ^ e) by (apply Z.pow_pos_nonneg; lia). nia.
    + assert (2 ^ (- e) <= 2 ^ 52) by (apply Z.pow_le_mono_r; lia).
      apply Z.div_le_lower_bound; [apply Z.pow_pos_nonneg|]; lia.
Qed.
Lemma trunc_floor_pos : forall m e, valid_binary prec emax (S754_finite false m e) = true ->
  trunc_Z (f_floor (S754_finite false m e)) = trunc_Z (S754_finite false m e).
Proof.
  intros m e H. destruct (representable_digits _ _ _ H) as (H1 & H2 & H3).
  unfold f_floor. destruct (0 <=? e) eqn:E; auto. unfold signed.
  assert (Hp : 0 < 2 ^ (- e)) by (apply Z.pow_pos_nonneg; apply Z.leb_gt in E; lia).
  assert (0 <= Zpos m / 2 ^ (- e) < 2 ^ 53).
  { split; [apply Z.div_pos; lia|]. apply Z.div_lt_upper_bound; nia. }
  unfold trunc_Z at 2. rewrite E. unfold f_of_Z_signed.
  destruct (Zpos m / 2 ^ (- e)) eqn:Q; auto.
  - rewrite trunc_of_Z; auto. lia.
  - lia.
Qed.
Lemma floor_finite : forall x, is_finite x = true -> valid_binary prec emax x = true -> is_finite (f_floor x) = true.
Proof.
  intros x Hf H. destruct x as [s|s| |s m e]; auto.
  destruct (representable_digits _ _ _ H) as (H1 & H2 & H3).
  unfold f_floor. destruct (0 <=? e) eqn:E; auto.
  assert (Hp : 0 < 2 ^ (- e)) by (apply Z.pow_pos_nonneg; apply Z.leb_gt in E; lia).
  assert (Hl : - 2 ^ 53 < signed s m / 2 ^ (- e) < 2 ^ 53).
  { unfold signed. destruct s; split.
    - apply Z.lt_le_trans with (- Zpos m); [lia|]. apply Z.div_le_lower_bound; [lia|].
      change (Zneg m) with (- Zpos m). nia.
    - apply Z.div_lt_upper_bound; [lia|]. change (Zneg m) with (- Zpos m). nia.
    - apply Z.lt_le_trans with 0; [lia|]. apply Z.div_pos; lia.
    - apply Z.div_lt_upper_bound; nia. }
  unfold f_of_Z_signed. destruct (signed s m / 2 ^ (- e)) eqn:Q; auto; apply f_of_Z_finite; lia.
Qed.
Lemma f_of_Z_representable : forall z, Z.abs z < 2 ^ 53 -> valid_binary prec emax (f_of_Z z) = true.
Proof.
  assert (Hp : forall s p, Zpos p < 2 ^ 53 -> valid_binary prec emax (S754_finite s (int_m p) (int_e p)) = true).
  { intros s p H. cbn [valid_binary]. unfold bounded, canonical_mantissa, fexp, emin. rewrite int_m_digits by auto.
    pose proof (int_e_range p H). change prec with 53. change emax with 1024. rewrite Z.max_l by lia.
    replace (53 + int_e p - 53) with (int_e p) by lia. apply andb_true_iff. split.
    - now apply Zeq_is_eq_bool.
    - apply Z.leb_le. lia. }
  intros [|p|p] H; auto.
  - rewrite f_of_Z_pos by auto. auto.
  - rewrite f_of_Z_neg by auto. auto.
Qed.
