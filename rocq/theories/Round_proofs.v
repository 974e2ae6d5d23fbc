(** Rounding depends only on the exact value: whatever scaling of a fraction is
    rounded, the result is the same. *)
From Coq Require Import String List ZArith NArith Bool Lia.
From Coq Require Import Floats.SpecFloat.
From Verif Require Import Base F64 F64Text Float_proofs Exact_proofs.
Import ListNotations.
Local Open Scope Z_scope.

(** the mantissa, half bit and sticky bit of [n / d] *)
Definition frac (n d : Z) : shr_record := Build_shr_record (n / d) (Z.odd (2 * n / d)) (negb (2 * n mod d =? 0)).
Definition round_frac (s : bool) (n d E : Z) : f64 := binary_round_aux prec emax s (n / d) E (loc_of_shr_record (frac n d)).

(** rounding a number that is already in the format changes nothing *)
Lemma round_aux_canonical : forall s m e M E, valid_binary prec emax (S754_finite s m e) = true -> E <= e -> Zpos M = Zpos m * 2 ^ (e - E) ->
  binary_round_aux prec emax s (Zpos M) E loc_Exact = S754_finite s m e.
Proof.
  intros s m e M E V HE HM. cbn [valid_binary] in V. unfold bounded, canonical_mantissa in V. apply andb_true_iff in V as [V1 V2]. apply Zeq_bool_eq in V1.
  assert (Hd : Zpos (digits2_pos M) = Zpos (digits2_pos m) + (e - E)) by (apply digits_shifted; [lia|assumption]).
  assert (A : shr_fexp prec emax (Zpos M) E loc_Exact = (Build_shr_record (Zpos m) false false, e)).
  { unfold shr_fexp. cbn [Zdigits2 shr_record_of_loc]. rewrite Hd. replace (Zpos (digits2_pos m) + (e - E) + E) with (Zpos (digits2_pos m) + e) by lia. rewrite V1.
    unfold shr. destruct (e - E) as [|n|n] eqn:D; [| |lia].
    - rewrite HM. change (2 ^ 0) with 1. rewrite Z.mul_1_r. f_equal. lia.
    - rewrite HM, shr_exact. f_equal. lia. }
  assert (B : shr_fexp prec emax (Zpos m) e loc_Exact = (Build_shr_record (Zpos m) false false, e)).
  { unfold shr_fexp. cbn [Zdigits2 shr_record_of_loc]. rewrite V1, Z.sub_diag. reflexivity. }
  unfold binary_round_aux. rewrite A. cbn [shr_m loc_of_shr_record round_nearest_even]. rewrite B. cbn [shr_m]. now rewrite V2.
Qed.
Lemma round_canonical : forall s m e M E, valid_binary prec emax (S754_finite s m e) = true -> E <= e -> Zpos M = Zpos m * 2 ^ (e - E) ->
  binary_round prec emax s M E = S754_finite s m e.
Proof.
  intros s m e M E V HE HM. unfold binary_round.
  assert (V' := V). cbn [valid_binary] in V'. unfold bounded, canonical_mantissa in V'. apply andb_true_iff in V' as [V1 _]. apply Zeq_bool_eq in V1.
  assert (Hd : Zpos (digits2_pos M) = Zpos (digits2_pos m) + (e - E)) by (apply digits_shifted; [lia|assumption]).
  rewrite Hd. replace (Zpos (digits2_pos m) + (e - E) + E) with (Zpos (digits2_pos m) + e) by lia. rewrite V1. unfold shl_align.
  destruct (e - E) as [|n|n] eqn:D; [| |lia]; (apply round_aux_canonical; [assumption|lia|now rewrite D]).
Qed.
Lemma loc_roundtrip : forall r, shr_record_of_loc (shr_m r) (loc_of_shr_record r) = r.
Proof. intros [m [] []]; reflexivity. Qed.
Lemma frac_cancel : forall n d k, 0 < d -> 0 < k -> frac (n * k) (d * k) = frac n d.
Proof.
  intros n d k Hd Hk. unfold frac. rewrite Z.div_mul_cancel_r by lia. rewrite Z.mul_assoc, Z.div_mul_cancel_r by lia. f_equal. f_equal.
  rewrite Z.mul_mod_distr_r by lia. destruct (Z.eqb_spec (2 * n mod d * k) 0) as [H|H], (Z.eqb_spec (2 * n mod d) 0) as [H'|H']; try reflexivity; exfalso; nia.
Qed.
Lemma frac_ratio : forall n1 d1 n2 d2, 0 < d1 -> 0 < d2 -> n1 * d2 = n2 * d1 -> frac n1 d1 = frac n2 d2.
Proof. intros n1 d1 n2 d2 H1 H2 H. rewrite <- (frac_cancel n1 d1 d2) by assumption. rewrite <- (frac_cancel n2 d2 d1) by assumption. now rewrite H, (Z.mul_comm d1). Qed.
Lemma shr_1_val : forall m r s, 0 <= m -> shr_1 (Build_shr_record m r s) = Build_shr_record (m / 2) (Z.odd m) (orb r s).
Proof.
  intros m r s H. destruct m as [|[p|p|]|p]; try lia; cbn [shr_1 Z.odd]; try reflexivity; f_equal.
  - apply Z.div_unique with 1; lia.
  - apply Z.div_unique with 0; lia.
Qed.
Lemma shr_1_frac : forall n d, 0 <= n -> 0 < d -> shr_1 (frac n d) = frac n (d * 2).
Proof.
  intros n d Hn Hd. unfold frac. rewrite shr_1_val by (apply Z.div_pos; lia). rewrite Z.div_div by lia.
  assert (E : 2 * n / (d * 2) = n / d) by (rewrite (Z.mul_comm 2 n); apply Z.div_mul_cancel_r; lia). rewrite E. f_equal.
  assert (E2 : 2 * n mod (d * 2) = n mod d * 2) by (rewrite (Z.mul_comm 2 n); apply Z.mul_mod_distr_r; lia). rewrite E2.
  pose proof (Z.div_mod n d) as D. pose proof (Z.mod_pos_bound n d Hd) as B. set (r := n mod d) in *. set (q := n / d) in *.
  destruct (Z.le_gt_cases d (2 * r)) as [L|L].
  - assert (Q : 2 * n / d = 2 * q + 1) by (symmetry; apply Z.div_unique with (2 * r - d); lia). rewrite Q.
    assert (M : 2 * n mod d = 2 * r - d) by (symmetry; apply Z.mod_unique with (2 * q + 1); lia).
    rewrite Z.odd_add, Z.odd_mul. cbn. symmetry. apply negb_true_iff, Z.eqb_neq. lia.
  - assert (Q : 2 * n / d = 2 * q) by (symmetry; apply Z.div_unique with (2 * r); lia). rewrite Q.
    assert (M : 2 * n mod d = 2 * r) by (symmetry; apply Z.mod_unique with (2 * q); lia). rewrite M, Z.odd_mul. cbn [Z.odd andb orb]. f_equal.
    destruct (Z.eqb_spec (2 * r) 0), (Z.eqb_spec (r * 2) 0); try reflexivity; lia.
Qed.
Lemma iter_frac : forall p n d, 0 <= n -> 0 < d -> iter_pos shr_1 p (frac n d) = frac n (d * 2 ^ Zpos p).
Proof.
  induction p as [p IH|p IH|]; intros n d Hn Hd; cbn [iter_pos].
  - rewrite shr_1_frac by assumption. rewrite IH by lia. rewrite IH by (try apply Z.mul_pos_pos; try apply Z.pow_pos_nonneg; lia). f_equal.
    replace (Zpos p~1) with (1 + Zpos p + Zpos p) by lia. rewrite !Z.pow_add_r by lia. ring.
  - rewrite IH by lia. rewrite IH by (try apply Z.mul_pos_pos; try apply Z.pow_pos_nonneg; lia). f_equal.
    replace (Zpos p~0) with (Zpos p + Zpos p) by lia. rewrite !Z.pow_add_r by lia. ring.
  - now rewrite shr_1_frac.
Qed.

(** the exponent a value is rounded at *)
Definition target (n d E : Z) : Z := fexp prec emax (Zdigits2 (n / d) + E).
Definition scaled_enough (n d E : Z) : Prop := E <= target n d E.
Lemma fexp_max : forall e, fexp prec emax e = Z.max (e - 53) (-1074).
Proof. intros e. unfold fexp, emin, prec, emax. reflexivity. Qed.
Definition finish (s : bool) (r : shr_record) (e : Z) : f64 :=
  let '(r'', e'') := shr_fexp prec emax (round_nearest_even (shr_m r) (loc_of_shr_record r)) e loc_Exact in
  match shr_m r'' with
  | Z0 => S754_zero s
  | Zpos m => if Zle_bool e'' (emax - prec) then S754_finite s m e'' else S754_infinity s
  | _ => S754_nan
  end.
Lemma round_frac_finish : forall s n d E, 0 <= n -> 0 < d -> scaled_enough n d E ->
  round_frac s n d E = finish s (frac n (d * 2 ^ (target n d E - E))) (target n d E).
Proof.
  intros s n d E Hn Hd H. unfold round_frac, binary_round_aux, finish. unfold shr_fexp at 1.
  change (n / d) with (shr_m (frac n d)) at 1. rewrite loc_roundtrip. fold (target n d E). unfold scaled_enough in H.
  unfold shr. destruct (target n d E - E) as [|p|p] eqn:D; [| |lia].
  - change (2 ^ 0) with 1. rewrite Z.mul_1_r. now replace E with (target n d E) at 1 by lia.
  - rewrite iter_frac by assumption. now replace (E + Zpos p) with (target n d E) by lia.
Qed.
Lemma digits_bounds : forall z, 0 < z -> 0 < Zdigits2 z /\ 2 ^ (Zdigits2 z - 1) <= z < 2 ^ Zdigits2 z.
Proof. intros [|p|p] H; try lia. cbn [Zdigits2]. split; [lia|apply digits2_pos_bounds]. Qed.
Lemma digits_unique : forall z d, 0 < d -> 2 ^ (d - 1) <= z < 2 ^ d -> Zdigits2 z = d.
Proof.
  intros [|p|p] d Hd H; cbn [Zdigits2]; [exfalso; pose proof (Z.pow_pos_nonneg 2 (d - 1)); lia| |exfalso; pose proof (Z.pow_pos_nonneg 2 (d - 1)); lia].
  now apply digits2_unique.
Qed.
Lemma digits_div : forall z k, 0 <= k -> 0 < z / 2 ^ k -> Zdigits2 z = Zdigits2 (z / 2 ^ k) + k.
Proof.
  intros z k Hk H. destruct (digits_bounds _ H) as (P & L & U). set (q := z / 2 ^ k) in *. set (d := Zdigits2 q) in *.
  assert (K : 0 < 2 ^ k) by (apply Z.pow_pos_nonneg; lia). pose proof (Z.div_mod z (2 ^ k)) as D. pose proof (Z.mod_pos_bound z (2 ^ k) K) as B. fold q in D.
  apply digits_unique; [lia|]. replace (d + k - 1) with ((d - 1) + k) by lia. rewrite !Z.pow_add_r by lia. nia.
Qed.
Lemma digits_small : forall z k, 0 <= k -> 0 <= z < 2 ^ k -> Zdigits2 z <= k.
Proof. intros [|p|p] k Hk H; cbn [Zdigits2]; [lia| |lia]. apply digits2_le; lia. Qed.

Lemma same_target : forall n1 d1 E1 n2 d2 E2, 0 <= n1 -> 0 < d1 -> 0 <= n2 -> 0 < d2 -> E1 <= E2 -> n1 * d2 = n2 * d1 * 2 ^ (E2 - E1) ->
  scaled_enough n1 d1 E1 -> scaled_enough n2 d2 E2 -> target n1 d1 E1 = target n2 d2 E2.
Proof.
  intros n1 d1 E1 n2 d2 E2 N1 D1 N2 D2 HE HV S1 S2. unfold scaled_enough, target in *. rewrite !fexp_max in *.
  assert (K : 0 < 2 ^ (E2 - E1)) by (apply Z.pow_pos_nonneg; lia).
  assert (Q : n2 / d2 = (n1 / d1) / 2 ^ (E2 - E1)).
  { rewrite Z.div_div by lia. rewrite <- (Z.div_mul_cancel_r n2 d2 (d1 * 2 ^ (E2 - E1))) by nia.
    rewrite <- (Z.div_mul_cancel_r n1 (d1 * 2 ^ (E2 - E1)) d2) by nia. f_equal; [|ring]. rewrite HV. ring. }
  assert (P2 : 0 <= n2 / d2) by (apply Z.div_pos; lia). assert (P1 : 0 <= n1 / d1) by (apply Z.div_pos; lia).
  destruct (Z.eq_dec (n2 / d2) 0) as [Z2|Z2].
  - rewrite Z2 in *. cbn [Zdigits2] in *. assert (n1 / d1 < 2 ^ (E2 - E1)). { symmetry in Q. apply Z.div_small_iff in Q; lia. }
    assert (Zdigits2 (n1 / d1) <= E2 - E1) by (apply digits_small; lia). lia.
  - rewrite Q in Z2. rewrite (digits_div (n1 / d1) (E2 - E1)); [|lia|rewrite <- Q in *; lia]. rewrite <- Q. f_equal. lia.
Qed.
Lemma round_value_le : forall s n1 d1 E1 n2 d2 E2, 0 <= n1 -> 0 < d1 -> 0 <= n2 -> 0 < d2 -> E1 <= E2 -> n1 * d2 = n2 * d1 * 2 ^ (E2 - E1) ->
  scaled_enough n1 d1 E1 -> scaled_enough n2 d2 E2 -> round_frac s n1 d1 E1 = round_frac s n2 d2 E2.
Proof.
  intros s n1 d1 E1 n2 d2 E2 N1 D1 N2 D2 HE HV S1 S2. rewrite !round_frac_finish by assumption.
  pose proof (same_target n1 d1 E1 n2 d2 E2 N1 D1 N2 D2 HE HV S1 S2) as T. rewrite T. unfold scaled_enough in *. rewrite T in S1. set (e := target n2 d2 E2) in *. f_equal.
  apply frac_ratio; try (apply Z.mul_pos_pos; [assumption|apply Z.pow_pos_nonneg; lia]).
  replace (e - E1) with ((E2 - E1) + (e - E2)) by lia. rewrite Z.pow_add_r by lia. rewrite !Z.mul_assoc, HV. ring.
Qed.
Lemma round_value : forall s n1 d1 E1 n2 d2 E2 L, 0 <= n1 -> 0 < d1 -> 0 <= n2 -> 0 < d2 -> L <= E1 -> L <= E2 -> n1 * d2 * 2 ^ (E1 - L) = n2 * d1 * 2 ^ (E2 - L) ->
  scaled_enough n1 d1 E1 -> scaled_enough n2 d2 E2 -> round_frac s n1 d1 E1 = round_frac s n2 d2 E2.
Proof.
  intros s n1 d1 E1 n2 d2 E2 L N1 D1 N2 D2 HL1 HL2 HV S1 S2. destruct (Z.le_ge_cases E1 E2) as [H|H].
  - apply round_value_le; try assumption. assert (K : 0 < 2 ^ (E1 - L)) by (apply Z.pow_pos_nonneg; lia). apply Z.mul_reg_r with (2 ^ (E1 - L)); [lia|].
    rewrite HV. replace (E2 - L) with ((E2 - E1) + (E1 - L)) by lia. rewrite Z.pow_add_r by lia. ring.
  - symmetry. apply round_value_le; try assumption. assert (K : 0 < 2 ^ (E2 - L)) by (apply Z.pow_pos_nonneg; lia). apply Z.mul_reg_r with (2 ^ (E2 - L)); [lia|].
    rewrite <- HV. replace (E1 - L) with ((E1 - E2) + (E2 - L)) by lia. rewrite Z.pow_add_r by lia. ring.
Qed.

(** the library's rounding entry points as [round_frac] *)
Lemma frac_1 : forall n, frac n 1 = Build_shr_record n false false.
Proof. intros n. unfold frac. rewrite !Z.div_1_r, Z.mod_1_r, Z.odd_mul. reflexivity. Qed.
Lemma round_aux_frac : forall s n E, binary_round_aux prec emax s n E loc_Exact = round_frac s n 1 E.
Proof. intros. unfold round_frac. now rewrite frac_1, Z.div_1_r. Qed.
Lemma new_location_frac : forall n d, 0 <= n -> 0 < d -> new_location d (n mod d) = loc_of_shr_record (frac n d).
Proof.
  intros n d Hn Hd.
  assert (NL : forall k, new_location d k = if Z.even d then new_location_even d k else new_location_odd d k) by (intros k; unfold new_location; now destruct (Z.even d)).
  rewrite NL. unfold frac, new_location_even, new_location_odd.
  pose proof (Z.div_mod n d) as D. pose proof (Z.mod_pos_bound n d Hd) as B. set (r := n mod d) in *. set (q := n / d) in *.
  assert (Zb : Zeq_bool r 0 = (r =? 0)) by (unfold Zeq_bool; rewrite Z.eqb_compare; destruct (r ?= 0); reflexivity). rewrite !Zb.
  destruct (Z.le_gt_cases d (2 * r)) as [L|L].
  - assert (Q : 2 * n / d = 2 * q + 1) by (symmetry; apply Z.div_unique with (2 * r - d); lia). rewrite Q.
    assert (M : 2 * n mod d = 2 * r - d) by (symmetry; apply Z.mod_unique with (2 * q + 1); lia). rewrite M.
    rewrite Z.odd_add, Z.odd_mul. cbn [Z.odd andb xorb]. replace (r =? 0) with false by (symmetry; apply Z.eqb_neq; lia).
    destruct (Z.even d) eqn:Ev.
    + destruct (Z.compare_spec (2 * r) d) as [C|C|C]; [| lia |].
      * replace (2 * r - d) with 0 by lia. reflexivity.
      * replace (2 * r - d =? 0) with false by (symmetry; apply Z.eqb_neq; lia). reflexivity.
    + destruct (Z.eqb_spec (2 * r - d) 0) as [C|C].
      * exfalso. replace d with (2 * r) in Ev by lia. rewrite Z.even_mul in Ev. discriminate.
      * destruct (Z.compare_spec (2 * r + 1) d); try lia. reflexivity.
  - assert (Q : 2 * n / d = 2 * q) by (symmetry; apply Z.div_unique with (2 * r); lia). rewrite Q.
    assert (M : 2 * n mod d = 2 * r) by (symmetry; apply Z.mod_unique with (2 * q); lia). rewrite M, Z.odd_mul. cbn [Z.odd andb].
    destruct (Z.eqb_spec r 0) as [C|C].
    + rewrite C. now destruct (Z.even d).
    + replace (2 * r =? 0) with false by (symmetry; apply Z.eqb_neq; lia). cbn [negb loc_of_shr_record]. destruct (Z.even d).
      * destruct (Z.compare_spec (2 * r) d); try lia; reflexivity.
      * destruct (Z.compare_spec (2 * r + 1) d); try lia; reflexivity.
Qed.

(** ** The rounding of a positive fraction *)
Definition pw (e : Z) : Z := 2 ^ Z.max e 0.
Lemma pw_pos : forall e, 0 < pw e.
Proof. intros. apply Z.pow_pos_nonneg; lia. Qed.
Lemma pw_split : forall e L, L <= e -> L <= 0 -> pw e * 2 ^ (- L) = pw (- e) * 2 ^ (e - L).
Proof.
  intros e L H1 H2. unfold pw. rewrite <- !Z.pow_add_r by lia. f_equal. lia.
Qed.
Definition start (n d : Z) : Z := Z.min (fexp prec emax (Zdigits2 n - Zdigits2 d)) 0.
Definition rnd (s : bool) (n d : Z) : f64 := round_frac s (n * 2 ^ (- start n d)) d (start n d).
Lemma div_scaled : forall n d E X, 0 < n -> 0 < d -> E <= X -> E <= fexp prec emax (Zdigits2 n + X - Zdigits2 d) -> scaled_enough (n * 2 ^ (X - E)) d E.
Proof.
  intros n d E X Hn Hd HX HE. unfold scaled_enough, target. rewrite !fexp_max in *.
  destruct (digits_bounds n Hn) as (Pn & Ln & Un). destruct (digits_bounds d Hd) as (Pd & Ld & Ud).
  destruct (Z.le_gt_cases 0 (Zdigits2 n - 1 + (X - E) - Zdigits2 d)) as [G|G]; [|lia].
  assert (Q : 2 ^ (Zdigits2 n - 1 + (X - E) - Zdigits2 d) <= n * 2 ^ (X - E) / d).
  { apply Z.div_le_lower_bound; [assumption|]. set (k := Zdigits2 n - 1 + (X - E) - Zdigits2 d) in *.
    apply Z.le_trans with (2 ^ Zdigits2 d * 2 ^ k); [apply Z.mul_le_mono_nonneg_r; [apply Z.pow_nonneg; lia|lia]|].
    rewrite <- Z.pow_add_r by lia. replace (Zdigits2 d + k) with ((Zdigits2 n - 1) + (X - E)) by lia. rewrite Z.pow_add_r by lia.
    apply Z.mul_le_mono_nonneg_r; [apply Z.pow_nonneg; lia|assumption]. }
  assert (Qp : 0 < n * 2 ^ (X - E) / d) by (pose proof (Z.pow_pos_nonneg 2 (Zdigits2 n - 1 + (X - E) - Zdigits2 d)); lia).
  destruct (digits_bounds _ Qp) as (Pq & Lq & Uq).
  assert (Zdigits2 n - 1 + (X - E) - Zdigits2 d < Zdigits2 (n * 2 ^ (X - E) / d)) by (apply (Z.pow_lt_mono_r_iff 2); lia). lia.
Qed.
Lemma rnd_scaled : forall n d, 0 < n -> 0 < d -> scaled_enough (n * 2 ^ (- start n d)) d (start n d).
Proof. intros n d Hn Hd. apply (div_scaled n d (start n d) 0); unfold start; try assumption; rewrite ?Z.add_0_r; lia. Qed.
Lemma frac_rnd : forall s n d E N D, 0 < n -> 0 < d -> 0 < N -> 0 < D -> scaled_enough n d E -> n * D * pw E = N * d * pw (- E) ->
  round_frac s n d E = rnd s N D.
Proof.
  intros s n d E N D Hn Hd HN HD S V. unfold rnd. assert (NN : 0 <= N * 2 ^ (- start N D)) by (apply Z.mul_nonneg_nonneg; [lia|apply Z.pow_nonneg; lia]).
  apply (round_value s) with (L := Z.min E (start N D)); try lia; try assumption.
  - set (L := Z.min E (start N D)). assert (HL : L <= 0) by (unfold L, start; lia). assert (HS : start N D <= 0) by (unfold start; lia).
    assert (R : N * 2 ^ (- start N D) * d * 2 ^ (start N D - L) = N * d * 2 ^ (- L)).
    { replace (- L) with (- start N D + (start N D - L)) by lia. rewrite Z.pow_add_r by lia. ring. }
    rewrite R. apply Z.mul_reg_l with (pw (- E)); [pose proof (pw_pos (- E)); lia|].
    transitivity (n * D * (pw (- E) * 2 ^ (E - L))); [ring|]. rewrite <- pw_split by lia.
    transitivity (n * D * pw E * 2 ^ (- L)); [ring|]. rewrite V. ring.
  - now apply rnd_scaled.
Qed.
Lemma rnd_value : forall s n1 d1 n2 d2, 0 < n1 -> 0 < d1 -> 0 < n2 -> 0 < d2 -> n1 * d2 = n2 * d1 -> rnd s n1 d1 = rnd s n2 d2.
Proof.
  intros s n1 d1 n2 d2 H1 H2 H3 H4 V. unfold rnd at 1. assert (HS : start n1 d1 <= 0) by (unfold start; lia). apply frac_rnd; try assumption.
  - apply Z.mul_pos_pos; [assumption|apply Z.pow_pos_nonneg; lia].
  - now apply rnd_scaled.
  - unfold pw. replace (Z.max (start n1 d1) 0) with 0 by lia. replace (Z.max (- start n1 d1) 0) with (- start n1 d1) by lia.
    change (2 ^ 0) with 1. transitivity (n1 * d2 * 2 ^ (- start n1 d1)); [ring|]. rewrite V. ring.
Qed.
Lemma div_core : forall m1 e1 m2 e2, 0 < m1 -> 0 < m2 ->
  let E := Z.min (fexp prec emax (Zdigits2 m1 + e1 - (Zdigits2 m2 + e2))) (e1 - e2) in
  SFdiv_core_binary prec emax m1 e1 m2 e2 = ((m1 * 2 ^ (e1 - e2 - E)) / m2, E, loc_of_shr_record (frac (m1 * 2 ^ (e1 - e2 - E)) m2)).
Proof.
  intros m1 e1 m2 e2 H1 H2 E. unfold SFdiv_core_binary. fold E. assert (HE : E <= e1 - e2) by (unfold E; lia). clearbody E.
  set (m' := match e1 - e2 - E with 0 => m1 | Zpos _ => Z.shiftl m1 (e1 - e2 - E) | Zneg _ => 0 end).
  assert (Hm : m' = m1 * 2 ^ (e1 - e2 - E)).
  { unfold m'. destruct (e1 - e2 - E) as [|p|p] eqn:D; [change (2 ^ 0) with 1; lia| |lia]. apply Z.shiftl_mul_pow2. lia. }
  clearbody m'. subst m'. set (m' := m1 * 2 ^ (e1 - e2 - E)). rewrite <- new_location_frac; [|apply Z.mul_nonneg_nonneg; [lia|apply Z.pow_nonneg; lia]|assumption].
  unfold Z.div, Z.modulo. destruct (Z.div_eucl m' m2). reflexivity.
Qed.
Lemma div_rnd : forall s m1 e1 m2 e2, 0 < m1 -> 0 < m2 ->
  (let '(mz, ez, lz) := SFdiv_core_binary prec emax m1 e1 m2 e2 in binary_round_aux prec emax s mz ez lz) = rnd s (m1 * pw (e1 - e2)) (m2 * pw (e2 - e1)).
Proof.
  intros s m1 e1 m2 e2 H1 H2. rewrite div_core by assumption. set (E := Z.min _ (e1 - e2)).
  change (round_frac s (m1 * 2 ^ (e1 - e2 - E)) m2 E = rnd s (m1 * pw (e1 - e2)) (m2 * pw (e2 - e1))).
  assert (HE : E <= e1 - e2) by (unfold E; lia). pose proof (pw_pos (e1 - e2)). pose proof (pw_pos (e2 - e1)).
  apply frac_rnd; try assumption; try (apply Z.mul_pos_pos; assumption).
  - apply Z.mul_pos_pos; [assumption|apply Z.pow_pos_nonneg; lia].
  - apply div_scaled; try assumption. unfold E. replace (Zdigits2 m1 + e1 - (Zdigits2 m2 + e2)) with (Zdigits2 m1 + (e1 - e2) - Zdigits2 m2) by lia. lia.
  - unfold pw. transitivity (m1 * m2 * (2 ^ (e1 - e2 - E) * 2 ^ Z.max (e2 - e1) 0 * 2 ^ Z.max E 0)); [ring|].
    transitivity (m1 * m2 * (2 ^ Z.max (e1 - e2) 0 * 2 ^ Z.max (- E) 0)); [|ring]. f_equal. rewrite <- !Z.pow_add_r by lia. f_equal. lia.
Qed.
Lemma aux_rnd : forall s m E, 0 < m -> E <= fexp prec emax (Zdigits2 m + E) -> binary_round_aux prec emax s m E loc_Exact = rnd s (m * pw E) (pw (- E)).
Proof.
  intros s m E Hm H. rewrite round_aux_frac. pose proof (pw_pos E). pose proof (pw_pos (- E)). apply frac_rnd; try lia.
  unfold scaled_enough, target. now rewrite Z.div_1_r.
Qed.
Lemma round_rnd : forall s m e, binary_round prec emax s m e = rnd s (Zpos m * pw e) (pw (- e)).
Proof.
  intros s m e. unfold binary_round. set (F := fexp prec emax (Zpos (digits2_pos m) + e)).
  unfold shl_align. destruct (F - e) as [|p|p] eqn:D.
  - apply aux_rnd; [lia|]. cbn [Zdigits2]. fold F. lia.
  - apply aux_rnd; [lia|]. cbn [Zdigits2]. fold F. lia.
  - assert (S : Zpos (shift_pos p m) = Zpos m * 2 ^ Zpos p) by apply shift_pos_val.
    rewrite aux_rnd; [|lia|].
    + pose proof (pw_pos F). pose proof (pw_pos (- F)). pose proof (pw_pos e). pose proof (pw_pos (- e)). apply rnd_value; try lia. rewrite S.
      transitivity (Zpos m * (2 ^ Zpos p * pw F * pw (- e))); [ring|]. transitivity (Zpos m * (pw e * pw (- F))); [|ring]. f_equal. unfold pw. rewrite <- !Z.pow_add_r by lia. f_equal. lia.
    + cbn [Zdigits2]. assert (Dg : Zpos (digits2_pos (shift_pos p m)) = Zpos (digits2_pos m) + Zpos p) by (apply digits_shifted; [lia|assumption]).
      rewrite Dg. replace (Zpos (digits2_pos m) + Zpos p + F) with (Zpos (digits2_pos m) + e) by lia. fold F. lia.
Qed.
(** ** Decimal texts *)
Definition ten (e : Z) : Z := 10 ^ Z.max e 0.
Lemma ten_pos : forall e, 0 < ten e.
Proof. intros. apply Z.pow_pos_nonneg; lia. Qed.
Lemma dec_rnd : forall s p e, f_of_dec s (Npos p) e = rnd s (Zpos p * ten e) (ten (- e)).
Proof.
  intros s p e. unfold f_of_dec. destruct (Z.leb_spec 0 e) as [H|H].
  - rewrite round_rnd. unfold pw, ten. replace (Z.max (- e) 0) with 0 by lia. replace (Z.max e 0) with e by lia. cbn [Z.max]. change (Z.max (- 0) 0) with 0. change (2 ^ 0) with 1. change (10 ^ 0) with 1.
    rewrite Pos2Z.inj_mul, Z2Pos.id by (apply Z.pow_pos_nonneg; lia). now rewrite Z.mul_1_r.
  - unfold ten. replace (Z.max e 0) with 0 by lia. replace (Z.max (- e) 0) with (- e) by lia. rewrite div_rnd; [|lia|apply Z.pow_pos_nonneg; lia].
    unfold pw. cbn [Z.sub Z.opp Z.add Z.max]. change (2 ^ 0) with 1. now rewrite !Z.mul_1_r.
Qed.
Lemma dec_value : forall s p1 e1 p2 e2, Zpos p1 * ten e1 * ten (- e2) = Zpos p2 * ten e2 * ten (- e1) -> f_of_dec s (Npos p1) e1 = f_of_dec s (Npos p2) e2.
Proof.
  intros s p1 e1 p2 e2 H. rewrite !dec_rnd. pose proof (ten_pos e1). pose proof (ten_pos e2). pose proof (ten_pos (- e1)). pose proof (ten_pos (- e2)). apply rnd_value; lia.
Qed.
Lemma dec_shift : forall s n e k, 0 <= k -> f_of_dec s (n * 10 ^ Z.to_N k) (e - k) = f_of_dec s n e.
Proof.
  intros s [|p] e k Hk; [reflexivity|]. assert (P : (0 < 10 ^ Z.to_N k)%N) by (apply N.neq_0_lt_0, N.pow_nonzero; discriminate). destruct (10 ^ Z.to_N k)%N as [|t] eqn:T; [lia|].
  cbn [N.mul]. apply dec_value. assert (V : Zpos t = 10 ^ k). { change (Zpos t) with (Z.of_N (Npos t)). rewrite <- T, N2Z.inj_pow, Z2N.id by lia. reflexivity. }
  rewrite Pos2Z.inj_mul, V. transitivity (Zpos p * (10 ^ k * ten (e - k) * ten (- e))); [ring|]. transitivity (Zpos p * (ten e * ten (- (e - k)))); [|ring]. f_equal.
  unfold ten. rewrite <- !Z.pow_add_r by lia. f_equal. lia.
Qed.
(** a fraction that is a number of the format is that number *)
Lemma rnd_canonical : forall s m e N D, valid_binary prec emax (S754_finite s m e) = true -> 0 < N -> 0 < D -> Zpos m * pw e * D = N * pw (- e) ->
  rnd s N D = S754_finite s m e.
Proof.
  intros s m e N D V HN HD H. rewrite <- (round_canonical s m e m e V) by (try rewrite Z.sub_diag; lia). rewrite round_rnd. pose proof (pw_pos e). pose proof (pw_pos (- e)). apply rnd_value; lia.
Qed.
