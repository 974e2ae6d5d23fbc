(** The square root is correctly rounded. *)
From Coq Require Import String List ZArith NArith QArith Qabs Bool Lia Lqa.
From Coq Require Import Floats.SpecFloat.
From Verif Require Import Base F64 Syntax Ext Registry Core Evaluator Arith Dispatch Spec Spec_numbers Spec_stats Value_proofs Float_proofs Round_proofs Nearest_proofs Rounding_proofs Number_proofs Doubles_proofs Compare_proofs Stats_proofs.
Import ListNotations.
Local Open Scope Z_scope.

(** the integer square root with the scaling of [SFsqrt_core_binary], and what it says about the root *)
Lemma core_spec : forall m e, exists q r e', 0 <= q /\ 0 <= r <= 2 * q /\ 2 * e' <= e /\ Zpos m * 2 ^ (e - 2 * e') = q * q + r /\
  e' <= fexp prec emax (Zdigits2 q + e') /\
  SFsqrt_core_binary prec emax (Zpos m) e = (q, e', if r =? 0 then loc_Exact else loc_Inexact (if r <=? q then Lt else Gt)).
Proof.
  intros m e. unfold SFsqrt_core_binary. set (d := Zdigits2 (Zpos m)). set (e' := Z.min (fexp prec emax (Z.div2 (d + e + 1))) (Z.div2 e)).
  assert (He : 2 * e' <= e). { pose proof (Z.div2_odd e) as H. destruct (Z.odd e); cbn [Z.b2z] in H; lia. }
  assert (M : match e - 2 * e' with Zpos _ => Z.shiftl (Zpos m) (e - 2 * e') | Z0 => Zpos m | Zneg _ => 0 end = Zpos m * 2 ^ (e - 2 * e')).
  { destruct (e - 2 * e') eqn:S0; [cbn; lia| |lia]. rewrite <- S0. apply Z.shiftl_mul_pow2. lia. }
  rewrite M. set (m' := Zpos m * 2 ^ (e - 2 * e')). assert (Pm : 0 < m'). { unfold m'. apply Z.mul_pos_pos; [lia|]. apply Z.pow_pos_nonneg; lia. }
  pose proof (Z.sqrtrem_spec m' ltac:(lia)) as S0. destruct (Z.sqrtrem m') as [q r]. destruct S0 as [S1 S2].
  assert (Q0 : 0 <= q). { destruct (Z.le_gt_cases 0 q); auto. lia. }
  exists q, r, e'. split; auto. split; auto. split; auto. split; auto.
  split.
  - assert (Qp : 0 < q) by (destruct (Z.eq_dec q 0) as [->|]; lia). destruct (digits_bounds q Qp) as (A0 & A1 & A2). set (a := Zdigits2 q) in *.
    destruct (digits_bounds (Zpos m) ltac:(lia)) as (D0 & D1 & D2). fold d in D0, D1, D2.
    assert (L : 2 ^ (d - 1 + (e - 2 * e')) <= m'). { unfold m'. rewrite Z.pow_add_r by lia. apply Z.mul_le_mono_nonneg_r; [|exact D1]. apply Z.pow_nonneg. lia. }
    assert (U : m' < 2 ^ (2 * a)). { replace (2 * a) with (a + a) by lia. rewrite Z.pow_add_r by lia. nia. }
    assert (K : d - 1 + (e - 2 * e') < 2 * a). { apply (Z.pow_lt_mono_r_iff 2); lia. }
    assert (G : Z.div2 (d + e + 1) <= a + e'). { pose proof (Z.div2_odd (d + e + 1)) as H. destruct (Z.odd (d + e + 1)); cbn [Z.b2z] in H; lia. }
    assert (Em : e' <= fexp prec emax (Z.div2 (d + e + 1))) by apply Z.le_min_l. rewrite fexp_max in *. lia.
  - f_equal. assert (Zb : Zeq_bool r 0 = (r =? 0)) by (unfold Zeq_bool; rewrite Z.eqb_compare; destruct (r ?= 0); reflexivity). rewrite Zb. reflexivity.
Qed.

Definition quarter (q r : Z) : Z := if r =? 0 then 0 else if r <=? q then 1 else 3.
Lemma surrogate : forall q r, 0 <= q -> 0 <= r -> (4 * q + quarter q r) / 4 = q /\
  loc_of_shr_record (frac (4 * q + quarter q r) 4) = (if r =? 0 then loc_Exact else loc_Inexact (if r <=? q then Lt else Gt)).
Proof.
  intros q r Hq Hr. assert (J : 0 <= quarter q r <= 3) by (unfold quarter; destruct (r =? 0); [lia|]; destruct (r <=? q); lia).
  split; [symmetry; apply Z.div_unique with (quarter q r); lia|].
  rewrite <- new_location_frac by lia. replace ((4 * q + quarter q r) mod 4) with (quarter q r) by (apply Z.mod_unique with q; lia).
  unfold quarter. destruct (r =? 0); [reflexivity|]. destruct (r <=? q); reflexivity.
Qed.
(** [h/2] and the root of [q^2 + r] are on the same sides of each other as of the surrogate *)
Lemma above : forall q r H, 0 <= q -> 0 <= r <= 2 * q -> 4 * q + quarter q r <= 2 * H -> 4 * (q * q + r) <= H * H.
Proof.
  intros q r H Hq Hr. unfold quarter. destruct (Z.eqb_spec r 0) as [->|N0]; [nia|]. destruct (Z.leb_spec r q); intros L.
  - assert (2 * q + 1 <= H) by lia. nia.
  - assert (2 * q + 2 <= H) by lia. nia.
Qed.
Lemma below : forall q r H, 0 <= q -> 0 <= r <= 2 * q -> 0 <= H -> 2 * H <= 4 * q + quarter q r -> H * H <= 4 * (q * q + r).
Proof.
  intros q r H Hq Hr H0. unfold quarter. destruct (Z.eqb_spec r 0) as [->|N0]; [intros; nia|]. destruct (Z.leb_spec r q); intros L.
  - assert (H <= 2 * q) by lia. nia.
  - assert (H <= 2 * q + 1) by lia. nia.
Qed.

Lemma units_mult : forall a b e, units (a * b) e == inject_Z a * units b e.
Proof. intros. unfold units, Qeq, inject_Z, Qmult. cbn [Qnum Qden]. rewrite Pos.mul_1_l. ring. Qed.
Lemma units_one : forall a e, units a e == inject_Z a * units 1 e.
Proof. intros. rewrite <- units_mult. now rewrite Z.mul_1_r. Qed.
Lemma units_square : forall e, units 1 e * units 1 e == units 1 (2 * e).
Proof.
  intros e. unfold units, Qeq, Qmult. cbn [Qnum Qden]. rewrite !Z.mul_1_l, Pos2Z.inj_mul, !to_pos_pw. unfold pw.
  rewrite <- !Z.pow_add_r by lia. f_equal. lia.
Qed.

Lemma sqrt_nearest : forall x, representable x -> is_finite x = true -> (0 < exact x)%Q -> nearest_root (f_sqrt x) (exact x).
Proof.
  intros [s|s| |s m e] R F P; try discriminate; try (exfalso; revert P; unfold exact; lra).
  destruct s. { exfalso. rewrite exact_units in P. change (Zneg m) with (- Zpos m)%Z in P. rewrite units_neg in P. pose proof (units_pos m e). lra. }
  clear P. unfold f_sqrt, SFsqrt. destruct (core_spec m e) as (q & r & E & Hq & Hr & HE & HM & Hs & C). rewrite C.
  set (n := 4 * q + quarter q r). destruct (surrogate q r Hq ltac:(lia)) as [S1 S2]. fold n in S1, S2. rewrite <- S2. rewrite <- S1 at 1.
  assert (J : 0 <= quarter q r <= 3) by (unfold quarter; destruct (r =? 0); [lia|]; destruct (r <=? q); lia).
  assert (Hn : 0 <= n) by (unfold n; lia).
  change (nearest_root (round_frac false n 4 E) (exact (S754_finite false m e))).
  assert (Sc : scaled_enough n 4 E). { unfold scaled_enough, target. now rewrite S1. }
  rewrite round_frac_finish by (auto; lia). set (t := target n 4 E) in *. unfold scaled_enough in Sc. fold t in Sc.
  set (T := 2 ^ (t - E)). assert (PT : 0 < T) by (apply Z.pow_pos_nonneg; lia).
  set (k := n / (4 * T)).
  assert (Kq : k = q / T). { unfold k. rewrite <- Z.div_div by lia. now rewrite S1. }
  pose proof (Z.div_mod q T ltac:(lia)) as Dq. rewrite <- Kq in Dq. pose proof (Z.mod_pos_bound q T PT) as Bq.
  assert (Hk : 0 <= k) by (rewrite Kq; apply Z.div_pos; lia).
  assert (He : fexp prec emax (Zdigits2 k + t) = t).
  { pose proof (eq_refl t) as T0. unfold t at 2, target in T0. rewrite S1 in T0. rewrite fexp_max in *. destruct (Z.eq_dec k 0) as [Z0|Z0].
    - rewrite Z0. cbn [Zdigits2]. assert (q < T) by nia. assert (Zdigits2 q <= t - E) by (apply digits_small; unfold T in *; lia). lia.
    - rewrite (digits_div q (t - E)) in T0; [|lia|fold T; rewrite <- Kq; lia]. fold T in T0. rewrite <- Kq in T0. lia. }
  destruct (finish_cases n (4 * T) t) as (p & Hp & Hp1 & Hp2 & _ & Hf); [lia|lia|fold k; lia|]. fold k in Hp, Hp1, Hp2.
  rewrite (Hf false). pose proof (renormalise k p t Hk Hp He false) as Rn.
  match goal with |- nearest_root ?Y _ => set (y0 := Y) end.
  change (match y0 with
          | S754_zero s' => s' = false /\ p = 0
          | S754_infinity s' => s' = false /\ 0 < t /\ (k = 2 ^ 53 - 1 /\ p = 2 ^ 53 /\ t = 971 \/ 2 ^ 52 <= k /\ 972 <= t)
          | S754_nan => False
          | S754_finite s' m' e' => s' = false /\ representable (S754_finite false m' e') /\ t <= e' /\ p = Zpos m' * 2 ^ (e' - t) /\ (Z.even p = true -> Z.even (Zpos m') = true)
          end) in Rn.
  set (u := units 1 E). assert (U0 : (0 < u)%Q) by apply units_pos.
  assert (Ut : forall a, (units a t == inject_Z (a * T) * u)%Q). { intros a. unfold u. rewrite <- units_one. unfold T. symmetry. apply units_shift. lia. }
  assert (V : (exact (S754_finite false m e) == inject_Z (q * q + r) * (u * u))%Q).
  { rewrite exact_units. unfold u. rewrite units_square, <- units_one, <- HM. symmetry. apply units_shift. lia. }
  assert (G : (exact y0 == units p t)%Q /\ representable y0 /\ is_finite y0 = true).
  { clearbody y0. destruct y0 as [b|b| |b m0 e0]; cbv beta iota in Rn.
    - destruct Rn as (-> & ->). repeat split; auto; unfold units, exact, Qeq; cbn [Qnum Qden]; lia.
    - exfalso. destruct Rn as (-> & Ht & Big).
      assert (B1 : (inject_Z (2 ^ 52) * units 1 971 <= units k t)%Q).
      { rewrite <- units_one. apply Qle_trans with (units k 971).
        - apply units_le. destruct Big as [(-> & _)|(? & _)]; lia.
        - rewrite <- (units_shift k 971 t) by lia. apply units_le. assert (1 <= 2 ^ (t - 971)) by (apply (Z.pow_le_mono_r 2 0); lia). nia. }
      assert (B2 : (units k t <= inject_Z q * u)%Q). { rewrite Ut. apply Qmult_le_compat_r; [|lra]. rewrite <- Zle_Qle. nia. }
      pose proof (double_bound _ R F) as B3. rewrite Qabs_pos in B3.
      2: { rewrite exact_units. apply Qlt_le_weak, units_pos. }
      rewrite V in B3. set (w := (inject_Z (2 ^ 52) * units 1 971)%Q) in *.
      assert (W0 : (0 < w)%Q) by (vm_compute; reflexivity).
      assert (W1 : (inject_Z (2 ^ 1024 - 2 ^ 970) <= w * w)%Q) by (vm_compute; discriminate).
      assert (W2 : (w * w <= (inject_Z q * u) * (inject_Z q * u))%Q) by (apply Qmult_le_compat_nonneg; lra).
      assert (W3 : ((inject_Z q * u) * (inject_Z q * u) <= inject_Z (q * q + r) * (u * u))%Q).
      { rewrite inject_Z_plus, inject_Z_mult. assert (0 <= inject_Z r)%Q by (change 0%Q with (inject_Z 0); rewrite <- Zle_Qle; lia).
        assert (0 <= u * u)%Q by (apply Qmult_le_0_compat; lra). assert (0 <= inject_Z r * (u * u))%Q by (apply Qmult_le_0_compat; lra). 
        setoid_replace ((inject_Z q * u) * (inject_Z q * u))%Q with (inject_Z q * inject_Z q * (u * u))%Q by ring.
        setoid_replace ((inject_Z q * inject_Z q + inject_Z r) * (u * u))%Q with (inject_Z q * inject_Z q * (u * u) + inject_Z r * (u * u))%Q by ring. lra. }
      lra.
    - destruct Rn.
    - destruct Rn as (Eb & Rr & Le & Ep & _). subst b. split; [|split; auto]. rewrite exact_units. cbv iota. rewrite Ep. symmetry. apply units_shift. lia. }
  clearbody y0. destruct G as (Ex & Ry & Fy).
  split; auto. split; auto. split. { rewrite Ex, Ut. apply Qmult_le_0_compat; [|lra]. change 0%Q with (inject_Z 0). rewrite <- Zle_Qle. nia. }
  intros y Yr Yf Y0. clearbody u.
  (* both sides in units of u/2 *)
  assert (Half : forall a b, ((inject_Z a * u + inject_Z b * u) / inject_Z 2 == inject_Z (a + b) * (u / 2))%Q) by (intros; rewrite inject_Z_plus; unfold Qdiv; change (/ inject_Z 2)%Q with (/ 2)%Q; ring).
  assert (Vh : (exact (S754_finite false m e) == inject_Z (4 * (q * q + r)) * ((u / 2) * (u / 2)))%Q).
  { rewrite V. rewrite (inject_Z_mult 4). field. }
  assert (Uh : (0 < u / 2)%Q) by (apply Qlt_shift_div_l; [reflexivity|lra]). assert (Uq : (0 <= (u / 2) * (u / 2))%Q) by (apply Qmult_le_0_compat; lra).
  destruct (no_between k t y Hk He Yr Yf) as [B|B].
  - split; intros Hlt.
    + (* y below x *)
      assert (M1 : ((exact y0 + exact y) / inject_Z 2 <= inject_Z (p * T + k * T) * (u / 2))%Q).
      { rewrite <- Half, <- !Ut, <- Ex. apply Qmult_le_compat_r; [lra|]. vm_compute. discriminate. }
      assert (M2 : ((p * T + k * T) * (p * T + k * T) <= 4 * (q * q + r))).
      { apply below; auto; [nia|]. destruct Hp as [-> | ->].
        - assert (k * T <= q) by lia. nia.
        - specialize (Hp2 eq_refl). unfold n in Hp2. nia. }
      assert (M0 : (0 <= (exact y0 + exact y) / inject_Z 2)%Q).
      { assert (0 <= exact y0)%Q by lra. apply Qle_shift_div_l; [reflexivity|]. rewrite Qmult_0_l. lra. }
      rewrite Vh. apply Qle_trans with ((inject_Z (p * T + k * T) * (u / 2)) * (inject_Z (p * T + k * T) * (u / 2)))%Q.
      * apply Qmult_le_compat_nonneg; lra.
      * setoid_replace ((inject_Z (p * T + k * T) * (u / 2)) * (inject_Z (p * T + k * T) * (u / 2)))%Q with (inject_Z ((p * T + k * T) * (p * T + k * T)) * ((u / 2) * (u / 2)))%Q by (rewrite inject_Z_mult; ring).
        apply Qmult_le_compat_r; auto. now rewrite <- Zle_Qle.
    + exfalso. rewrite Ex in Hlt. rewrite Ut in *. assert (units k t <= units p t)%Q by (apply units_le; lia). rewrite !Ut in H. lra.
  - split; intros Hlt.
    + exfalso. rewrite Ex in Hlt. assert (units p t <= units (k + 1) t)%Q by (apply units_le; lia). lra.
    + assert (M1 : (inject_Z (p * T + (k + 1) * T) * (u / 2) <= (exact y0 + exact y) / inject_Z 2)%Q).
      { rewrite <- Half, <- !Ut, <- Ex. apply Qmult_le_compat_r; [lra|]. vm_compute. discriminate. }
      assert (M2 : (4 * (q * q + r) <= (p * T + (k + 1) * T) * (p * T + (k + 1) * T))).
      { apply above; auto. destruct Hp as [-> | ->].
        - specialize (Hp1 eq_refl). unfold n in Hp1. nia.
        - assert (q + 1 <= (k + 1) * T) by nia. nia. }
      assert (M0 : (0 <= inject_Z (p * T + (k + 1) * T))%Q). { change 0%Q with (inject_Z 0). rewrite <- Zle_Qle. nia. }
      assert (M3 : (0 <= inject_Z (p * T + (k + 1) * T) * (u / 2))%Q) by (apply Qmult_le_0_compat; lra).
      rewrite Vh. apply Qle_trans with ((inject_Z (p * T + (k + 1) * T) * (u / 2)) * (inject_Z (p * T + (k + 1) * T) * (u / 2)))%Q.
      * setoid_replace ((inject_Z (p * T + (k + 1) * T) * (u / 2)) * (inject_Z (p * T + (k + 1) * T) * (u / 2)))%Q with (inject_Z ((p * T + (k + 1) * T) * (p * T + (k + 1) * T)) * ((u / 2) * (u / 2)))%Q by (rewrite inject_Z_mult; ring).
        apply Qmult_le_compat_r; auto. now rewrite <- Zle_Qle.
      * apply Qmult_le_compat_nonneg; lra.
Qed.


Lemma square_lt : forall p q, (0 <= p -> p < q -> p * p < q * q)%Q.
Proof.
  intros p q Hp Hq. apply Qle_lt_trans with (p * q)%Q.
  - rewrite (Qmult_comm p q). apply Qmult_le_compat_r; lra.
  - apply Qmult_lt_compat_r; lra.
Qed.
Lemma half_way : forall p q, (p < q -> p < (p + q) / inject_Z 2 /\ (p + q) / inject_Z 2 < q)%Q.
Proof. intros p q H. split; [apply Qlt_shift_div_l|apply Qlt_shift_div_r]; try reflexivity; change (inject_Z 2) with 2%Q; lra. Qed.
(** a double whose square is [v] is the root *)
Lemma root_exact : forall r y v, nearest_root r v -> representable y -> is_finite y = true -> (0 <= exact y)%Q -> (exact y * exact y == v)%Q -> is_exactly r (exact y).
Proof.
  intros r y v (F & R & P & A) Ry Fy Py E. split; [|split]; auto. destruct (A y Ry Fy Py) as [B C].
  set (a := exact r) in *. set (b := exact y) in *. clearbody a b.
  destruct (Q_dec a b) as [[L|L]|L]; auto; exfalso.
  - specialize (C L). destruct (half_way a b L) as [H1 H2]. pose proof (square_lt ((a + b) / inject_Z 2) b ltac:(lra) H2). lra.
  - specialize (B L). destruct (half_way b a L) as [H1 H2]. assert (E2 : ((b + a) / inject_Z 2 == (a + b) / inject_Z 2)%Q) by (now rewrite Qplus_comm).
    rewrite E2 in *. pose proof (square_lt b ((a + b) / inject_Z 2) Py H1). lra.
Qed.

Lemma representable_add : forall x y, representable x -> representable y -> representable (f_add x y).
Proof.
  intros x y Rx Ry. destruct (is_finite x) eqn:Fx, (is_finite y) eqn:Fy; [eapply rounded_representable; now apply add_rounded|..]; destruct x as [[]|[]| |], y as [[]|[]| |]; try discriminate; auto; reflexivity.
Qed.
Lemma representable_sub : forall x y, representable x -> representable y -> representable (f_sub x y).
Proof.
  intros x y Rx Ry. destruct (is_finite x) eqn:Fx, (is_finite y) eqn:Fy; [eapply rounded_representable; now apply sub_rounded|..]; destruct x as [[]|[]| |], y as [[]|[]| |]; try discriminate; auto; reflexivity.
Qed.
Lemma representable_total : forall fs a, representable a -> Forall representable fs -> representable (fold_left f_add fs a).
Proof. induction fs as [|x fs IH]; intros a Ha H; auto. inversion H; subst. simpl. apply IH; auto. now apply representable_add. Qed.
Lemma representable_mean : forall fs, Forall representable fs -> representable (mean fs).
Proof. intros [|x fs] H; [reflexivity|]. unfold mean. apply representable_div; [|apply representable_of_Z]. apply representable_total; auto. reflexivity. Qed.
Lemma representable_variance : forall fs, Forall representable fs -> representable (population_variance fs).
Proof.
  intros fs H. apply representable_mean. apply Forall_map. eapply Forall_impl; [|exact H]. intros x Rx. pose proof (representable_mean fs H).
  apply representable_mul; now apply representable_sub.
Qed.

(** the sum of whole numbers *)
Definition values (fs : list f64) (zs : list Z) : Prop := Forall2 (fun x z => is_exactly x (inject_Z z)) fs zs.
Definition sum_abs (zs : list Z) : Z := fold_right Z.add 0 (map Z.abs zs).
Lemma sum_abs_nonneg : forall zs, 0 <= sum_abs zs.
Proof. unfold sum_abs. induction zs; simpl; lia. Qed.
Lemma sum_abs_bound : forall zs z, In z zs -> Z.abs z <= sum_abs zs.
Proof. unfold sum_abs. induction zs as [|y zs IH]; intros z H; [destruct H|]. simpl. pose proof (sum_abs_nonneg zs). unfold sum_abs in *. destruct H as [<-|H]; [lia|]. specialize (IH z H). lia. Qed.
Lemma sum_le_abs : forall zs, Z.abs (sum_Z zs) <= sum_abs zs.
Proof. unfold sum_abs, sum_Z. induction zs; simpl; lia. Qed.
Lemma total_exact : forall fs zs a z, values fs zs -> is_exactly a (inject_Z z) -> Z.abs z + sum_abs zs <= 2 ^ 53 -> is_exactly (fold_left f_add fs a) (inject_Z (z + sum_Z zs)).
Proof.
  intros fs zs a z H. revert a z. induction H as [|x y fs zs Hx Hs IH]; intros a z Ha B.
  - simpl. now rewrite Z.add_0_r.
  - simpl. unfold sum_abs in B. simpl in B. fold (sum_abs zs) in B. pose proof (sum_abs_nonneg zs). rewrite Z.add_assoc. apply IH; [|lia].
    destruct Ha as (A1 & A2 & A3), Hx as (B1 & B2 & B3). apply rounded_exact; [|apply whole_double; lia].
    eapply rounded_eq; [|now apply add_rounded]. rewrite A3, B3, inject_Z_plus. reflexivity.
Qed.
Lemma values_length : forall fs zs, values fs zs -> length fs = length zs.
Proof. intros fs zs H. induction H; simpl; auto. Qed.
Lemma mean_exact : forall fs zs m, values fs zs -> fs <> nil -> sum_abs zs <= 2 ^ 53 -> Z.of_nat (length zs) <= 2 ^ 53 -> sum_Z zs = Z.of_nat (length zs) * m -> is_exactly (mean fs) (inject_Z m).
Proof.
  intros fs zs m H Hn B L E. assert (T : is_exactly (total fs) (inject_Z (0 + sum_Z zs))). { apply total_exact; [assumption| |cbn; lia]. split; [reflexivity|]. split; reflexivity. }
  rewrite Z.add_0_l, E in T. pose proof (values_length _ _ H) as Len.
  assert (P : 1 <= Z.of_nat (length zs)) by (rewrite <- Len; destruct fs; [congruence|simpl; lia]).
  assert (M : mean fs = f_div (total fs) (f_of_Z (Z.of_nat (length fs)))) by (destruct fs; [congruence|reflexivity]). rewrite M, Len.
  destruct (of_Z_exact (Z.of_nat (length zs)) ltac:(lia)) as (N1 & N2 & N3). destruct T as (T1 & T2 & T3).
  assert (Nz : ~ (inject_Z (Z.of_nat (length zs)) == 0)%Q). { change 0%Q with (inject_Z 0). rewrite inject_Z_injective. lia. }
  apply rounded_exact.
  - eapply rounded_eq; [|apply div_rounded; auto; now rewrite N3]. rewrite T3, N3, inject_Z_mult. field. exact Nz.
  - apply whole_double. pose proof (sum_le_abs zs). nia.
Qed.
Lemma variance_exact : forall fs zs m v, values fs zs -> fs <> nil -> sum_abs zs <= 2 ^ 53 -> Z.of_nat (length zs) <= 2 ^ 53 -> sum_Z zs = Z.of_nat (length zs) * m ->
  sum_Z (map (fun z => (z - m) * (z - m)) zs) = Z.of_nat (length zs) * v -> Z.of_nat (length zs) * v <= 2 ^ 53 -> is_exactly (population_variance fs) (inject_Z v).
Proof.
  intros fs zs m v H Hn B L E1 E2 B2. pose proof (mean_exact fs zs m H Hn B L E1) as (M1 & M2 & M3). unfold population_variance.
  assert (Sq : forall l, sum_abs (map (fun z => (z - m) * (z - m)) l) = sum_Z (map (fun z => (z - m) * (z - m)) l)).
  { unfold sum_abs, sum_Z. induction l as [|y l IH]; auto. cbn [map fold_right]. rewrite IH, Z.abs_eq; auto. apply Z.square_nonneg. }
  assert (P : 1 <= Z.of_nat (length zs)) by (rewrite <- (values_length _ _ H); destruct fs; [congruence|simpl; lia]).
  apply mean_exact with (map (fun z => (z - m) * (z - m)) zs); rewrite ?map_length; auto.
  - set (mu := mean fs) in *. clearbody mu.
    assert (Bd : forall z, In z zs -> (z - m) * (z - m) <= 2 ^ 53 /\ Z.abs (z - m) <= 2 ^ 53).
    { intros z Hz. assert (K : Z.abs ((z - m) * (z - m)) <= sum_abs (map (fun z => (z - m) * (z - m)) zs)) by (apply sum_abs_bound; now apply in_map with (f := fun z => (z - m) * (z - m))).
      rewrite Sq, E2 in K. split; nia. }
    clear - H Bd M1 M2 M3. induction H as [|x z fs zs (X1 & X2 & X3) Hs IH]; simpl; constructor.
    + destruct (Bd z (or_introl eq_refl)) as [B1 B2].
      assert (D : is_exactly (f_sub x mu) (inject_Z (z - m))).
      { apply rounded_exact; [|now apply whole_double]. eapply rounded_eq; [|now apply sub_rounded]. rewrite X3, M3. unfold Z.sub. rewrite inject_Z_plus, inject_Z_opp. reflexivity. }
      destruct D as (D1 & D2 & D3). unfold squared. apply rounded_exact; [|apply whole_double; nia]. eapply rounded_eq; [|now apply mul_rounded]. rewrite D3, inject_Z_mult. reflexivity.
    + apply IH. intros y Hy. apply Bd. now right.
  - destruct fs; [congruence|discriminate].
  - rewrite Sq, E2. lia.
Qed.

Section Calls.
  Context {X : Ext}.
  Local Open Scope string_scope.
  Lemma sqrt_call : forall c e x, uncustomised c "SQRT" -> eval e c = Ok (VNumber x) -> representable x ->
    exists r, eval (call "SQRT" [e]) c = Ok (VNumber r) /\
      (is_finite x = true -> (0 < exact x)%Q -> nearest_root r (exact x)) /\
      (is_finite x = true -> (exact x < 0)%Q -> r = f_nan) /\
      (is_finite x = true -> (exact x == 0)%Q -> r = x) /\
      (x = S754_infinity false -> r = x) /\ (x = S754_infinity true \/ x = f_nan -> r = f_nan).
  Proof.
    intros c e x Hu He R. exists (f_sqrt x). split.
    - assert (Hs : evaluate_to c [e] [VNumber x]) by (repeat constructor; auto). run_builtin. reflexivity.
    - split; [intros; now apply sqrt_nearest|]. split; [|split; [|split]].
      + intros F P. destruct x as [s|s| |s m ex]; try discriminate.
        destruct s; [reflexivity|]. exfalso. rewrite exact_units in P. pose proof (units_pos m ex). cbv iota in P. lra.
      + intros F P. destruct x as [s|s| |s m ex]; try discriminate; [reflexivity|]. now apply exact_nonzero in P.
      + intros ->. reflexivity.
      + intros [-> | ->]; reflexivity.
  Qed.
  (** when the root is itself a double, it is returned exactly *)
  Lemma sqrt_square : forall c e x y, uncustomised c "SQRT" -> eval e c = Ok (VNumber x) -> representable x -> is_finite x = true ->
    is_double y -> (0 <= y)%Q -> (exact x == y * y)%Q ->
    exists r, eval (call "SQRT" [e]) c = Ok (VNumber r) /\ is_exactly r y.
  Proof.
    intros c e x y Hu He R F (d & D1 & D2 & D3) P E. destruct (sqrt_call c e x Hu He R) as (r & Hr & A & _ & Zr & _). exists r. split; auto.
    destruct (Qlt_le_dec 0 (exact x)) as [L|L].
    - destruct (root_exact r d (exact x) (A F L)) as (G1 & G2 & G3); auto; [lra|rewrite D3, E; reflexivity|]. split; auto. split; auto. lra.
    - assert (Y0 : (y == 0)%Q). { destruct (Qlt_le_dec 0 y) as [K|K]; [|lra]. pose proof (square_lt 0 y ltac:(lra) K). lra. }
      assert (X0 : (exact x == 0)%Q) by (rewrite E, Y0; ring). rewrite (Zr F X0). split; auto. split; auto. lra.
  Qed.
  Lemma stdev_root : forall name name' c es vs fs, In name stdev_names -> In name' var_names -> uncustomised c name -> uncustomised c name' -> evaluate_to c es vs -> collects vs fs ->
    Forall representable fs ->
    exists v r, eval (call name' es) c = Ok (VNumber v) /\ eval (call name es) c = Ok (VNumber r) /\
      (is_finite v = true -> (0 < exact v)%Q -> nearest_root r (exact v)) /\ (is_finite v = true -> (exact v == 0)%Q -> is_exactly r 0).
  Proof.
    intros name name' c es vs fs Hn Hn' Hu Hu' He Hc R. exists (population_variance fs), (f_sqrt (population_variance fs)).
    pose proof (representable_variance fs R) as Rv.
    split; [now apply var_call with vs|]. split; [now apply stdev_call with vs|]. split; [intros; now apply sqrt_nearest|].
    intros F P. destruct (population_variance fs) as [s|s| |s m ex]; try discriminate; [split; [reflexivity|split; reflexivity]|]. now apply exact_nonzero in P.
  Qed.
  Lemma values_whole : forall zs, sum_abs zs <= 2 ^ 53 -> values (map f_of_Z zs) zs.
  Proof.
    intros zs H. assert (B : forall z, In z zs -> Z.abs z <= 2 ^ 53) by (intros z Hz; apply sum_abs_bound in Hz; lia). clear H. unfold values.
    induction zs as [|z zs IH]; constructor; [apply of_Z_exact, B; now left|]. apply IH. intros y Hy. apply B. now right.
  Qed.
  Lemma whole_variance : forall name name' c es vs zs m v, In name var_names -> In name' stdev_names -> uncustomised c name -> uncustomised c name' -> evaluate_to c es vs ->
    collects vs (map f_of_Z zs) -> zs <> nil -> fold_right Z.add 0 (map Z.abs zs) <= 2 ^ 53 -> Z.of_nat (length zs) <= 2 ^ 53 ->
    sum_Z zs = Z.of_nat (length zs) * m -> sum_Z (map (fun z => (z - m) * (z - m)) zs) = Z.of_nat (length zs) * v -> Z.of_nat (length zs) * v <= 2 ^ 53 ->
    (exists r, eval (call name es) c = Ok (VNumber r) /\ is_exactly r (inject_Z v)) /\
    (forall s, v = s * s -> 0 <= s -> exists r, eval (call name' es) c = Ok (VNumber r) /\ is_exactly r (inject_Z s)).
  Proof.
    intros name name' c es vs zs m v Hn Hn' Hu Hu' He Hc Hz B L E1 E2 B2. change (sum_abs zs <= 2 ^ 53) in B.
    assert (Hf : map f_of_Z zs <> nil) by (destruct zs; [congruence|discriminate]).
    pose proof (variance_exact (map f_of_Z zs) zs m v (values_whole zs B) Hf B L E1 E2 B2) as V.
    destruct (var_call name c es vs _ Hn Hu He Hc) as [Ev _]. pose proof (stdev_call name' c es vs _ Hn' Hu' He Hc) as Es.
    split; [eexists; split; eauto|]. intros s Hs Hs0. eexists. split; [eauto|]. destruct V as (V1 & V2 & V3).
    assert (P : 1 <= Z.of_nat (length zs)) by (destruct zs; [congruence|simpl; lia]). assert (Sb : Z.abs s <= 2 ^ 53) by nia.
    destruct (of_Z_exact s Sb) as (S1 & S2 & S3).
    assert (S4 : (0 <= inject_Z s)%Q) by (change 0%Q with (inject_Z 0); now rewrite <- Zle_Qle).
    destruct (Z.eq_dec s 0) as [->|N0].
    - rewrite Hs in V3. change (inject_Z (0 * 0)) with 0%Q in V3. destruct (population_variance (map f_of_Z zs)) as [b|b| |b m0 ex]; try discriminate; [split; [reflexivity|split; reflexivity]|]. now apply exact_nonzero in V3.
    - destruct (root_exact (f_sqrt (population_variance (map f_of_Z zs))) (f_of_Z s) (exact (population_variance (map f_of_Z zs)))) as (G1 & G2 & G3); auto.
      + apply sqrt_nearest; auto. rewrite V3. change 0%Q with (inject_Z 0). rewrite <- Zlt_Qlt. nia.
      + lra.
      + rewrite S3, V3, Hs, inject_Z_mult. reflexivity.
      + split; auto. split; auto. lra.
  Qed.
End Calls.
