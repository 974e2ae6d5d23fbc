(** Numbers are printed with as few digits as possible. *)
From Coq Require Import String List ZArith NArith QArith Qabs Bool Lia Lqa.
From Coq Require Import Floats.SpecFloat.
From Verif Require Import Base F64 F64Text Syntax Ext Core Registry Evaluator Cast Spec Spec_syntax Spec_numbers Spec_text
  Float_proofs Exact_proofs Value_proofs Text_proofs Cast_proofs Round_proofs Nearest_proofs Rounding_proofs Display_proofs.
Import ListNotations.
Local Open Scope Q_scope.

(** ** Powers of ten *)
Definition T (k : Z) : Q := decimal 1 k.
Lemma ten_to_pos : forall e, Zpos (Z.to_pos (10 ^ Z.max e 0)) = (10 ^ Z.max e 0)%Z.
Proof. intros. apply Z2Pos.id. apply Z.pow_pos_nonneg; lia. Qed.
Lemma T_add : forall a b, T (a + b) == T a * T b.
Proof.
  intros a b. unfold T, decimal, Qeq, Qmult. cbn [Qnum Qden]. rewrite Pos2Z.inj_mul, !ten_to_pos. change (Z.of_N 1) with 1%Z. rewrite !Z.mul_1_l, <- !Z.pow_add_r by lia. f_equal. lia.
Qed.
Lemma T_pos : forall k, 0 < T k.
Proof. intros k. unfold T, decimal, Qlt. cbn [Qnum Qden]. change (Z.of_N 1) with 1%Z. pose proof (Z.pow_pos_nonneg 10 (Z.max k 0)). lia. Qed.
Lemma T_whole : forall k, (0 <= k)%Z -> T k == inject_Z (10 ^ k).
Proof.
  intros k H. unfold T, decimal, Qeq, inject_Z. cbn [Qnum Qden]. rewrite ten_to_pos. replace (Z.max k 0) with k by lia. replace (Z.max (- k) 0) with 0%Z by lia. change (Z.of_N 1) with 1%Z. change (10 ^ 0)%Z with 1%Z. lia.
Qed.
Lemma T_le : forall a b, (a <= b)%Z -> T a <= T b.
Proof.
  intros a b H. replace b with (a + (b - a))%Z by lia. rewrite T_add, (T_whole (b - a)) by lia. pose proof (T_pos a).
  assert (K : 1 <= inject_Z (10 ^ (b - a))). { change 1 with (inject_Z 1). rewrite <- Zle_Qle. pose proof (Z.pow_pos_nonneg 10 (b - a)). lia. }
  setoid_replace (T a) with (T a * 1) at 1 by ring. apply Qmult_le_l; assumption.
Qed.
Lemma decimal_T : forall n e, decimal n e == inject_Z (Z.of_N n) * T e.
Proof. intros n e. unfold T, decimal, Qeq, Qmult, inject_Z. cbn [Qnum Qden]. rewrite Pos.mul_1_l. change (Z.of_N 1) with 1%Z. ring. Qed.
Lemma units_one : forall k e, units k e == inject_Z k * units 1 e.
Proof. intros k e. unfold units, inject_Z, Qeq, Qmult. cbn [Qnum Qden]. rewrite Pos.mul_1_l. ring. Qed.
Lemma units_positive : forall p e, 0 < units (Zpos p) e.
Proof. intros p e. unfold units, Qlt. cbn [Qnum Qden]. pose proof (Z.mul_pos_pos (Zpos p) (pw e) eq_refl (pw_pos e)). lia. Qed.
Lemma ge_pow10_iff : forall m e k, ge_pow10 m e k = true <-> T k <= units (Zpos m) e.
Proof.
  intros m e k. unfold ge_pow10, T, decimal, units, Qle. cbn [Qnum Qden]. rewrite ten_to_pos, to_pos_pw. unfold pw. change (Z.of_N 1) with 1%Z. rewrite Z.leb_le.
  destruct (Z.leb_spec 0 e) as [E|E], (Z.ltb_spec e 0) as [E'|E'], (Z.leb_spec 0 k) as [K|K], (Z.ltb_spec k 0) as [K'|K']; try lia.
  - rewrite (Z.max_l e 0), (Z.max_r (- e) 0), (Z.max_l k 0), (Z.max_r (- k) 0) by lia. change (2 ^ 0)%Z with 1%Z. change (10 ^ 0)%Z with 1%Z. lia.
  - rewrite (Z.max_l e 0), (Z.max_r (- e) 0), (Z.max_r k 0), (Z.max_l (- k) 0) by lia. change (2 ^ 0)%Z with 1%Z. change (10 ^ 0)%Z with 1%Z. lia.
  - rewrite (Z.max_r e 0), (Z.max_l (- e) 0), (Z.max_l k 0), (Z.max_r (- k) 0) by lia. change (2 ^ 0)%Z with 1%Z. change (10 ^ 0)%Z with 1%Z. lia.
  - rewrite (Z.max_r e 0), (Z.max_l (- e) 0), (Z.max_r k 0), (Z.max_l (- k) 0) by lia. change (2 ^ 0)%Z with 1%Z. change (10 ^ 0)%Z with 1%Z. lia.
Qed.

(** ** The estimate of the decimal exponent *)
Lemma ten_le_two : forall a b, (0 <= a -> 0 <= b -> 196 * a <= 59 * b -> 10 ^ a <= 2 ^ b)%Z.
Proof.
  intros a b Ha Hb H. destruct (Z.le_gt_cases (10 ^ a) (2 ^ b)) as [K|K]; [assumption|exfalso].
  assert (A : (0 <= 2 ^ b)%Z) by (apply Z.pow_nonneg; lia).
  assert (P : ((2 ^ b) ^ 59 < (10 ^ a) ^ 59)%Z) by (apply Z.pow_lt_mono_l; lia).
  assert (Q : ((10 ^ a) ^ 59 <= (2 ^ b) ^ 59)%Z); [|lia].
  rewrite <- !Z.pow_mul_r by lia. rewrite (Z.mul_comm a 59), (Z.pow_mul_r 10 59) by lia. apply Z.le_trans with ((2 ^ 196) ^ a)%Z.
  - apply Z.pow_le_mono_l. split; [apply Z.pow_nonneg; lia|apply Zle_bool_imp_le; vm_compute; reflexivity].
  - rewrite <- Z.pow_mul_r by lia. apply Z.pow_le_mono_r; lia.
Qed.
Lemma two_le_ten : forall a b, (0 <= a -> 0 <= b -> 28 * b <= 93 * a -> 2 ^ b <= 10 ^ a)%Z.
Proof.
  intros a b Ha Hb H. destruct (Z.le_gt_cases (2 ^ b) (10 ^ a)) as [K|K]; [assumption|exfalso].
  assert (A : (0 <= 10 ^ a)%Z) by (apply Z.pow_nonneg; lia).
  assert (P : ((10 ^ a) ^ 28 < (2 ^ b) ^ 28)%Z) by (apply Z.pow_lt_mono_l; lia).
  assert (Q : ((2 ^ b) ^ 28 <= (10 ^ a) ^ 28)%Z); [|lia].
  rewrite <- !Z.pow_mul_r by lia. rewrite (Z.mul_comm a 28), (Z.pow_mul_r 10 28) by lia. apply Z.le_trans with ((2 ^ 93) ^ a)%Z.
  - rewrite <- Z.pow_mul_r by lia. apply Z.pow_le_mono_r; lia.
  - apply Z.pow_le_mono_l. split; [apply Z.pow_nonneg; lia|apply Zle_bool_imp_le; vm_compute; reflexivity].
Qed.
Lemma T_le_units : forall a b, (196 * a <= 59 * b -> 93 * a <= 28 * b)%Z -> (196 * a <= 59 * b)%Z -> T a <= units 1 b.
Proof.
  intros a b H H1. specialize (H H1). unfold T, decimal, units, Qle. cbn [Qnum Qden]. rewrite ten_to_pos, to_pos_pw. unfold pw. change (Z.of_N 1) with 1%Z. rewrite !Z.mul_1_l.
  destruct (Z.le_gt_cases 0 a) as [A|A], (Z.le_gt_cases 0 b) as [B|B]; try lia.
  - rewrite (Z.max_l a 0), (Z.max_r (- a) 0), (Z.max_l b 0), (Z.max_r (- b) 0) by lia. rewrite Z.mul_1_r, Z.mul_1_r. now apply ten_le_two.
  - rewrite (Z.max_r a 0), (Z.max_l (- a) 0), (Z.max_l b 0), (Z.max_r (- b) 0) by lia. pose proof (Z.pow_pos_nonneg 2 b). pose proof (Z.pow_pos_nonneg 10 (- a)). nia.
  - rewrite (Z.max_r a 0), (Z.max_l (- a) 0), (Z.max_r b 0), (Z.max_l (- b) 0) by lia. change (10 ^ 0)%Z with 1%Z. change (2 ^ 0)%Z with 1%Z. rewrite !Z.mul_1_l. apply two_le_ten; lia.
Qed.
Lemma units_le_T : forall a b, (59 * b <= 196 * a -> 28 * b <= 93 * a)%Z -> (59 * b <= 196 * a)%Z -> units 1 b <= T a.
Proof.
  intros a b H H1. specialize (H H1). unfold T, decimal, units, Qle. cbn [Qnum Qden]. rewrite ten_to_pos, to_pos_pw. unfold pw. change (Z.of_N 1) with 1%Z. rewrite !Z.mul_1_l.
  destruct (Z.le_gt_cases 0 a) as [A|A], (Z.le_gt_cases 0 b) as [B|B]; try lia.
  - rewrite (Z.max_l a 0), (Z.max_r (- a) 0), (Z.max_l b 0), (Z.max_r (- b) 0) by lia. rewrite Z.mul_1_r, Z.mul_1_r. apply two_le_ten; lia.
  - rewrite (Z.max_l a 0), (Z.max_r (- a) 0), (Z.max_r b 0), (Z.max_l (- b) 0) by lia. pose proof (Z.pow_pos_nonneg 10 a). pose proof (Z.pow_pos_nonneg 2 (- b)). nia.
  - rewrite (Z.max_r a 0), (Z.max_l (- a) 0), (Z.max_r b 0), (Z.max_l (- b) 0) by lia. change (10 ^ 0)%Z with 1%Z. change (2 ^ 0)%Z with 1%Z. rewrite !Z.mul_1_l. apply ten_le_two; lia.
Qed.
Lemma dec_exponent_spec : forall m e, representable (S754_finite false m e) -> T (dec_exponent m e - 1) <= units (Zpos m) e /\ units (Zpos m) e < T (dec_exponent m e).
Proof.
  intros m e R. destruct (representable_digits _ _ _ R) as (D1 & _ & D3). unfold dec_exponent.
  set (L := (Z.log2 (Zpos m) + e)%Z). set (est := (L * 30103 / 100000)%Z).
  destruct (Z.log2_spec (Zpos m) eq_refl) as [L1 L2]. pose proof (Z.log2_nonneg (Zpos m)) as L0.
  assert (Lm : (Z.log2 (Zpos m) <= 52)%Z). { destruct (Z.le_gt_cases (Z.log2 (Zpos m)) 52) as [|K]; [assumption|exfalso]. assert ((2 ^ 53 <= 2 ^ Z.log2 (Zpos m))%Z) by (apply Z.pow_le_mono_r; lia). lia. }
  assert (Lr : (-1074 <= L <= 1023)%Z) by (unfold L; lia).
  assert (Er : (100000 * est <= 30103 * L < 100000 * est + 100000)%Z). { unfold est. pose proof (Z.div_mod (L * 30103) 100000 ltac:(lia)). pose proof (Z.mod_pos_bound (L * 30103) 100000 ltac:(lia)). lia. }
  assert (V1 : units 1 L <= units (Zpos m) e).
  { unfold L. rewrite <- (units_shift 1 e) by lia. apply units_le. replace (Z.log2 (Zpos m) + e - e)%Z with (Z.log2 (Zpos m)) by lia. lia. }
  assert (V2 : units (Zpos m) e < units 1 (L + 1)).
  { unfold L. rewrite <- (units_shift 1 e) by lia. replace (Z.log2 (Zpos m) + e + 1 - e)%Z with (Z.succ (Z.log2 (Zpos m))) by lia. apply Qnot_le_lt. intros K. apply units_le in K. lia. }
  assert (B1 : T (est - 1) <= units 1 L) by (apply T_le_units; lia).
  assert (B2 : units 1 (L + 1) <= T (est + 2)) by (apply units_le_T; lia).
  clearbody L est. destruct (ge_pow10 m e (est + 1)) eqn:G1.
  - apply ge_pow10_iff in G1. replace (est + 2 - 1)%Z with (est + 1)%Z by lia. split; [assumption|]. now apply Qlt_le_trans with (1 := V2).
  - assert (N1 : ~ T (est + 1) <= units (Zpos m) e) by (rewrite <- ge_pow10_iff, G1; discriminate). apply Qnot_le_lt in N1.
    destruct (ge_pow10 m e est) eqn:G2.
    + apply ge_pow10_iff in G2. replace (est + 1 - 1)%Z with est by lia. now split.
    + assert (N2 : ~ T est <= units (Zpos m) e) by (rewrite <- ge_pow10_iff, G2; discriminate). apply Qnot_le_lt in N2. split; [|assumption]. now apply Qle_trans with (units 1 L).
Qed.
Lemma scaled_spec : forall m e t q r d, scaled m e t = (q, r, d) -> (0 <= q)%Z /\ (0 <= r < d)%Z /\ units (Zpos m) e * T t * inject_Z d == inject_Z (q * d + r).
Proof.
  intros m e t q r d. unfold scaled. set (num := (Zpos m * _ * _)%Z). set (den := (_ * _)%Z). intros H. injection H as <- <- <-.
  assert (E : num = (Zpos m * pw e * ten t)%Z /\ den = (pw (- e) * ten (- t))%Z).
  { unfold num, den, pw, ten. split.
    - destruct (Z.leb_spec 0 e), (Z.leb_spec 0 t); rewrite ?(Z.max_l e 0), ?(Z.max_l t 0), ?(Z.max_r e 0), ?(Z.max_r t 0) by lia; reflexivity.
    - destruct (Z.ltb_spec e 0), (Z.ltb_spec t 0); rewrite ?(Z.max_l (- e) 0), ?(Z.max_l (- t) 0), ?(Z.max_r (- e) 0), ?(Z.max_r (- t) 0) by lia; reflexivity. }
  destruct E as [-> ->]. pose proof (pw_pos e) as P1. pose proof (pw_pos (- e)) as P2. pose proof (ten_pos t) as P3. pose proof (ten_pos (- t)) as P4.
  assert (Pd : (0 < pw (- e) * ten (- t))%Z) by now apply Z.mul_pos_pos.
  split; [apply Z.div_pos; [|assumption]; apply Z.mul_nonneg_nonneg; [|lia]; apply Z.mul_nonneg_nonneg; lia|]. split; [apply Z.mod_pos_bound; assumption|].
  rewrite (Z.mul_comm (_ / _)), <- Z.div_mod by lia.
  unfold units, T, decimal, Qeq, Qmult, inject_Z. cbn [Qnum Qden]. rewrite !Pos2Z.inj_mul, ten_to_pos, to_pos_pw. fold (ten t). fold (ten (- t)). change (Z.of_N 1) with 1%Z. ring.
Qed.

(** ** Neighbours *)
(** a value between [exact x] and a value that rounds to [x] rounds to [x] *)
Lemma nearest_inward : forall x v w, nearest x v -> (exact x <= w <= v \/ v <= w <= exact x) -> nearest x w.
Proof.
  intros x v w (F & R & K & Tz) B. split; [assumption|]. split; [assumption|].
  assert (Ab : Qabs (exact x - v) == Qabs (exact x - w) + Qabs (w - v)).
  { destruct B as [B|B]; [rewrite !Qabs_neg by lra|rewrite !Qabs_pos by lra]; ring. }
  assert (Tr : forall y, Qabs (exact y - v) <= Qabs (exact y - w) + Qabs (w - v)).
  { intros y. setoid_replace (exact y - v) with ((exact y - w) + (w - v)) by ring. apply Qabs_triangle. }
  split; intros y Ry Fy.
  - specialize (K y Ry Fy). specialize (Tr y). lra.
  - intros E N. apply (Tz y); try assumption. specialize (K y Ry Fy). specialize (Tr y). apply Qle_antisym; lra.
Qed.
Lemma rounded_inward : forall x v w, is_finite x = true -> representable x -> 0 <= exact x -> 0 <= v -> rounded x v -> (exact x <= w <= v \/ v <= w <= exact x) -> rounded x w.
Proof.
  intros x v w F R X0 V0 H B. assert (N : ~ overflows v /\ nearest x v) by (destruct x; try discriminate; exact H). destruct N as [O N].
  assert (O' : ~ overflows w).
  { unfold overflows in *. pose proof (double_bound x R F) as D. rewrite Qabs_pos in D by assumption. rewrite Qabs_pos in O by assumption. apply Qnot_le_lt in O. rewrite Qabs_pos by (destruct B; lra). intros K. destruct B; lra. }
  pose proof (nearest_inward x v w N B) as N'. destruct x; try discriminate; now split.
Qed.
(** distinct doubles are far apart *)
Lemma doubles_apart : forall m e y, representable (S754_finite false m e) -> representable y -> is_finite y = true -> ~ exact y == units (Zpos m) e ->
  units (Zpos m) e <= inject_Z (2 ^ 53) * Qabs (exact y - units (Zpos m) e).
Proof.
  assert (A : forall d a e, (Zpos a < 2 ^ 53)%Z -> (units 1 e <= Qabs d) -> units (Zpos a) e <= inject_Z (2 ^ 53) * Qabs d).
  { intros d a e Ha Hd. rewrite units_one. apply Qle_trans with (inject_Z (2 ^ 53) * units 1 e).
    - apply Qmult_le_compat_r; [rewrite <- Zle_Qle; lia|apply Qlt_le_weak, (units_positive 1)].
    - apply Qmult_le_l; [reflexivity|assumption]. }
  intros m e y R Ry Fy N. destruct (representable_digits _ _ _ R) as (D1 & D2 & D3).
  destruct y as [b|b| |s m' e']; try discriminate.
  - apply A; [assumption|]. change (exact (S754_zero b)) with 0. rewrite Qabs_neg by (pose proof (units_positive m e); lra).
    setoid_replace (- (0 - units (Zpos m) e)) with (units (Zpos m) e) by ring. apply units_le. lia.
  - set (z := if s then Zneg m' else Zpos m') in *. change (exact (S754_finite s m' e')) with (units z e') in *. destruct (representable_digits _ _ _ Ry) as (D1' & D2' & D3').
    destruct (Z.le_gt_cases e e') as [L|L].
    + apply A; [assumption|]. rewrite <- (units_shift z e e' L) in *. set (z' := (z * 2 ^ (e' - e))%Z) in *. clearbody z'.
      assert (Nz : z' <> Zpos m) by (intros E; apply N; now rewrite E).
      destruct (Z.lt_ge_cases z' (Zpos m)) as [C|C].
      * assert (units (z' + 1) e <= units (Zpos m) e) by (apply units_le; lia). rewrite units_add in H. pose proof (units_positive 1 e) as P1. rewrite Qabs_neg; lra.
      * assert (units (Zpos m + 1) e <= units z' e) by (apply units_le; lia). rewrite units_add in H. pose proof (units_positive 1 e) as P1. rewrite Qabs_pos; lra.
    + specialize (D2 ltac:(lia)).
      assert (U : units z e' <= units (2 ^ 53 - 1) (e - 1)).
      { apply Qle_trans with (units (2 ^ 53 - 1) e'); [apply units_le; unfold z; destruct s; lia|]. rewrite <- (units_shift (2 ^ 53 - 1) e' (e - 1)) by lia. apply units_le.
        pose proof (Z.pow_pos_nonneg 2 (e - 1 - e') ltac:(lia) ltac:(lia)). lia. }
      assert (E1 : units (Zpos m) e == units (Zpos m * 2) (e - 1)). { rewrite <- (units_shift (Zpos m) (e - 1) e) by lia. replace (e - (e - 1))%Z with 1%Z by lia. reflexivity. }
      rewrite E1 in *. set (u := units 1 (e - 1)) in *. assert (U0 : 0 < u) by apply (units_positive 1).
      rewrite (units_one (Zpos m * 2)) in *. rewrite (units_one (2 ^ 53 - 1)) in U. fold u in U |- *.
      assert (M : inject_Z (2 ^ 52) <= inject_Z (Zpos m)) by (rewrite <- Zle_Qle; assumption). rewrite (inject_Z_mult (Zpos m) 2) in *. change (inject_Z 2) with 2 in *. set (M0 := inject_Z (Zpos m)) in *. set (Y := units z e') in *. clearbody u Y M0.
      assert (C1 : inject_Z (2 ^ 53 - 1) * u + u <= M0 * 2 * u).
      { setoid_replace (inject_Z (2 ^ 53 - 1) * u + u) with (inject_Z (2 ^ 53) * u) by (change (2 ^ 53)%Z with (2 ^ 53 - 1 + 1)%Z at 2; rewrite inject_Z_plus; change (inject_Z 1) with 1; ring).
        apply Qmult_le_compat_r; [|lra]. change (inject_Z (2 ^ 53)) with (inject_Z (2 ^ 52 * 2)). rewrite inject_Z_mult. change (inject_Z 2) with 2. apply Qmult_le_compat_r; [assumption|lra]. }
      rewrite Qabs_neg by lra.
      (* M0 * 2 * u - Y >= M0*2*u - (2^53-1) u ; times 2^53 *)
      apply Qle_trans with (inject_Z (2 ^ 53) * (M0 * 2 * u - inject_Z (2 ^ 53 - 1) * u)); [|apply Qmult_le_l; [reflexivity|lra]].
      setoid_replace (inject_Z (2 ^ 53) * (M0 * 2 * u - inject_Z (2 ^ 53 - 1) * u)) with (inject_Z (2 ^ 53) * (M0 * 2 - inject_Z (2 ^ 53 - 1)) * u) by ring.
      apply Qmult_le_compat_r; [|lra]. revert M. clear. intros M. change (inject_Z (2 ^ 53)) with (9007199254740992 # 1). change (inject_Z (2 ^ 53 - 1)) with (9007199254740991 # 1). change (inject_Z (2 ^ 52)) with (4503599627370496 # 1) in M. lra.
Qed.
(** a value very close to a double rounds to it *)
Lemma close_rounds : forall m e w, representable (S754_finite false m e) -> inject_Z (2 ^ 54) * Qabs (units (Zpos m) e - w) < units (Zpos m) e -> rounded (S754_finite false m e) w.
Proof.
  intros m e w R C. set (x := S754_finite false m e) in *. assert (Ex : exact x = units (Zpos m) e) by reflexivity. rewrite <- Ex in C.
  assert (F : is_finite x = true) by reflexivity. pose proof (double_bound x R F) as Db. pose proof (units_positive m e) as P. rewrite <- Ex in P.
  assert (Far : forall y, representable y -> is_finite y = true -> ~ exact y == exact x -> Qabs (exact x - w) < Qabs (exact y - w)).
  { intros y Ry Fy N. rewrite Ex in N. pose proof (doubles_apart m e y R Ry Fy N) as A. rewrite <- Ex in A.
    assert (Tr : Qabs (exact y - exact x) <= Qabs (exact y - w) + Qabs (exact x - w)).
    { setoid_replace (exact y - exact x) with ((exact y - w) + - (exact x - w)) by ring. eapply Qle_trans; [apply Qabs_triangle|]. rewrite Qabs_opp. lra. }
    change (inject_Z (2 ^ 54)) with (18014398509481984 # 1) in C. change (inject_Z (2 ^ 53)) with (9007199254740992 # 1) in A. lra. }
  split.
  - unfold overflows. intros O. assert (W : Qabs w <= Qabs (exact x) + Qabs (exact x - w)).
    { setoid_replace w with (exact x + - (exact x - w)) at 1 by ring. eapply Qle_trans; [apply Qabs_triangle|]. rewrite Qabs_opp. lra. }
    assert (Mx : exact x <= inject_Z (2 ^ 1024 - 2 ^ 971)).
    { destruct (representable_digits _ _ _ R) as (D1 & _ & D3). rewrite Ex. apply Qle_trans with (units (2 ^ 53 - 1) e); [apply units_le; lia|]. apply Qle_trans with (units (2 ^ 53 - 1) 971); [|vm_compute; discriminate].
      rewrite <- (units_shift (2 ^ 53 - 1) e 971) by lia. apply units_le. pose proof (Z.pow_pos_nonneg 2 (971 - e) ltac:(lia) ltac:(lia)). lia. }
    rewrite (Qabs_pos (exact x)) in W by lra.
    assert (B : inject_Z (2 ^ 54) * inject_Z (2 ^ 1024 - 2 ^ 970) <= inject_Z (2 ^ 54) * exact x + exact x).
    { apply Qle_trans with (inject_Z (2 ^ 54) * exact x + inject_Z (2 ^ 54) * Qabs (exact x - w)); [|lra]. rewrite <- Qmult_plus_distr_r. apply Qmult_le_l; [reflexivity|]. lra. }
    assert (B2 : inject_Z (2 ^ 54) * exact x + exact x <= inject_Z (2 ^ 54) * inject_Z (2 ^ 1024 - 2 ^ 971) + inject_Z (2 ^ 1024 - 2 ^ 971)).
    { apply Qplus_le_compat; [apply Qmult_le_l; [reflexivity|assumption]|assumption]. }
    assert (B3 : inject_Z (2 ^ 54) * inject_Z (2 ^ 1024 - 2 ^ 971) + inject_Z (2 ^ 1024 - 2 ^ 971) < inject_Z (2 ^ 54) * inject_Z (2 ^ 1024 - 2 ^ 970)) by (vm_compute; reflexivity).
    apply (Qlt_not_le _ _ B3). now apply Qle_trans with (1 := B).
  - split; [assumption|]. split; [assumption|]. split; intros y Ry Fy.
    + destruct (Qeq_dec (exact y) (exact x)) as [E|N]; [rewrite E; apply Qle_refl|]. apply Qlt_le_weak. now apply Far.
    + intros E N. exfalso. pose proof (Far y Ry Fy N) as K. rewrite E in K. now apply Qlt_irrefl in K.
Qed.

(** ** The candidates *)
Lemma bits_refl : forall s m e, f_bits_eqb (S754_finite s m e) (S754_finite s m e) = true.
Proof. intros s m e. cbn. now rewrite eqb_reflx, Pos.eqb_refl, Z.eqb_refl. Qed.
Section Search.
  Variables (m : positive) (e : Z).
  Hypothesis R : representable (S754_finite false m e).
  Let x := S754_finite false m e.
  Let V := units (Zpos m) e.
  Let k := dec_exponent m e.

  Lemma reads_iff : forall c t, f_bits_eqb (f_of_dec false c t) x = true <-> denotes false c t x.
  Proof.
    intros c t. rewrite denotes_iff. split; [intros H; symmetry; now apply bits_eq|]. intros H. rewrite <- H. apply bits_refl.
  Qed.
  Lemma nonzero_denotes : forall n t, denotes false n t x -> n <> 0%N.
  Proof. intros n t H ->. apply denotes_iff in H. discriminate. Qed.
  Lemma inward : forall n t n' t', denotes false n t x -> V <= decimal n' t' <= decimal n t \/ decimal n t <= decimal n' t' <= V -> denotes false n' t' x.
  Proof.
    intros n t n' t' [_ H] B. split; [reflexivity|]. apply (rounded_inward x (decimal n t)); try assumption; try reflexivity.
    - apply Qlt_le_weak, (units_positive m e).
    - rewrite decimal_T. apply Qmult_le_0_compat; [change 0 with (inject_Z 0); rewrite <- Zle_Qle; lia|apply Qlt_le_weak, T_pos].
  Qed.
  Lemma candidate_spec : forall p, (1 <= p)%nat -> exists q r d, (0 <= q)%Z /\ (q < 10 ^ Z.of_nat p)%Z /\ (10 ^ (Z.of_nat p - 1) <= q)%Z
    /\ decimal (Z.to_N q) (k - Z.of_nat p) <= V /\ V < decimal (Z.to_N (q + 1)) (k - Z.of_nat p)
    /\ ((d <= 2 * r)%Z <-> decimal (Z.to_N (q + 1)) (k - Z.of_nat p) - V <= V - decimal (Z.to_N q) (k - Z.of_nat p))
    /\ candidate m e k p =
       if f_bits_eqb (f_of_dec false (Z.to_N (q + 1)) (k - Z.of_nat p)) x && (negb (f_bits_eqb (f_of_dec false (Z.to_N q) (k - Z.of_nat p)) x) || (d <=? 2 * r)%Z) then Some (Z.to_N (q + 1), k - Z.of_nat p)%Z
       else if f_bits_eqb (f_of_dec false (Z.to_N q) (k - Z.of_nat p)) x then Some (Z.to_N q, k - Z.of_nat p)%Z else None.
  Proof.
    intros p Hp. unfold candidate. destruct (scaled m e (Z.of_nat p - k)) as [[q r] d] eqn:S. destruct (scaled_spec m e _ q r d S) as (Q0 & R0 & Eq). fold V in Eq.
    exists q, r, d. replace (- (Z.of_nat p - k))%Z with (k - Z.of_nat p)%Z by lia. fold x.
    destruct (dec_exponent_spec m e R) as [K1 K2]. fold k V in K1, K2.
    set (g := T (k - Z.of_nat p)). assert (G0 : 0 < g) by apply T_pos.
    assert (Gt : T (Z.of_nat p - k) * g == 1). { unfold g. rewrite <- T_add. replace (Z.of_nat p - k + (k - Z.of_nat p))%Z with 0%Z by lia. reflexivity. }
    assert (Dq : 0 < inject_Z d) by (change 0 with (inject_Z 0); rewrite <- Zlt_Qlt; lia).
    assert (Ev : V * inject_Z d == (inject_Z q * inject_Z d + inject_Z r) * g).
    { rewrite <- inject_Z_mult, <- inject_Z_plus, <- Eq. setoid_replace (V * T (Z.of_nat p - k) * inject_Z d * g) with (V * inject_Z d * (T (Z.of_nat p - k) * g)) by ring. rewrite Gt. ring. }
    assert (Eq0 : decimal (Z.to_N q) (k - Z.of_nat p) == inject_Z q * g) by (rewrite decimal_T, Z2N.id by lia; reflexivity).
    assert (Eq1 : decimal (Z.to_N (q + 1)) (k - Z.of_nat p) == (inject_Z q + 1) * g) by (rewrite decimal_T, Z2N.id by lia; rewrite inject_Z_plus; reflexivity).
    assert (Rq : 0 <= inject_Z r) by (change 0 with (inject_Z 0); rewrite <- Zle_Qle; lia). assert (Rd : inject_Z r < inject_Z d) by (rewrite <- Zlt_Qlt; lia).
    set (D := inject_Z d) in *. set (r' := inject_Z r) in *. set (q' := inject_Z q) in *.
    assert (L1 : q' * g <= V).
    { apply (Qmult_le_r _ _ D Dq). rewrite Ev. setoid_replace (q' * g * D) with (q' * D * g) by ring. apply Qmult_le_compat_r; lra. }
    assert (L2 : V < (q' + 1) * g).
    { apply (Qmult_lt_r _ _ D Dq). rewrite Ev. setoid_replace ((q' + 1) * g * D) with ((q' * D + D) * g) by ring. apply Qmult_lt_r; lra. }
    assert (Kp : T k == inject_Z (10 ^ Z.of_nat p) * g). { unfold g. rewrite <- (T_whole (Z.of_nat p)), <- T_add by lia. replace (Z.of_nat p + (k - Z.of_nat p))%Z with k by lia. reflexivity. }
    assert (Kp1 : T (k - 1) == inject_Z (10 ^ (Z.of_nat p - 1)) * g). { unfold g. rewrite <- (T_whole (Z.of_nat p - 1)), <- T_add by lia. replace (Z.of_nat p - 1 + (k - Z.of_nat p))%Z with (k - 1)%Z by lia. reflexivity. }
    split; [assumption|]. split.
    { rewrite Zlt_Qlt. apply (Qmult_lt_r _ _ g G0). rewrite <- Kp. now apply Qle_lt_trans with V. }
    split.
    { apply Z.lt_succ_r. rewrite Zlt_Qlt. unfold Z.succ. rewrite inject_Z_plus. apply (Qmult_lt_r _ _ g G0). rewrite <- Kp1. now apply Qle_lt_trans with V. }
    rewrite Eq0, Eq1. split; [assumption|]. split; [assumption|]. split; [|reflexivity].
    assert (H2 : (q' + 1) * g - V <= V - q' * g <-> D * g <= 2 * r' * g).
    { assert (A : (V - q' * g) * D == r' * g) by (setoid_replace ((V - q' * g) * D) with (V * D - q' * D * g) by ring; rewrite Ev; ring).
      assert (B : ((q' + 1) * g - V) * D == (D - r') * g) by (setoid_replace (((q' + 1) * g - V) * D) with (q' * D * g + D * g - V * D) by ring; rewrite Ev; ring).
      rewrite <- (Qmult_le_r _ _ D Dq), A, B. split; intros H; [setoid_replace (2 * r' * g) with (r' * g + r' * g) by ring; setoid_replace ((D - r') * g) with (D * g - r' * g) in H by ring; lra
        |setoid_replace (2 * r' * g) with (r' * g + r' * g) in H by ring; setoid_replace ((D - r') * g) with (D * g - r' * g) by ring; lra]. }
    rewrite H2, (Qmult_le_r _ _ g G0). unfold D, r'. change 2 with (inject_Z 2). rewrite <- inject_Z_mult, <- Zle_Qle. reflexivity.
  Qed.
  (** a decimal with at most [p] digits is on the grid of the candidates, or below it *)
  Lemma on_grid : forall p n t q, (1 <= p)%nat -> (Z.of_N n < 10 ^ Z.of_nat p)%Z -> (0 <= q)%Z -> (10 ^ (Z.of_nat p - 1) <= q)%Z ->
    decimal n t <= decimal (Z.to_N q) (k - Z.of_nat p) \/ decimal (Z.to_N (q + 1)) (k - Z.of_nat p) <= decimal n t.
  Proof.
    intros p n t q Hp Hn Q0 Q1. rewrite !decimal_T, !Z2N.id by lia. set (g := T (k - Z.of_nat p)). assert (G0 : 0 < g) by apply T_pos.
    destruct (Z.le_gt_cases (k - Z.of_nat p) t) as [L|L].
    - assert (E : T t == inject_Z (10 ^ (t - (k - Z.of_nat p))) * g). { unfold g. rewrite <- T_whole, <- T_add by lia. replace (t - (k - Z.of_nat p) + (k - Z.of_nat p))%Z with t by lia. reflexivity. }
      rewrite E, Qmult_assoc, <- inject_Z_mult. set (c := (Z.of_N n * 10 ^ (t - (k - Z.of_nat p)))%Z). destruct (Z.le_gt_cases c q) as [C|C]; [left|right]; (apply Qmult_le_compat_r; [rewrite <- Zle_Qle; lia|lra]).
    - left. apply Qle_trans with (inject_Z (10 ^ Z.of_nat p) * T t).
      + apply Qmult_le_compat_r; [rewrite <- Zle_Qle; lia|apply Qlt_le_weak, T_pos].
      + rewrite <- (T_whole (Z.of_nat p)), <- T_add by lia. apply Qle_trans with (T (k - 1)); [apply T_le; lia|].
        assert (E : T (k - 1) == inject_Z (10 ^ (Z.of_nat p - 1)) * g). { unfold g. rewrite <- T_whole, <- T_add by lia. replace (Z.of_nat p - 1 + (k - Z.of_nat p))%Z with (k - 1)%Z by lia. reflexivity. }
        rewrite E. apply Qmult_le_compat_r; [rewrite <- Zle_Qle; lia|lra].
  Qed.
  Lemma candidate_found : forall p n t, (1 <= p)%nat -> (Z.of_N n < 10 ^ Z.of_nat p)%Z -> denotes false n t x -> candidate m e k p <> None.
  Proof.
    intros p n t Hp Hn H. destruct (candidate_spec p Hp) as (q & r & d & Q0 & Q1 & Q2 & V1 & V2 & _ & ->).
    destruct (f_bits_eqb (f_of_dec false (Z.to_N q) (k - Z.of_nat p)) x) eqn:Lo, (f_bits_eqb (f_of_dec false (Z.to_N (q + 1)) (k - Z.of_nat p)) x) eqn:Hi; cbn [andb negb orb]; try match goal with |- context [(d <=? 2 * r)%Z] => destruct (d <=? 2 * r)%Z end; try discriminate.
    exfalso. destruct (on_grid p n t q Hp Hn Q0 Q2) as [G|G].
    - assert (K : denotes false (Z.to_N q) (k - Z.of_nat p) x) by (apply (inward n t); [assumption|right; now split]). apply reads_iff in K. congruence.
    - assert (K : denotes false (Z.to_N (q + 1)) (k - Z.of_nat p) x) by (apply (inward n t); [assumption|left; split; [now apply Qlt_le_weak|assumption]]). apply reads_iff in K. congruence.
  Qed.
  Lemma candidate_best : forall p c t, (1 <= p)%nat -> candidate m e k p = Some (c, t) ->
    denotes false c t x /\ (Z.of_N c <= 10 ^ Z.of_nat p)%Z /\ forall n t', (Z.of_N n < 10 ^ Z.of_nat p)%Z -> denotes false n t' x -> Qabs (decimal c t - V) <= Qabs (decimal n t' - V).
  Proof.
    intros p c t Hp. destruct (candidate_spec p Hp) as (q & r & d & Q0 & Q1 & Q2 & V1 & V2 & Hf & ->). intros H.
    assert (Dn : denotes false c t x).
    { destruct (f_bits_eqb (f_of_dec false (Z.to_N q) (k - Z.of_nat p)) x) eqn:Lo, (f_bits_eqb (f_of_dec false (Z.to_N (q + 1)) (k - Z.of_nat p)) x) eqn:Hi; cbn [andb negb orb] in H; try match type of H with context [(d <=? 2 * r)%Z] => destruct (d <=? 2 * r)%Z end; injection H as <- <- || discriminate; now apply reads_iff. }
    split; [assumption|]. split.
    { destruct (f_bits_eqb (f_of_dec false (Z.to_N q) (k - Z.of_nat p)) x), (f_bits_eqb (f_of_dec false (Z.to_N (q + 1)) (k - Z.of_nat p)) x); cbn [andb negb orb] in H; try match type of H with context [(d <=? 2 * r)%Z] => destruct (d <=? 2 * r)%Z end; injection H as <- _ || discriminate; lia. }
    intros n t' Hn Hd. set (A := decimal (Z.to_N q) (k - Z.of_nat p)) in *. set (B := decimal (Z.to_N (q + 1)) (k - Z.of_nat p)) in *. set (W := decimal n t').
    assert (Ok : (W <= A /\ denotes false (Z.to_N q) (k - Z.of_nat p) x) \/ (B <= W /\ denotes false (Z.to_N (q + 1)) (k - Z.of_nat p) x)).
    { destruct (on_grid p n t' q Hp Hn Q0 Q2) as [G|G]; [left|right]; (split; [exact G|]); apply (inward n t'); try assumption; [right; now split|left; split; [now apply Qlt_le_weak|assumption]]. }
    rewrite <- !reads_iff in Ok.
    assert (Hh : (d <=? 2 * r)%Z = true -> B - V <= V - A) by (rewrite Z.leb_le; apply Hf).
    assert (Hl : (d <=? 2 * r)%Z = false -> V - A <= B - V). { rewrite Z.leb_gt. intros K. apply Qlt_le_weak, Qnot_le_lt. intros K'. apply Hf in K'. lia. }
    assert (Aa : Qabs (A - V) == V - A) by (rewrite Qabs_neg by lra; ring). assert (Ab : Qabs (B - V) == B - V) by (rewrite Qabs_pos by lra; reflexivity).
    assert (Wl : W <= A -> Qabs (W - V) == V - W) by (intros; rewrite Qabs_neg by lra; ring). assert (Wh : B <= W -> Qabs (W - V) == W - V) by (intros; rewrite Qabs_pos by lra; reflexivity).
    assert (Goal2 : (c = Z.to_N q /\ t = (k - Z.of_nat p)%Z /\ (f_bits_eqb (f_of_dec false (Z.to_N (q + 1)) (k - Z.of_nat p)) x = true -> V - A <= B - V))
                 \/ (c = Z.to_N (q + 1) /\ t = (k - Z.of_nat p)%Z /\ (f_bits_eqb (f_of_dec false (Z.to_N q) (k - Z.of_nat p)) x = true -> B - V <= V - A))).
    { destruct (f_bits_eqb (f_of_dec false (Z.to_N q) (k - Z.of_nat p)) x) eqn:Lo, (f_bits_eqb (f_of_dec false (Z.to_N (q + 1)) (k - Z.of_nat p)) x) eqn:Hi; cbn [andb negb orb] in H; try match type of H with context [(d <=? 2 * r)%Z] => destruct (d <=? 2 * r)%Z eqn:Hd2 end; injection H as <- <- || discriminate; auto.
      - left. split; [reflexivity|]. split; [reflexivity|]. discriminate.
      - right. split; [reflexivity|]. split; [reflexivity|]. discriminate. }
    destruct Goal2 as [(-> & -> & C)|(-> & -> & C)]; fold A B.
    - rewrite Aa. destruct Ok as [[O1 O2]|[O1 O2]]; [rewrite (Wl O1); lra|rewrite (Wh O1); specialize (C O2); lra].
    - rewrite Ab. destruct Ok as [[O1 O2]|[O1 O2]]; [rewrite (Wl O1); specialize (C O2); lra|rewrite (Wh O1); lra].
  Qed.
  (** seventeen digits are enough *)
  Lemma seventeen : candidate m e k 17 <> None.
  Proof.
    destruct (candidate_spec 17 ltac:(lia)) as (q & r & d & Q0 & Q1 & Q2 & V1 & V2 & _ & E).
    set (g := T (k - Z.of_nat 17)). assert (G0 : 0 < g) by apply T_pos.
    set (A := decimal (Z.to_N q) (k - Z.of_nat 17)) in *. set (B := decimal (Z.to_N (q + 1)) (k - Z.of_nat 17)) in *.
    assert (Ba : B == A + g). { unfold A, B. rewrite !decimal_T, !Z2N.id by lia. rewrite inject_Z_plus. fold g. ring. }
    assert (Gv : inject_Z (10 ^ 16) * g <= V).
    { destruct (dec_exponent_spec m e R) as [K1 _]. fold k V in K1. apply Qle_trans with (2 := K1). unfold g. rewrite <- T_whole, <- T_add by lia. apply T_le. lia. }
    change (inject_Z (10 ^ 16)) with (10000000000000000 # 1) in Gv.
    assert (Close : forall w, Qabs (V - w) <= g / 2 -> rounded x w).
    { intros w Hw. apply close_rounds; [assumption|]. fold V. change (inject_Z (2 ^ 54)) with (18014398509481984 # 1). unfold Qdiv in Hw. change (/ 2) with (1 # 2) in Hw. lra. }
    destruct (Qlt_le_dec (V - A) (g / 2)) as [C|C].
    - assert (K : denotes false (Z.to_N q) (k - Z.of_nat 17) x). { split; [reflexivity|]. apply Close. fold A. rewrite Qabs_pos by lra. lra. }
      apply reads_iff in K. rewrite E, K. match goal with |- (if ?b then _ else _) <> None => destruct b end; discriminate.
    - assert (K : denotes false (Z.to_N (q + 1)) (k - Z.of_nat 17) x). { split; [reflexivity|]. apply Close. fold B. rewrite Qabs_neg by lra. unfold Qdiv in *. change (/ 2) with (1 # 2) in *. lra. }
      apply reads_iff in K. rewrite E, K. cbn [andb]. destruct (f_bits_eqb (f_of_dec false (Z.to_N q) (k - Z.of_nat 17)) x); cbn [negb orb]; [destruct (d <=? 2 * r)%Z|]; discriminate.
  Qed.
  Lemma search_first : forall todo n p, (n <= p <= n + todo)%nat -> candidate m e k p <> None ->
    exists p' c, (n <= p' <= p)%nat /\ candidate m e k p' = Some c /\ search_digits m e k n todo = Some c /\ forall j, (n <= j < p')%nat -> candidate m e k j = None.
  Proof.
    induction todo as [|todo IH]; intros n p Hp C; cbn [search_digits]; destruct (candidate m e k n) as [c|] eqn:Cn.
    - exists n, c. repeat split; auto; lia.
    - exfalso. replace p with n in C by lia. congruence.
    - exists n, c. repeat split; auto; lia.
    - assert (n <> p) by congruence. destruct (IH (S n) p ltac:(lia) C) as (p' & c & H1 & H2 & H3 & H4). exists p', c. split; [lia|]. split; [assumption|]. split; [assumption|].
      intros j Hj. destruct (Nat.eq_dec j n) as [->|]; [assumption|apply H4; lia].
  Qed.
  Lemma shortest_best : forall c t, shortest m e = (c, t) -> exists p, (1 <= p)%nat /\ denotes false c t x /\ (Z.of_N c <= 10 ^ Z.of_nat p)%Z
    /\ (forall n t', (Z.of_N n < 10 ^ Z.of_nat p)%Z -> denotes false n t' x -> Qabs (decimal c t - V) <= Qabs (decimal n t' - V))
    /\ (forall n t' j, (Z.of_N n < 10 ^ Z.of_nat j)%Z -> denotes false n t' x -> (p <= j)%nat).
  Proof.
    intros c t H. destruct (search_first 16 1 17 ltac:(lia) seventeen) as (p & c' & H1 & H2 & H3 & H4). unfold shortest in H. fold k in H. rewrite H3 in H. subst c'.
    exists p. split; [lia|]. destruct (candidate_best p c t ltac:(lia) H2) as (B1 & B2 & B3). split; [assumption|]. split; [assumption|]. split; [assumption|].
    intros n t' j Hn Hd. destruct (Nat.le_gt_cases p j) as [|L]; [assumption|exfalso].
    destruct j as [|j]; [apply (nonzero_denotes n t' Hd); cbn in Hn; lia|]. apply (candidate_found (S j) n t' ltac:(lia) Hn Hd). apply H4. lia.
  Qed.
End Search.

(** ** The digits and their text *)
Lemma denotes_flip : forall s n t x, denotes s n t x -> denotes false n t (if s then f_neg x else x).
Proof.
  intros [] n t x H; [|exact H]. apply denotes_iff in H. rewrite dec_sign in H. apply denotes_iff. rewrite H. now destruct (f_of_dec false n t) as [[]|[]| |[] ? ?].
Qed.
Lemma exact_abs : forall s m e, Qabs (exact (S754_finite s m e)) == units (Zpos m) e.
Proof.
  intros s m e. rewrite exact_units. pose proof (units_positive m e) as P. destruct s.
  - assert (En : units (Zneg m) e == - units (Zpos m) e) by (change (Zneg m) with (- Zpos m)%Z; unfold units, Qeq; cbn [Qopp Qnum Qden]; rewrite !Z.mul_opp_l; reflexivity); rewrite En. rewrite Qabs_opp, Qabs_pos by lra. reflexivity.
  - rewrite Qabs_pos by lra. reflexivity.
Qed.
Lemma strip_last : forall ds, strip_trailing_zeros ds = [] \/ last (strip_trailing_zeros ds) 48%N <> 48%N.
Proof.
  induction ds as [|c r IH]; [now left|]. cbn [strip_trailing_zeros]. destruct (strip_trailing_zeros r) as [|x t] eqn:E.
  - destruct (N.eqb_spec c 48) as [->|Nc]; [now left|now right].
  - destruct IH as [IH|IH]; [discriminate|]. right. exact IH.
Qed.
Lemma last_digit : forall ds, digits ds -> exists u, digits_value ds = (10 * u + (last ds 48 - 48))%N /\ (48 <= last ds 48 < 58)%N.
Proof.
  intros ds [Nd Dd]. destruct (exists_last Nd) as (r & c & ->). rewrite last_last. exists (digits_value r). rewrite digits_value_app. cbn [length]. change (10 ^ N.of_nat 1)%N with 10%N.
  rewrite forallb_app in Dd. apply andb_true_iff in Dd as [_ Dd]. cbn in Dd. rewrite andb_true_r in Dd. unfold is_digit in Dd. apply andb_true_iff in Dd as [D1 D2]. apply N.leb_le in D1. apply N.leb_le in D2.
  cbn [digits_value fold_left]. unfold digits_value. cbn [fold_left]. split; lia.
Qed.
Lemma decimal_shift : forall n t j, (0 <= j)%Z -> decimal (n * 10 ^ Z.to_N j) t == decimal n (t + j).
Proof.
  intros n t j Hj. rewrite !decimal_T, T_add, (T_whole j Hj). rewrite N2Z.inj_mul, N2Z.inj_pow, Z2N.id, inject_Z_mult by assumption. change (Z.of_N 10) with 10%Z. ring.
Qed.
Lemma digits_best : forall s m e ds k, representable (S754_finite false m e) -> digits_of m e = (ds, k) ->
  shortest_decimal s (digits_value ds) (k - Z.of_nat (length ds)) (S754_finite s m e) /\ digits ds /\ hd 48%N ds <> 48%N /\ last ds 48%N <> 48%N.
Proof.
  intros s m e ds k R D. destruct (digits_of_reads s m e ds k R D) as [Dd Rd]. unfold digits_of in D. destruct (shortest m e) as [c t] eqn:Sh. injection D as <- <-.
  destruct (shortest_best m e R c t Sh) as (p & Hp & Dn & Cp & Best & Least).
  destruct (N_to_str_spec c) as ((C0 & C1) & C2 & C3). destruct (strip_spec (N_to_str c)) as (j & E). pose proof (strip_last (N_to_str c)) as La. set (w := strip_trailing_zeros (N_to_str c)) in *.
  assert (La' : last w 48%N <> 48%N) by (destruct La as [K|K]; [destruct Dd; congruence|exact K]).
  assert (Cv : c = (digits_value w * 10 ^ N.of_nat j)%N). { rewrite <- C2, E, digits_value_app, zeros_value, zeros_length. lia. }
  assert (Ex : (Z.of_nat (length (N_to_str c)) + t - Z.of_nat (length w) = t + Z.of_nat j)%Z). { rewrite E at 1. rewrite app_length, zeros_length. lia. }
  rewrite Ex in *. destruct (last_digit w Dd) as (u & Lu & Lb). set (d := digits_value w) in *.
  assert (Dp : (d < 10 ^ N.of_nat p)%N).
  { assert (Cp' : (c <= 10 ^ N.of_nat p)%N). { replace (10 ^ Z.of_nat p)%Z with (Z.of_N (10 ^ N.of_nat p)) in Cp by (rewrite N2Z.inj_pow, nat_N_Z; reflexivity). lia. }
    assert (P1 : (10 ^ N.of_nat j <> 0)%N) by (apply N.pow_nonzero; lia).
    destruct (N.eq_dec d (10 ^ N.of_nat p)) as [K|K]; [exfalso|apply N.le_neq; split; [|assumption]; apply N.le_trans with c; [rewrite Cv; nia|assumption]].
    replace (N.of_nat p) with (N.succ (N.of_nat (p - 1))) in K by lia. rewrite N.pow_succ_r' in K. assert (last w 48 - 48 = 0)%N by lia. lia. }
  assert (V' := exact_abs s m e).
  split; [|split; [assumption|split; [|assumption]]].
  - split; [apply denotes_iff; symmetry; exact Rd|]. intros n t' Hn. apply denotes_flip in Hn.
    replace (if s then f_neg (S754_finite s m e) else S754_finite s m e) with (S754_finite false m e) in Hn by now destruct s.
    assert (Z10 : forall i, (10 ^ Z.of_nat i = Z.of_N (10 ^ N.of_nat i))%Z) by (intros i; rewrite N2Z.inj_pow, nat_N_Z; reflexivity).
    split.
    + intros i Hi. assert (Li : (p <= N.to_nat i)%nat) by (apply (Least n t'); [rewrite Z10, N2Nat.id; lia|assumption]).
      apply N.lt_le_trans with (1 := Dp). apply N.pow_le_mono_r; lia.
    + intros Hi. rewrite V'. replace (Z.of_nat j) with (Z.of_N (N.of_nat j)) by lia. rewrite <- decimal_shift by lia. rewrite N2Z.id, <- Cv. apply Best; [|assumption]. rewrite Z10. specialize (Hi _ Dp). lia.
  - intros K. destruct w as [|w0 w'] eqn:Ew; [now destruct Dd|]. cbn in K. subst w0. rewrite E in C3. cbn in C3. specialize (C3 eq_refl). injection C3 as C3. apply app_eq_nil in C3 as [-> _]. now apply La'.
Qed.
Lemma last_app_ne : forall {A} (a b : list A) d, b <> [] -> last (a ++ b) d = last b d.
Proof. intros A a b d H. destruct (exists_last H) as (r & x & ->). now rewrite app_assoc, !last_last. Qed.
Lemma place_point_plain : forall ds k ip fp, digits ds -> hd 48%N ds <> 48%N -> last ds 48%N <> 48%N -> place_point ds k = (ip, fp) ->
  digits ip /\ all_digits fp /\ decimal (digits_value (ip ++ fp)) (- Z.of_nat (length fp)) == decimal (digits_value ds) (k - Z.of_nat (length ds))
  /\ (ip = lit "0" \/ hd 48%N ip <> 48%N) /\ (fp = [] \/ last fp 48%N <> 48%N).
Proof.
  intros ds k ip fp Dd Hh Hl P. destruct (place_point_spec ds k ip fp Dd P) as (P1 & P2 & _). split; [assumption|]. split; [assumption|]. destruct Dd as [Nd Dd]. unfold place_point in P.
  destruct (Z.leb_spec k 0) as [H|H]; [|destruct (Z.leb_spec (Z.of_nat (length ds)) k) as [H'|H']]; injection P as <- <-.
  - split; [|split; [now left|right]].
    + rewrite !digits_value_app, zeros_value, app_length, zeros_length. cbn [digits_value fold_left]. replace (- Z.of_nat (Z.to_nat (- k) + length ds))%Z with (k - Z.of_nat (length ds))%Z by lia. match goal with |- decimal ?a ?b == decimal ?a2 ?b2 => replace a with a2 by lia; replace b with b2 by lia end. reflexivity.
    + rewrite last_app_ne by assumption. assumption.
  - split; [|split; [right|now left]].
    + rewrite app_nil_r, digits_value_app, zeros_value, zeros_length, N.add_0_r. cbn [length Z.of_nat Z.opp].
      replace (N.of_nat (Z.to_nat (k - Z.of_nat (length ds)))) with (Z.to_N (k - Z.of_nat (length ds))) by lia. rewrite decimal_shift by lia. reflexivity.
    + destruct ds as [|c r]; [congruence|exact Hh].
  - pose proof (firstn_skipn (Z.to_nat k) ds) as FS. split; [|split; [right|right]].
    + rewrite FS, skipn_length. match goal with |- decimal ?a ?b == decimal ?a2 ?b2 => replace a with a2 by lia; replace b with b2 by lia end. reflexivity.
    + destruct ds as [|c r]; [congruence|]. destruct (Z.to_nat k) as [|k'] eqn:Ek; [lia|]. exact Hh.
    + rewrite <- FS in Hl. rewrite last_app_ne in Hl; [assumption|]. intros K. apply (f_equal (@length N)) in K. rewrite skipn_length in K. cbn in K. lia.
Qed.
Lemma display_shortest : forall x, representable x -> is_finite x = true -> ~ exact x == 0 -> exists d k, shortest_decimal (sign_bit x) d k x /\ plain_text (sign_bit x) d k (f_display x).
Proof.
  intros [b|b| |s m e] R F Nz; try discriminate; [exfalso; apply Nz; reflexivity|]. clear F Nz. cbn [sign_bit].
  destruct (digits_of m e) as [ds k] eqn:D. destruct (digits_best s m e ds k R D) as (B & Dd & Hh & Hl). exists (digits_value ds), (k - Z.of_nat (length ds))%Z. split; [assumption|].
  unfold f_display. rewrite D. destruct (place_point ds k) as [ip fp] eqn:P. destruct (place_point_plain ds k ip fp Dd Hh Hl P) as (P1 & P2 & P3 & P4 & P5).
  exists ip, fp. split; [|tauto]. destruct s, fp; cbn [with_sign lit app]; rewrite ?app_nil_r; reflexivity.
Qed.
Section Shortest.
  Context {X : Ext}.
  Lemma shortest_text : forall ex c x, eval ex c = Ok (VNumber x) -> representable x -> is_finite x = true -> ~ exact x == 0 ->
    exists s d k, eval (ETypeCast ex TyString) c = Ok (VString s) /\ shortest_decimal (sign_bit x) d k x /\ plain_text (sign_bit x) d k s.
  Proof.
    intros ex c x H R F Nz. destruct (display_shortest x R F Nz) as (d & k & B & P). exists (f_display x), d, k. split; [|now split]. rewrite eval_cast, H. reflexivity.
  Qed.
End Shortest.
