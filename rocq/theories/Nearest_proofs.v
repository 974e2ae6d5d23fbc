(** Every rounding is to a nearest double. *)
From Coq Require Import ZArith QArith Qabs Lqa Bool Lia.
From Coq Require Import Floats.SpecFloat.
From Verif Require Import Base F64 F64Text Spec Spec_numbers Float_proofs Exact_proofs Round_proofs.
Local Open Scope Z_scope.

Lemma pw_to_pos : forall e, Zpos (Z.to_pos (2 ^ Z.max e 0)) = pw e.
Proof. intros. apply Z2Pos.id. apply Z.pow_pos_nonneg; lia. Qed.

(** the two neighbours of a fraction *)
Lemma finish_cases : forall n d e, 0 <= n -> 0 < d -> fexp prec emax (Zdigits2 (n / d) + e) <= e ->
  let q := n / d in
  exists m, (m = q \/ m = q + 1) /\ (m = q -> 2 * n <= (2 * q + 1) * d) /\ (m = q + 1 -> (2 * q + 1) * d <= 2 * n) /\
    (2 * n = (2 * q + 1) * d -> Z.even m = true) /\
    forall s, finish s (frac n d) e = (let '(r'', e'') := shr_fexp prec emax m e loc_Exact in
      match shr_m r'' with Z0 => S754_zero s | Zpos m => if Zle_bool e'' (emax - prec) then S754_finite s m e'' else S754_infinity s | _ => S754_nan end).
Proof.
  intros n d e Hn Hd He q. pose proof (Z.div_mod n d) as D. pose proof (Z.mod_pos_bound n d Hd) as B. set (r := n mod d) in *. fold q in D.
  exists (round_nearest_even q (loc_of_shr_record (frac n d))). rewrite <- new_location_frac by assumption. fold r.
  assert (NL : forall k, new_location d k = if Z.even d then new_location_even d k else new_location_odd d k) by (intros k; unfold new_location; now destruct (Z.even d)).
  assert (Zb : Zeq_bool r 0 = (r =? 0)) by (unfold Zeq_bool; rewrite Z.eqb_compare; destruct (r ?= 0); reflexivity).
  assert (G : match new_location d r with loc_Exact => r = 0 | loc_Inexact Lt => 2 * r < d | loc_Inexact Eq => 2 * r = d | loc_Inexact Gt => d < 2 * r end).
  { rewrite NL. unfold new_location_even, new_location_odd. rewrite Zb. destruct (Z.eqb_spec r 0) as [E|E]; [now destruct (Z.even d)|]. destruct (Z.even d) eqn:Ev.
    - destruct (Z.compare_spec (2 * r) d); lia.
    - destruct (Z.compare_spec (2 * r + 1) d); try lia. assert (2 * r <> d); [|lia]. intros K. rewrite <- K, Z.even_mul in Ev. discriminate. }
  split; [|split; [|split; [|split]]].
  - destruct (new_location d r) as [|[]]; cbn [round_nearest_even]; auto. destruct (Z.even q); auto.
  - destruct (new_location d r) as [|[]]; cbn [round_nearest_even]; try lia.
  - destruct (new_location d r) as [|[]]; cbn [round_nearest_even]; try lia.
  - destruct (new_location d r) as [|[]]; cbn [round_nearest_even]; try lia. intros _. destruct (Z.even q) eqn:Ev; [assumption|]. now rewrite Z.add_1_r, Z.even_succ, <- Z.negb_even, Ev.
  - intros s. unfold finish. cbn [shr_m frac]. unfold r, q. now rewrite new_location_frac by assumption.
Qed.

(** the rounded mantissa [m] in units of [2^e], as a number of the format *)
Lemma renormalise : forall q m e, 0 <= q -> (m = q \/ m = q + 1) -> fexp prec emax (Zdigits2 q + e) = e ->
  forall s, match (let '(r'', e'') := shr_fexp prec emax m e loc_Exact in
      match shr_m r'' with Z0 => S754_zero s | Zpos m => if Zle_bool e'' (emax - prec) then S754_finite s m e'' else S754_infinity s | _ => S754_nan end) with
    | S754_zero s' => s' = s /\ m = 0
    | S754_finite s' m' e' => s' = s /\ representable (S754_finite s m' e') /\ e <= e' /\ m = Zpos m' * 2 ^ (e' - e) /\ (Z.even m = true -> Z.even (Zpos m') = true)
    | S754_infinity s' => s' = s /\ 0 < e /\ ((q = 2 ^ 53 - 1 /\ m = 2 ^ 53 /\ e = 971) \/ (2 ^ 52 <= q /\ 972 <= e))
    | S754_nan => False
    end.
Proof.
  intros q m e Hq Hm He s. rewrite fexp_max in He.
  assert (Dq : Zdigits2 q <= 53 /\ -1074 <= e /\ (-1074 < e -> Zdigits2 q = 53)) by lia. destruct Dq as (Dq & He1 & He2).
  assert (Qs : q < 2 ^ 53). { destruct (Z.eq_dec q 0) as [->|Q0]; [lia|]. destruct (digits_bounds q ltac:(lia)) as (_ & _ & U). apply Z.lt_le_trans with (1 := U). apply Z.pow_le_mono_r; lia. }
  assert (Qb : -1074 < e -> 2 ^ 52 <= q). { intros K. specialize (He2 K). destruct (Z.eq_dec q 0) as [->|Q0]; [discriminate|]. destruct (digits_bounds q ltac:(lia)) as (_ & L & _). rewrite He2 in L. exact L. }
  destruct (Z.eq_dec m (2 ^ 53)) as [Em|Em].
  - assert (Eq : q = 2 ^ 53 - 1) by lia. rewrite Em. unfold shr_fexp. change (Zdigits2 (2 ^ 53)) with 54. rewrite fexp_max. replace (Z.max (54 + e - 53) (-1074) - e) with 1 by lia.
    cbn [shr shr_record_of_loc iter_pos]. rewrite shr_1_val by lia. change (2 ^ 53 / 2) with (2 ^ 52). change (2 ^ 52) with (Zpos (2 ^ 52)). cbn [shr_m].
    destruct (Zle_bool (e + 1) (emax - prec)) eqn:L.
    + apply Zle_bool_imp_le in L. unfold emax, prec in L. split; [reflexivity|]. split; [|split; [lia|]].
      * unfold representable. cbn [valid_binary]. unfold bounded, canonical_mantissa. apply andb_true_iff. split; [|apply Z.leb_le; unfold emax, prec; lia].
        apply Zeq_is_eq_bool. change (Zpos (digits2_pos (2 ^ 52))) with 53. rewrite fexp_max. lia.
      * replace (e + 1 - e) with 1 by lia. split; reflexivity.
    + apply Z.leb_gt in L. unfold emax, prec in L. split; [reflexivity|]. split; [lia|]. destruct (Z.eq_dec e 971); [left; auto|right; lia].
  - assert (Ms : 0 <= m < 2 ^ 53) by lia.
    assert (Dm : Z.max (Zdigits2 m + e - 53) (-1074) = e).
    { destruct (Z.eq_dec e (-1074)) as [E0|E0].
      - assert (Zdigits2 m <= 53) by (apply digits_small; lia). lia.
      - assert (Zdigits2 m = 53) by (apply digits_unique; [lia|]; change (53 - 1) with 52; lia). lia. }
    unfold shr_fexp. rewrite fexp_max, Dm, Z.sub_diag. cbn [shr shr_record_of_loc shr_m].
    destruct m as [|p|p]; [now split| |lia]. destruct (Zle_bool e (emax - prec)) eqn:L.
    + split; [reflexivity|]. split; [|split; [lia|]].
      * unfold representable. cbn [valid_binary]. unfold bounded, canonical_mantissa. rewrite L, andb_true_r. apply Zeq_is_eq_bool. rewrite fexp_max. exact Dm.
      * rewrite Z.sub_diag. change (2 ^ 0) with 1. split; [lia|auto].
    + apply Z.leb_gt in L. unfold emax, prec in L. split; [reflexivity|]. split; [lia|]. right. split; [apply Qb; lia|lia].
Qed.

Local Open Scope Q_scope.
Lemma closest : forall L u V x y, L <= V -> V < L + u -> (x == L /\ 2 * V <= 2 * L + u) \/ (x == L + u /\ 2 * L + u <= 2 * V) -> y <= L \/ L + u <= y ->
  Qabs (x - V) <= Qabs (y - V).
Proof.
  intros L u V x y H1 H2 Hx Hy.
  destruct (Qlt_le_dec (x - V) 0) as [Hs|Hs]; [rewrite (Qabs_neg (x - V)) by lra|rewrite (Qabs_pos (x - V)) by lra];
  (destruct (Qlt_le_dec (y - V) 0) as [Ht|Ht]; [rewrite (Qabs_neg (y - V)) by lra|rewrite (Qabs_pos (y - V)) by lra]);
  destruct Hx as [[Hx Hx']|[Hx Hx']], Hy; lra.
Qed.
Lemma closest_tie : forall L u V x y, L <= V -> V < L + u -> (x == L /\ 2 * V <= 2 * L + u) \/ (x == L + u /\ 2 * L + u <= 2 * V) -> y <= L \/ L + u <= y ->
  Qabs (y - V) == Qabs (x - V) -> ~ y == x -> 2 * V == 2 * L + u.
Proof.
  intros L u V x y H1 H2 Hx Hy E N. assert (K : y < x \/ x < y). { destruct (Qlt_le_dec y x) as [K|K]; [now left|]. right. apply Qle_lt_or_eq in K as [K|K]; [assumption|]. now symmetry in K. }
  destruct (Qlt_le_dec (x - V) 0) as [Hs|Hs]; [rewrite (Qabs_neg (x - V)) in E by lra|rewrite (Qabs_pos (x - V)) in E by lra];
  (destruct (Qlt_le_dec (y - V) 0) as [Ht|Ht]; [rewrite (Qabs_neg (y - V)) in E by lra|rewrite (Qabs_pos (y - V)) in E by lra]);
  destruct Hx as [[Hx Hx']|[Hx Hx']], Hy, K; lra.
Qed.
(** [k * 2^e] *)
Definition units (k e : Z) : Q := (k * pw e # Z.to_pos (pw (- e)))%Z.
Lemma to_pos_pw : forall e, Zpos (Z.to_pos (pw e)) = pw e.
Proof. intros. apply Z2Pos.id, pw_pos. Qed.
Lemma units_add : forall a b e, units (a + b) e == units a e + units b e.
Proof. intros. unfold units. rewrite Z.mul_add_distr_r. unfold Qeq, Qplus. cbn [Qnum Qden]. rewrite Pos2Z.inj_mul. ring. Qed.
Lemma exact_units : forall s m e, exact (S754_finite s m e) = units (if s then Zneg m else Zpos m) e.
Proof. reflexivity. Qed.
Lemma units_shift : forall k e e', (e <= e')%Z -> units (k * 2 ^ (e' - e)) e == units k e'.
Proof.
  intros k e e' H. unfold units, Qeq. cbn [Qnum Qden]. rewrite !to_pos_pw. transitivity (k * (2 ^ (e' - e) * pw e * pw (- e')))%Z; [ring|]. transitivity (k * (pw e' * pw (- e)))%Z; [|ring]. f_equal.
  unfold pw. rewrite <- !Z.pow_add_r by lia. f_equal. lia.
Qed.
Lemma units_le : forall a b e, (a <= b)%Z <-> units a e <= units b e.
Proof. intros a b e. unfold units, Qle. cbn [Qnum Qden]. rewrite to_pos_pw. pose proof (pw_pos e). pose proof (pw_pos (- e)). rewrite <- !Z.mul_assoc. apply Z.mul_le_mono_pos_r. nia. Qed.
Lemma no_between : forall q e y, (0 <= q)%Z -> fexp prec emax (Zdigits2 q + e) = e -> representable y -> is_finite y = true -> exact y <= units q e \/ units (q + 1) e <= exact y.
Proof.
  intros q e y Hq He R F. assert (U0 : 0 <= units q e) by (unfold units, Qle; cbn [Qnum Qden]; pose proof (pw_pos e); nia).
  destruct y as [b|b| |s m e']; try discriminate; [left; exact U0|]. rewrite exact_units. destruct s.
  - left. apply Qle_trans with 0; [|exact U0]. unfold units, Qle. cbn [Qnum Qden]. pose proof (pw_pos e'). nia.
  - destruct (Z.le_gt_cases e e') as [H|H].
    + rewrite <- (units_shift (Zpos m) e e' H). destruct (Z.le_gt_cases (Zpos m * 2 ^ (e' - e)) q) as [K|K]; [left; now apply units_le|right; apply units_le; lia].
    + left. destruct (representable_digits false m e' R) as (D1 & D2 & D3). rewrite fexp_max in He. assert (Dq : Zdigits2 q = 53%Z) by (clear - He H D3; lia).
      rewrite <- (units_shift q e' e) by lia. apply units_le. assert (Q0 : (0 < q)%Z) by (destruct (Z.eq_dec q 0) as [->|]; [discriminate|lia]).
      destruct (digits_bounds q Q0) as (_ & L & _). rewrite Dq in L. change (2 ^ (53 - 1))%Z with (2 ^ 52)%Z in L.
      assert (P2 : (2 ^ 1 <= 2 ^ (e - e'))%Z) by (apply Z.pow_le_mono_r; lia). change (2 ^ 1)%Z with 2%Z in P2. nia.
Qed.
Lemma rnd_nearest : forall N D, (0 < N)%Z -> (0 < D)%Z ->
  match rnd false N D with
  | S754_infinity b => b = false /\ overflows (N # Z.to_pos D)
  | S754_nan => False
  | S754_zero b => b = false /\ ~ overflows (N # Z.to_pos D) /\ nearest (S754_zero false) (N # Z.to_pos D) /\ (forall y, nearest y (N # Z.to_pos D) -> exact y == 0)
  | x => has_sign false x /\ ~ overflows (N # Z.to_pos D) /\ nearest x (N # Z.to_pos D) /\ (forall y, nearest y (N # Z.to_pos D) -> exact y == exact x)
  end.
Proof.
  intros N D HN HD. unfold rnd. set (E := start N D). assert (E0 : (E <= 0)%Z) by (unfold E, start; lia).
  pose proof (rnd_scaled N D HN HD) as Sc. fold E in Sc.
  assert (PE : (0 < 2 ^ (- E))%Z) by (apply Z.pow_pos_nonneg; lia).
  rewrite round_frac_finish; [|nia|assumption|assumption]. set (n := (N * 2 ^ (- E))%Z) in *. set (e := target n D E) in *. unfold scaled_enough in Sc. fold e in Sc. set (d := (D * 2 ^ (e - E))%Z).
  assert (PeE : (0 < 2 ^ (e - E))%Z) by (apply Z.pow_pos_nonneg; lia).
  assert (Hn : (0 < n)%Z) by (unfold n; nia). assert (Hd : (0 < d)%Z) by (unfold d; nia).
  assert (He : fexp prec emax (Zdigits2 (n / d) + e) = e).
  { pose proof (eq_refl e) as T. unfold e at 2, target in T. rewrite fexp_max in *. assert (Q : (n / d = (n / D) / 2 ^ (e - E))%Z) by (unfold d; rewrite Z.div_div; lia).
    assert (Qp : (0 <= n / D)%Z) by (apply Z.div_pos; lia).
    destruct (Z.eq_dec (n / d) 0) as [Z0|Z0].
    - rewrite Z0. cbn [Zdigits2]. rewrite Q in Z0. assert (n / D < 2 ^ (e - E))%Z by (apply Z.div_small_iff in Z0; lia).
      assert (Zdigits2 (n / D) <= e - E)%Z by (apply digits_small; lia). lia.
    - assert (0 <= n / d)%Z by (apply Z.div_pos; lia). rewrite (digits_div (n / D) (e - E)) in T; [|lia|lia]. rewrite <- Q in T. lia. }
  destruct (finish_cases n d e) as (m & Hm & Hm1 & Hm2 & Hm3 & Hf); [lia|assumption|lia|].
  rewrite (Hf false). assert (Hq : (0 <= n / d)%Z) by (apply Z.div_pos; lia). pose proof (renormalise (n / d) m e Hq Hm He false) as Rn.
  set (q := (n / d)%Z) in *. pose proof (Z.div_mod n d ltac:(lia)) as Dv. fold q in Dv. pose proof (Z.mod_pos_bound n d Hd) as Bd.
  assert (Cv : forall a b, (a * d <= b * n)%Z -> (a * D * pw e <= b * N * pw (- e))%Z).
  { intros a b H. assert (P : (pw e * 2 ^ (- E) = pw (- e) * 2 ^ (e - E))%Z) by (apply pw_split; lia). pose proof (pw_pos (- e)). pose proof (pw_pos e).
    apply (Z.mul_le_mono_pos_r _ _ (2 ^ (- E)) PE). transitivity (a * D * (pw e * 2 ^ (- E)))%Z; [lia|]. rewrite P. unfold n, d in H.
    transitivity (pw (- e) * (a * (D * 2 ^ (e - E))))%Z; [lia|]. transitivity (pw (- e) * (b * (N * 2 ^ (- E))))%Z; [|lia]. apply Z.mul_le_mono_nonneg_l; lia. }
  assert (Cv' : forall a b, (b * n <= a * d)%Z -> (b * N * pw (- e) <= a * D * pw e)%Z).
  { intros a b H. assert (P : (pw e * 2 ^ (- E) = pw (- e) * 2 ^ (e - E))%Z) by (apply pw_split; lia). pose proof (pw_pos (- e)). pose proof (pw_pos e).
    apply (Z.mul_le_mono_pos_r _ _ (2 ^ (- E)) PE). transitivity (a * D * (pw e * 2 ^ (- E)))%Z; [|lia]. rewrite P. unfold n, d in H.
    transitivity (pw (- e) * (a * (D * 2 ^ (e - E))))%Z; [|lia]. transitivity (pw (- e) * (b * (N * 2 ^ (- E))))%Z; [lia|]. apply Z.mul_le_mono_nonneg_l; lia. }
  assert (Cs : (n < (q + 1) * d)%Z -> (N * pw (- e) < (q + 1) * D * pw e)%Z).
  { intros H. pose proof (pw_pos (- e)). pose proof (pw_pos e). assert (P : (pw e * 2 ^ (- E) = pw (- e) * 2 ^ (e - E))%Z) by (apply pw_split; lia).
    apply (Z.mul_lt_mono_pos_r (2 ^ (- E)) _ _ PE). apply Z.lt_le_trans with ((q + 1) * D * (pw e * 2 ^ (- E)))%Z; [|lia]. rewrite P. unfold n, d in H.
    apply Z.lt_le_trans with (pw (- e) * ((q + 1) * (D * 2 ^ (e - E))))%Z; [|lia]. apply Z.le_lt_trans with (pw (- e) * (N * 2 ^ (- E)))%Z; [lia|]. apply Z.mul_lt_mono_pos_l; lia. }
  set (V := N # Z.to_pos D).
  assert (DP : Zpos (Z.to_pos D) = D) by now apply Z2Pos.id.
  assert (V1 : units q e <= V). { unfold units, V, Qle. cbn [Qnum Qden]. rewrite DP, to_pos_pw. specialize (Cv q 1%Z ltac:(lia)). lia. }
  assert (V2 : V < units q e + units 1 e). { rewrite <- units_add. unfold units, V, Qlt. cbn [Qnum Qden]. rewrite DP, to_pos_pw. specialize (Cs ltac:(lia)). lia. }
  assert (V3 : m = q -> 2 * V <= 2 * units q e + units 1 e).
  { intros K. specialize (Hm1 K). setoid_replace (2 * units q e + units 1 e) with (units (2 * q + 1) e) by (replace (2 * q + 1)%Z with (q + q + 1)%Z by lia; rewrite !units_add; ring).
    unfold units, V, Qle, Qmult, inject_Z. cbn [Qnum Qden]. rewrite Pos.mul_1_l, DP, to_pos_pw. specialize (Cv' (2 * q + 1)%Z 2%Z ltac:(lia)). lia. }
  assert (V4 : m = (q + 1)%Z -> 2 * units q e + units 1 e <= 2 * V).
  { intros K. specialize (Hm2 K). setoid_replace (2 * units q e + units 1 e) with (units (2 * q + 1) e) by (replace (2 * q + 1)%Z with (q + q + 1)%Z by lia; rewrite !units_add; ring).
    unfold units, V, Qle, Qmult, inject_Z. cbn [Qnum Qden]. rewrite Pos.mul_1_l, DP, to_pos_pw. specialize (Cv (2 * q + 1)%Z 2%Z ltac:(lia)). lia. }
  assert (V5 : 2 * V == 2 * units q e + units 1 e -> Z.even m = true).
  { intros K. apply Hm3. assert (K' : 2 * V == units (2 * q + 1) e) by (rewrite K; replace (2 * q + 1)%Z with (q + q + 1)%Z by lia; rewrite !units_add; ring).
    unfold units, V, Qeq, Qmult, inject_Z in K'. cbn [Qnum Qden] in K'. rewrite Pos.mul_1_l, DP, to_pos_pw in K'.
    assert (P : (pw e * 2 ^ (- E) = pw (- e) * 2 ^ (e - E))%Z) by (apply pw_split; lia). pose proof (pw_pos (- e)) as Pe.
    apply (Z.mul_reg_r _ _ (pw (- e))); [lia|]. unfold n, d. transitivity (2 * N * pw (- e) * 2 ^ (- E))%Z; [ring|]. rewrite K'. transitivity ((2 * q + 1) * D * (pw e * 2 ^ (- E)))%Z; [ring|]. rewrite P. ring. }
  assert (Near : forall x, exact x == units m e -> representable x -> is_finite x = true -> (Z.even m = true -> even_significand x) -> nearest x V).
  { intros x Ex Rx Fx Evx.
    assert (Place : (exact x == units q e /\ 2 * V <= 2 * units q e + units 1 e) \/ (exact x == units q e + units 1 e /\ 2 * units q e + units 1 e <= 2 * V)).
    { rewrite Ex. destruct Hm as [K|K]; [left; split; [now rewrite K|auto]|right; split; [rewrite K; apply units_add|auto]]. }
    assert (Out : forall y, representable y -> is_finite y = true -> exact y <= units q e \/ units q e + units 1 e <= exact y) by (intros y Ry Fy; rewrite <- units_add; now apply no_between).
    split; [assumption|]. split; [assumption|]. split; intros y Ry Fy.
    - apply (closest (units q e) (units 1 e)); auto.
    - intros Te Ne. apply Evx, V5. apply (closest_tie (units q e) (units 1 e) V (exact x) (exact y)); auto. }
  assert (Uni : forall x, exact x == units m e -> nearest x V -> forall y, nearest y V -> exact y == exact x).
  { intros x Ex Nx y Ny. destruct (Qeq_dec (exact y) (exact x)) as [K|K]; [assumption|exfalso].
    destruct Nx as (Fx & Rx & Cx & Tx), Ny as (Fy & Ry & Cy & Ty).
    assert (Te : Qabs (exact y - V) == Qabs (exact x - V)) by (apply Qle_antisym; auto).
    assert (Ev1 : even_significand x) by (apply (Tx y); auto). assert (Ev2 : even_significand y) by (apply (Ty x); auto; [now symmetry|intros K'; apply K; now symmetry]).
    assert (Place : (exact x == units q e /\ 2 * V <= 2 * units q e + units 1 e) \/ (exact x == units q e + units 1 e /\ 2 * units q e + units 1 e <= 2 * V)).
    { rewrite Ex. destruct Hm as [J|J]; [left; split; [now rewrite J|auto]|right; split; [rewrite J; apply units_add|auto]]. }
    assert (Out : exact y <= units q e \/ units q e + units 1 e <= exact y) by (rewrite <- units_add; now apply no_between).
    pose proof (closest_tie (units q e) (units 1 e) V (exact x) (exact y) V1 V2 Place Out Te K) as Tie.
    assert (Odd : forall z k, representable z -> exact z == units k e -> even_significand z -> (k = q \/ k = q + 1)%Z -> Z.even k = true).
    { intros z k Rz Ez Evz Hk. destruct (Z.eq_dec k 0) as [->|K0]; [reflexivity|].
      assert (Pk : 0 < units k e). { unfold units, Qlt. cbn [Qnum Qden]. pose proof (Z.mul_pos_pos k (pw e) ltac:(lia) (pw_pos e)). lia. }
      destruct z as [b|b| |s mz ez]; try (cbn [exact] in Ez; rewrite <- Ez in Pk; discriminate). rewrite exact_units in Ez.
      destruct s; [exfalso; rewrite <- Ez in Pk; unfold units, Qlt in Pk; cbn [Qnum Qden] in Pk; pose proof (Z.mul_pos_pos (Zpos mz) (pw ez) eq_refl (pw_pos ez)); lia|].
      cbn [even_significand] in Evz. apply Z.even_spec in Evz.
      destruct (Z.le_gt_cases e ez) as [H|H].
      - rewrite <- (units_shift (Zpos mz) e ez H) in Ez. assert (k = Zpos mz * 2 ^ (ez - e))%Z as ->.
        { apply Z.le_antisymm; apply (units_le _ _ e); rewrite Ez; apply Qle_refl. }
        now rewrite Z.even_mul, Evz.
      - rewrite <- (units_shift k ez e ltac:(lia)) in Ez. assert (Zpos mz = k * 2 ^ (e - ez))%Z as Em.
        { apply Z.le_antisymm; apply (units_le _ _ ez); rewrite Ez; apply Qle_refl. }
        exfalso. destruct (representable_digits false mz ez Rz) as (D1 & D2 & D3). rewrite fexp_max in He. assert (Dq : Zdigits2 q = 53%Z) by (clear - He H D3; lia).
        assert (Q0 : (0 < q)%Z) by (destruct (Z.eq_dec q 0) as [Eq|]; [rewrite Eq in Dq; discriminate|lia]).
        destruct (digits_bounds q Q0) as (_ & L & _). rewrite Dq in L. change (2 ^ (53 - 1))%Z with (2 ^ 52)%Z in L.
        assert (P2 : (2 ^ 1 <= 2 ^ (e - ez))%Z) by (apply Z.pow_le_mono_r; lia). change (2 ^ 1)%Z with 2%Z in P2.
        assert (P3 : (2 ^ 52 * 2 <= k * 2 ^ (e - ez))%Z) by (apply Z.mul_le_mono_nonneg; [discriminate|clear - L Hk; lia|discriminate|assumption]). rewrite <- Em in P3. change (2 ^ 52 * 2)%Z with (2 ^ 53)%Z in P3. lia. }
    assert (Both : exact x == units q e /\ exact y == units (q + 1) e \/ exact x == units (q + 1) e /\ exact y == units q e).
    { rewrite units_add. assert (U1 : 0 < units 1 e) by (unfold units, Qlt; cbn [Qnum Qden]; pose proof (pw_pos e); lia).
      destruct Place as [[Px _]|[Px _]]; [left|right]; (split; [assumption|]); revert Te Tie K Out; rewrite Px; generalize (units q e) (units 1 e) U1 (exact y); clear; intros L u U1 y Te Tie K Out.
      - rewrite (Qabs_neg (L - V)) in Te by lra. destruct (Qlt_le_dec (y - V) 0) as [S|S]; [rewrite Qabs_neg in Te by lra|rewrite Qabs_pos in Te by lra]; [exfalso; apply K|]; lra.
      - rewrite (Qabs_pos (L + u - V)) in Te by lra. destruct (Qlt_le_dec (y - V) 0) as [S|S]; [rewrite Qabs_neg in Te by lra|rewrite Qabs_pos in Te by lra]; [|exfalso; apply K]; lra. }
    assert (Even2 : Z.even q = true /\ Z.even (q + 1) = true) by (destruct Both as [[B1 B2]|[B1 B2]]; split; [apply (Odd x)|apply (Odd y)|apply (Odd y)|apply (Odd x)]; auto).
    destruct Even2 as [E1 E2]. rewrite Z.add_1_r, Z.even_succ, <- Z.negb_even, E1 in E2. discriminate. }
  destruct (let '(r'', e'') := shr_fexp prec emax m e loc_Exact in _) as [b|b| |b m' e'].
  - destruct Rn as [-> M0]. split; [reflexivity|]. assert (Nz : nearest (S754_zero false) V) by (apply Near; try reflexivity; try (rewrite M0; reflexivity); try (intros _; exact I)).
    split; [|split; [assumption|]].
    + unfold overflows. rewrite Qabs_pos by (unfold V, Qle; cbn; lia). intros Ov. assert (q = 0)%Z as Q0 by lia. rewrite Q0 in V2. assert (e = -1074)%Z as Ee.
      { rewrite fexp_max in He. rewrite Q0 in He. cbn [Zdigits2] in He. lia. }
      rewrite Ee in V2. assert (W : units 0 (-1074) + units 1 (-1074) <= inject_Z (2 ^ 1024 - 2 ^ 970)) by (vm_compute; discriminate). lra.
    + intros y Ny. rewrite (Uni (S754_zero false)); [reflexivity|rewrite M0; reflexivity|assumption|assumption].
  - destruct Rn as [-> (E1 & Ov)]. split; [reflexivity|]. unfold overflows. rewrite Qabs_pos by (unfold V, Qle; cbn; lia).
    destruct Ov as [(Oq & Om & Oe)|(Oq & Oe)].
    + specialize (V4 ltac:(lia)). assert (W : 2 * units q e + units 1 e == 2 * inject_Z (2 ^ 1024 - 2 ^ 970)) by (rewrite Oq, Oe; vm_compute; reflexivity). rewrite W in V4. lra.
    + apply Qle_trans with (units q e); [|assumption]. apply Qle_trans with (units (2 ^ 52) 972); [vm_compute; discriminate|].
      apply Qle_trans with (units (2 ^ 52) e); [|now apply units_le]. rewrite <- (units_shift (2 ^ 52) 972 e) by lia. apply units_le. pose proof (Z.pow_pos_nonneg 2 (e - 972)). lia.
  - destruct Rn.
  - destruct Rn as [-> (R1 & R2 & R3 & R4)]. assert (Xx : exact (S754_finite false m' e') == units m e) by (rewrite exact_units; rewrite R3; now rewrite units_shift).
    assert (Nx : nearest (S754_finite false m' e') V).
    { apply Near; try assumption; try reflexivity. intros K. cbn [even_significand]. apply Z.even_spec. now apply R4. }
    split; [reflexivity|]. split; [|split; [assumption|now apply Uni]].
    unfold overflows. rewrite Qabs_pos by (unfold V, Qle; cbn; lia). intros Ov.
    destruct (representable_digits false m' e' R1) as (D1 & D2 & D3).
    assert (Qs : (q < 2 ^ 53)%Z). { rewrite fexp_max in He. destruct (Z.eq_dec q 0) as [->|Q0]; [lia|]. destruct (digits_bounds q ltac:(lia)) as (_ & _ & U). apply Z.lt_le_trans with (1 := U). apply Z.pow_le_mono_r; lia. }
    destruct (Z.eq_dec e 971) as [Ee|Ee].
    + assert (Eq : (q = 2 ^ 53 - 1)%Z).
      { destruct (Z.eq_dec q (2 ^ 53 - 1)) as [|Nq]; [assumption|exfalso]. assert (Lq : units (q + 1) e <= units (2 ^ 53 - 1) e) by (apply units_le; lia). rewrite units_add in Lq.
        rewrite Ee in Lq, V2. assert (W : units (2 ^ 53 - 1) 971 < inject_Z (2 ^ 1024 - 2 ^ 970)) by (vm_compute; reflexivity). lra. }
      assert (W : 2 * units q e + units 1 e == 2 * inject_Z (2 ^ 1024 - 2 ^ 970)) by (rewrite Eq, Ee; vm_compute; reflexivity).
      assert (m = 2 ^ 53)%Z as Em.
      { destruct Hm as [K|K]; [exfalso|lia]. specialize (V3 K). assert (T2 : 2 * V == 2 * units q e + units 1 e) by (apply Qle_antisym; [assumption|rewrite W; lra]). apply V5 in T2. rewrite K, Eq in T2. discriminate. }
      assert (e' = e) as -> by lia. rewrite Z.sub_diag in R3. change (2 ^ 0)%Z with 1%Z in R3. lia.
    + assert (Lq : units (q + 1) e <= units (2 ^ 53) 970).
      { assert (e <= 970)%Z by lia. rewrite <- (units_shift (2 ^ 53) e 970) by lia. apply units_le. pose proof (Z.pow_pos_nonneg 2 (970 - e) ltac:(lia) ltac:(lia)) as P2. apply Z.le_trans with (2 ^ 53 * 1)%Z; [lia|]. apply Z.mul_le_mono_nonneg_l; lia. }
      rewrite units_add in Lq. assert (W : units (2 ^ 53) 970 <= inject_Z (2 ^ 1024 - 2 ^ 970)) by (vm_compute; discriminate). lra.
Qed.
