(** Rounding is correct, and correct rounding determines the double. *)
From Coq Require Import String List ZArith NArith QArith Qabs Bool Lia Lqa.
From Coq Require Import Floats.SpecFloat.
From Verif Require Import Base F64 F64Text Syntax Ext Spec Spec_numbers Float_proofs Exact_proofs Round_proofs Nearest_proofs.
Import ListNotations.
Local Open Scope Q_scope.

Lemma finish_sign : forall r e, finish true r e = f_neg (finish false r e).
Proof.
  intros r e. unfold finish. destruct (shr_fexp prec emax _ e loc_Exact) as [r'' e'']. destruct (shr_m r''); try reflexivity. now destruct (Zle_bool e'' (emax - prec)).
Qed.
Lemma round_aux_sign : forall m e l, binary_round_aux prec emax true m e l = f_neg (binary_round_aux prec emax false m e l).
Proof. intros m e l. unfold binary_round_aux. destruct (shr_fexp prec emax m e l) as [r e']. apply finish_sign. Qed.
Lemma rnd_sign : forall N D, rnd true N D = f_neg (rnd false N D).
Proof. intros. unfold rnd, round_frac. apply round_aux_sign. Qed.
Lemma exact_neg : forall x, exact (f_neg x) == - exact x.
Proof. 
  intros [b|b| |b m e]; try reflexivity. unfold exact, f_neg, SFopp, Qeq, Qopp. cbn [Qnum Qden]. f_equal. destruct b; cbn [negb].
  - change (Zneg m) with (- Zpos m)%Z. ring.
  - change (Zneg m) with (- Zpos m)%Z. ring.
Qed.
Lemma finite_neg : forall x, is_finite (f_neg x) = is_finite x.
Proof. intros [| | |]; reflexivity. Qed.
Lemma representable_neg : forall x, representable (f_neg x) <-> representable x.
Proof. intros [| | |]; reflexivity. Qed.
Lemma neg_neg : forall x, f_neg (f_neg x) = x.
Proof. intros [b|b| |b m e]; cbn; rewrite ?negb_involutive; reflexivity. Qed.
Lemma nearest_neg : forall x v, nearest x v -> nearest (f_neg x) (- v).
Proof.
  intros x v (F & R & H & T). split; [now rewrite finite_neg|]. split; [now apply representable_neg|].
  assert (E1 : Qabs (exact (f_neg x) - - v) == Qabs (exact x - v)) by (rewrite exact_neg; setoid_replace (- exact x - - v) with (- (exact x - v)) by ring; apply Qabs_opp).
  assert (E2 : forall y, Qabs (exact y - - v) == Qabs (exact (f_neg y) - v)) by (intros y; rewrite exact_neg; setoid_replace (exact y - - v) with (- (- exact y - v)) by ring; apply Qabs_opp).
  split; intros y Ry Fy.
  - rewrite E1, E2. apply H; [now apply representable_neg|now rewrite finite_neg].
  - intros Te Ne. rewrite E1, E2 in Te. assert (K : even_significand x).
    { apply (T (f_neg y)); [now apply representable_neg|now rewrite finite_neg|assumption|]. intros K. apply Ne. rewrite exact_neg in *. rewrite <- K. ring. }
    destruct x; exact K.
Qed.
Lemma nearest_eq : forall x v w, v == w -> nearest x v -> nearest x w.
Proof.
  intros x v w E (F & R & H & T). split; [assumption|]. split; [assumption|]. split; intros y Ry Fy; [rewrite <- E; now apply H|]. intros Te Ne. apply (T y); try assumption. now rewrite E.
Qed.
Lemma rounded_neg : forall x v, rounded x v -> rounded (f_neg x) (- v).
Proof.
  intros [b|b| |b m e] v H; cbn [rounded f_neg SFopp] in *; destruct H as [O S]; unfold overflows in *; rewrite Qabs_opp; (split; [assumption|]); try (apply nearest_neg in S; exact S). destruct b; cbn [negb]; lra.
Qed.
Lemma rounded_eq : forall x v w, v == w -> rounded x v -> rounded x w.
Proof.
  intros [b|b| |b m e] v w E H; cbn [rounded] in *; destruct H as [O S]; unfold overflows in *; rewrite E in O; (split; [assumption|]); try (now apply nearest_eq with v). destruct b; lra.
Qed.
Lemma rnd_rounded : forall s N D, (0 < N)%Z -> (0 < D)%Z -> rounded (rnd s N D) ((if s then - N else N) # Z.to_pos D)%Z.
Proof.
  assert (Pos : forall N D, (0 < N)%Z -> (0 < D)%Z -> rounded (rnd false N D) (N # Z.to_pos D)).
  { intros N D HN HD. pose proof (rnd_nearest N D HN HD) as H. destruct (rnd false N D) as [b|b| |b m e]; cbn [rounded].
    - now destruct H as (-> & O & H & _).
    - destruct H as [-> H]. split; [assumption|]. unfold Qlt. cbn. lia.
    - destruct H.
    - now destruct H as (_ & O & H & _). }
  intros [] N D HN HD; [|now apply Pos]. rewrite rnd_sign. apply rounded_eq with (- (N # Z.to_pos D)); [reflexivity|]. apply rounded_neg. now apply Pos.
Qed.
Lemma rounded_zero : forall s, rounded (S754_zero s) 0.
Proof. intros s. split; [intros O; now vm_compute in O|]. split; [reflexivity|]. split; [reflexivity|]. split; [|intros; exact I]. intros y _ _. change (Qabs (exact (S754_zero s) - 0)) with 0. apply Qabs_nonneg. Qed.
Lemma dec_rounded : forall s n e, rounded (f_of_dec s n e) (if s then - decimal n e else decimal n e).
Proof.
  intros s [|p] e.
  - cbn [f_of_dec]. apply rounded_eq with 0; [|apply rounded_zero]. unfold decimal. destruct s; reflexivity.
  - rewrite dec_rnd. pose proof (ten_pos e). pose proof (ten_pos (- e)). assert (P : (0 < Zpos p * ten e)%Z) by lia.
    apply rounded_eq with ((if s then - (Zpos p * ten e) else Zpos p * ten e) # Z.to_pos (ten (- e)))%Z; [|now apply rnd_rounded]. destruct s; reflexivity.
Qed.
Lemma self_nearest : forall x, representable x -> is_finite x = true -> nearest x (exact x).
Proof.
  intros x R F. split; [assumption|]. split; [assumption|]. split; intros y _ _; setoid_replace (exact x - exact x) with 0 by ring; [apply Qabs_nonneg|].
  intros Te Ne. exfalso. apply Ne. destruct (Qlt_le_dec (exact y - exact x) 0) as [K|K]; [rewrite Qabs_neg in Te by lra|rewrite Qabs_pos in Te by lra]; cbn in Te; lra.
Qed.
Lemma qneg : forall (A t : Z) d, (- A * t # d)%Z == - (A * t # d).
Proof. intros. unfold Qeq, Qopp. cbn [Qnum Qden]. ring. Qed.
Lemma double_bound : forall y, representable y -> is_finite y = true -> Qabs (exact y) < inject_Z (2 ^ 1024 - 2 ^ 970).
Proof.
  intros y Ry Fy.
  destruct y as [c|c| |c m e]; try discriminate; [vm_compute; reflexivity|]. destruct (representable_digits c m e Ry) as (D1 & D2 & D3).
  assert (E : Qabs (exact (S754_finite c m e)) == units (Zpos m) e).
  { rewrite exact_units. unfold units. destruct c; [|rewrite Qabs_pos; [reflexivity|unfold Qle; cbn [Qnum Qden]; pose proof (pw_pos e); nia]].
    change (Zneg m) with (- Zpos m)%Z. rewrite qneg, Qabs_opp, Qabs_pos; [reflexivity|]. unfold Qle. cbn [Qnum Qden]. pose proof (pw_pos e). nia. }
  rewrite E. apply Qle_lt_trans with (units (2 ^ 53 - 1) e); [apply units_le; lia|]. apply Qle_lt_trans with (units (2 ^ 53 - 1) 971); [|vm_compute; reflexivity].
  rewrite <- (units_shift (2 ^ 53 - 1) e 971) by lia. apply units_le. pose proof (Z.pow_pos_nonneg 2 (971 - e)). nia.
Qed.
Lemma self_rounded : forall x, representable x -> is_finite x = true -> rounded x (exact x).
Proof.
  intros x R F. pose proof (self_nearest x R F) as H. pose proof (double_bound x R F) as B.
  assert (O : ~ overflows (exact x)) by (unfold overflows; intros O; apply (Qlt_not_le _ _ B O)). destruct x; now split.
Qed.
Lemma abs_zero : forall q, Qabs q <= 0 -> q == 0.
Proof. intros q H. destruct (Qlt_le_dec q 0) as [L|L]; [rewrite Qabs_neg in H by lra|rewrite Qabs_pos in H by lra]; lra. Qed.
Lemma units_inj : forall a b e, units a e == units b e -> a = b.
Proof. intros a b e H. apply Z.le_antisymm; apply (units_le _ _ e); rewrite H; apply Qle_refl. Qed.
Lemma exact_inj : forall s x y, representable x -> representable y -> is_finite x = true -> is_finite y = true -> has_sign s x -> has_sign s y -> exact x == exact y -> x = y.
Proof.
  assert (Z0 : forall s m e, ~ exact (S754_finite s m e) == 0).
  { intros s m e H. rewrite exact_units in H. unfold units, Qeq in H. cbn [Qnum Qden] in H. pose proof (pw_pos e). destruct s; nia. }
  assert (Step : forall m e m' e', representable (S754_finite false m e) -> representable (S754_finite false m' e') -> (e <= e')%Z -> units (Zpos m) e == units (Zpos m') e' -> m = m' /\ e = e').
  { intros m e m' e' R R' L H. rewrite <- (units_shift (Zpos m') e e' L) in H. apply units_inj in H.
    destruct (representable_digits _ _ _ R) as (D1 & D2 & D3), (representable_digits _ _ _ R') as (D1' & D2' & D3').
    destruct (Z.eq_dec e e') as [<-|Ne]; [rewrite Z.sub_diag in H; change (2 ^ 0)%Z with 1%Z in H; split; [lia|reflexivity]|exfalso].
    specialize (D2' ltac:(lia)). assert (P2 : (2 ^ 1 <= 2 ^ (e' - e))%Z) by (apply Z.pow_le_mono_r; lia). change (2 ^ 1)%Z with 2%Z in P2.
    assert (P3 : (2 ^ 52 * 2 <= Zpos m' * 2 ^ (e' - e))%Z) by (apply Z.mul_le_mono_nonneg; [discriminate|assumption|discriminate|assumption]).
    rewrite <- H in P3. change (2 ^ 52 * 2)%Z with (2 ^ 53)%Z in P3. clear - P3 D1. lia. }
  intros s [a|a| |a m e] [b|b| |b m' e'] R R' F F' S S' H; try discriminate; cbn [has_sign] in S, S'; subst.
  - reflexivity.
  - exfalso. apply (Z0 s m' e'). now symmetry.
  - exfalso. now apply (Z0 s m e).
  - assert (K : units (Zpos m) e == units (Zpos m') e').
    { rewrite !exact_units in H. destruct s; [|exact H]. change (Zneg m) with (- Zpos m)%Z in H. change (Zneg m') with (- Zpos m')%Z in H.
      unfold units in *. rewrite !qneg in H. rewrite <- (Qopp_involutive (Zpos m * _ # _)), H, Qopp_involutive. reflexivity. }
    assert (m = m' /\ e = e') as [-> ->]; [|reflexivity].
    destruct (Z.le_gt_cases e e') as [L|L]; [now apply Step|]. destruct (Step m' e' m e) as [-> ->]; auto; [lia|now symmetry].
Qed.
(** two doubles closest to the same value are equal *)
Lemma nearest_unique : forall x y v, ~ overflows v -> nearest x v -> nearest y v -> exact x == exact y.
Proof.
  assert (Pos : forall x y v, 0 < v -> ~ overflows v -> nearest x v -> nearest y v -> exact x == exact y).
  { intros x y [N D] P O Nx Ny. unfold Qlt in P. cbn in P. pose proof (rnd_nearest N (Zpos D) ltac:(lia) eq_refl) as H. cbn [Z.to_pos] in H.
    destruct (rnd false N (Zpos D)) as [b|b| |b m e].
    - destruct H as (_ & _ & _ & U). now rewrite (U x), (U y).
    - destruct H as [_ H]. contradiction.
    - destruct H.
    - destruct H as (_ & _ & _ & U). now rewrite (U x), (U y). }
  assert (Zero : forall x, nearest x 0 -> exact x == 0).
  { intros x (F & R & K & _). specialize (K (S754_zero false) eq_refl eq_refl). change (Qabs (exact (S754_zero false) - 0)) with 0 in K. apply abs_zero in K. lra. }
  intros x y v O Nx Ny. destruct (Q_dec v 0) as [[L|L]|L].
  - assert (Q : exact (f_neg x) == exact (f_neg y)).
    { apply (Pos _ _ (- v)); [lra| |now apply nearest_neg|now apply nearest_neg]. unfold overflows in *. now rewrite Qabs_opp. }
    rewrite !exact_neg in Q. lra.
  - now apply (Pos x y v).
  - rewrite (Zero x), (Zero y); [reflexivity|apply nearest_eq with v; assumption|apply nearest_eq with v; assumption].
Qed.
Lemma rounded_unique : forall s x y v, rounded x v -> rounded y v -> has_sign s x -> has_sign s y -> x = y.
Proof.
  intros s x y v Rx Ry Sx Sy.
  destruct (is_finite x) eqn:Fx, (is_finite y) eqn:Fy.
  - assert (Nx : ~ overflows v /\ nearest x v) by (destruct x; try discriminate; exact Rx). assert (Ny : nearest y v) by (destruct y; try discriminate; apply Ry).
    destruct Nx as [O Nx]. apply (exact_inj s); try assumption; [apply Nx|apply Ny|now apply (nearest_unique x y v)].
  - exfalso. destruct y as [b|b| |b m e]; try discriminate; [|destruct Sy]. destruct Ry as [O _]. assert (K : ~ overflows v) by (destruct x; try discriminate; apply Rx). contradiction.
  - exfalso. destruct x as [b|b| |b m e]; try discriminate; [|destruct Sx]. destruct Rx as [O _]. assert (K : ~ overflows v) by (destruct y; try discriminate; apply Ry). contradiction.
  - destruct x as [a|a| |a m e], y as [b|b| |b m' e']; try discriminate; try contradiction. cbn in Sx, Sy. congruence.
Qed.
(** a rounded result has the sign of the exact one *)
Lemma rounded_sign : forall x v, rounded x v -> (0 < v -> has_sign false x \/ x = S754_zero true) /\ (v < 0 -> has_sign true x \/ x = S754_zero false).
Proof.
  assert (Sg : forall (s : bool) m e, if s then exact (S754_finite s m e) < 0 else 0 < exact (S754_finite s m e)).
  { intros s m e. assert (K : 0 < units (Zpos m) e) by (unfold units, Qlt; cbn [Qnum Qden]; pose proof (pw_pos e); nia).
    destruct s; rewrite exact_units; [|exact K]. change (Zneg m) with (- Zpos m)%Z. unfold units in *. rewrite qneg. lra. }
  intros x v H. destruct x as [b|b| |b m e].
  - split; intros _; destruct b; auto; left; reflexivity.
  - destruct H as [_ H]. split; intros K; left; destruct b; try reflexivity; lra.
  - exfalso. destruct H as (_ & F & _). discriminate.
  - destruct H as (_ & F & R & K & _). specialize (K (S754_zero false) eq_refl eq_refl). change (exact (S754_zero false)) with 0 in K. specialize (Sg b m e).
    set (q := exact (S754_finite b m e)) in *. split; intros V; left; destruct b; try reflexivity; exfalso.
    + rewrite (Qabs_neg (q - v)), (Qabs_neg (0 - v)) in K by lra. lra.
    + rewrite (Qabs_pos (q - v)), (Qabs_pos (0 - v)) in K by lra. lra.
Qed.
(** ** Decimal text *)
Lemma flip_sign : forall (s : bool) x, has_sign false x -> has_sign s (if s then f_neg x else x).
Proof. intros [] [b|b| |b m e] H; cbn in *; subst; try reflexivity; contradiction. Qed.
Lemma dec_has_sign : forall s n e, has_sign s (f_of_dec s n e).
Proof.
  assert (P : forall p e, has_sign false (f_of_dec false (Npos p) e)).
  { intros p e. rewrite dec_rnd. pose proof (ten_pos e). pose proof (ten_pos (- e)). pose proof (rnd_nearest (Zpos p * ten e) (ten (- e)) ltac:(lia) ltac:(lia)) as H'.
    destruct (rnd false (Zpos p * ten e) (ten (- e))) as [b|b| |b m e']; cbn [has_sign].
    - now destruct H' as [-> _].
    - now destruct H' as [-> _].
    - contradiction.
    - now destruct H' as [H' _]. }
  intros s [|p] e; [reflexivity|]. pose proof (flip_sign s _ (P p e)) as H. destruct s; [|exact H].
  rewrite !dec_rnd in *. now rewrite rnd_sign.
Qed.
(** the number that a sign, digits and an exponent denote is the only one with that sign that is the decimal correctly rounded *)
Lemma denotes_dec : forall s n e, denotes s n e (f_of_dec s n e).
Proof. intros s n e. split; [apply dec_has_sign|apply dec_rounded]. Qed.
Lemma denotes_iff : forall s n e x, denotes s n e x <-> x = f_of_dec s n e.
Proof.
  intros s n e x. split; [|intros ->; apply denotes_dec]. intros [S R]. apply (rounded_unique s _ _ (if s then - decimal n e else decimal n e)); auto; [apply dec_rounded|apply dec_has_sign].
Qed.
