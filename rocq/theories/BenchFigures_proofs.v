(** The figures a benchmark shows. *)
From Coq Require Import String List ZArith NArith QArith Qround Qabs Bool Lia Lqa Sorted Permutation.
From Coq Require Import Floats.SpecFloat.
From Verif Require Import Base F64 Syntax Utils Arrays Stats ClientBench Spec Spec_numbers Spec_stats Spec_bench
  Base_proofs Value_proofs Array_proofs Float_proofs Exact_proofs Round_proofs Nearest_proofs Rounding_proofs Number_proofs Doubles_proofs Compare_proofs Stats_proofs Logic_proofs.
Import ListNotations.
Local Open Scope Z_scope.

Definition fz (n : N) : f64 := f_of_Z (Z.of_N n).
Definition small (n : N) : Prop := (n < 2 ^ 53)%N.
Lemma small_abs : forall n, small n -> Z.abs (Z.of_N n) < 2 ^ 53.
Proof. intros n L. unfold small in L. change (2 ^ 53)%N with (Z.to_N (2 ^ 53)) in L. lia. Qed.
Lemma finite_not_nan : forall x, is_finite x = true -> not_nan x.
Proof. intros [] K; try discriminate; intros E; discriminate. Qed.
Lemma fz_not_nan : forall n, not_nan (fz n).
Proof. intros n E. unfold fz in E. pose proof (normalize_rounded (Z.of_N n) 0 false) as K. fold (f_of_Z (Z.of_N n)) in K. rewrite E in K. destruct K as [_ (K & _)]. discriminate. Qed.
Lemma fz_le : forall a b, small a -> small b -> f_le (fz a) (fz b) <-> (a <= b)%N.
Proof. intros a b A B. unfold f_le, fz. rewrite f_leb_of_Z by now apply small_abs. lia. Qed.
Lemma fz_inj : forall a b, small a -> small b -> fz a = fz b -> a = b.
Proof. intros a b A B E. unfold fz in E. apply f_of_Z_inj in E; [lia| |]; now apply small_abs. Qed.
Lemma fz_largest : forall n, small n -> f_eqb (fz n) f_largest = false /\ f_leb f_largest (fz n) = false /\ f_leb (fz n) f_largest = true.
Proof. intros n L. apply small_abs in L. unfold fz. destruct (Z.of_N n) as [|p|p] eqn:E; [repeat split|rewrite f_of_Z_pos by lia|lia].
  pose proof (int_e_range p ltac:(lia)) as K. unfold f_eqb, f_leb, f_largest, SFeqb, SFleb, SFcompare.
  destruct (Z.compare_spec (int_e p) 971); try lia. rewrite (proj2 (Z.compare_gt_iff 971 (int_e p))) by lia. repeat split. Qed.

(** ** Sorting and ranks *)
Lemma map_split : forall (f : N -> f64) l a x b, map f l = a ++ x :: b -> exists l1 y l2, l = l1 ++ y :: l2 /\ map f l1 = a /\ f y = x /\ map f l2 = b.
Proof. intros f l a. revert l. induction a as [|c a IH]; intros [|z l] x b E; try discriminate; injection E as E1 E2.
  - exists [], z, l. auto.
  - apply IH in E2 as (l1 & y & l2 & -> & <- & <- & <-). exists (z :: l1), y, l2. subst. auto. Qed.
Lemma ranked_rank : forall k ms x, Forall small ms -> ranked k (map fz ms) x -> exists m, x = fz m /\ of_rank k ms m.
Proof. intros k ms x S0 (lo & hi & P & L & A & B). apply Permutation_sym in P. apply Permutation_map_inv in P as (ms' & E & P). apply Permutation_sym in P.
  symmetry in E. apply map_split in E as (l1 & y & l2 & -> & <- & <- & <-). exists y. split; [reflexivity|]. assert (S1 : Forall small (l1 ++ y :: l2)) by (rewrite Forall_forall in *; intros z I0; apply S0; eapply Permutation_in; [exact P|exact I0]).
  exists l1, l2. split; [now apply Permutation_sym|]. rewrite map_length in L. split; [assumption|]. apply Forall_app in S1 as [S1 S2]. inversion S2; subst. rewrite Forall_map in A, B. rewrite Forall_forall in S1, A, B. split; apply Forall_forall; intros z I0.
  - apply fz_le; [auto|assumption|now apply A].
  - apply fz_le; [assumption|rewrite Forall_forall in *; auto|now apply B]. Qed.
Lemma sorted_nth : forall (l : list f64) i j, StronglySorted f_le l -> (i < j < length l)%nat -> f_le (nth i l f_nan) (nth j l f_nan).
Proof. induction l as [|x l IH]; intros i j S0 L; cbn in L; [lia|]. inversion S0 as [|? ? S1 S2]; subst. destruct j as [|j]; [lia|]. destruct i as [|i]; cbn [nth]; [|apply IH; [assumption|lia]]. rewrite Forall_forall in S2. apply S2, nth_In. lia. Qed.

(** ** Positions *)
Local Open Scope Q_scope.
Lemma nearest_mono : forall x y v w, ~ overflows v -> nearest x v -> nearest y w -> v <= w -> exact x <= exact y.
Proof. intros x y v w O A B L. destruct (Qlt_le_dec (exact y) (exact x)) as [K|K]; [exfalso|exact K].
  pose proof A as (Fx & Rx & Mx & _). pose proof B as (Fy & Ry & My & _). specialize (Mx y Ry Fy). specialize (My x Rx Fx).
  assert (V : v == w).
  { revert Mx My. apply Qabs_case; intros; revert Mx My; apply Qabs_case; intros; revert Mx My; apply Qabs_case; intros; revert Mx My; apply Qabs_case; intros; lra. }
  assert (A' : nearest x w) by (eapply nearest_eq; eauto). assert (O' : ~ overflows w) by (unfold overflows in *; now rewrite <- V). pose proof (nearest_unique x y w O' A' B). lra. Qed.
Lemma rounded_mono : forall x y v w, is_finite x = true -> is_finite y = true -> rounded x v -> rounded y w -> v <= w -> exact x <= exact y.
Proof. intros x y v w Fx Fy A B L. destruct x; try discriminate; destruct A as [O A]; destruct y; try discriminate; destruct B as [_ B]; eapply nearest_mono; eauto. Qed.
Lemma trunc_floor : forall x, is_finite x = true -> 0 <= exact x -> trunc_Z x = Qfloor (exact x).
Proof. intros x F P. destruct x as [s|s| |s m e]; try discriminate; [reflexivity|]. destruct s.
  - exfalso. unfold exact, Qle in P. cbn [Qnum Qden] in P. assert (0 < 2 ^ Z.max e 0)%Z by (apply Z.pow_pos_nonneg; lia). nia.
  - unfold trunc_Z, exact, Qfloor, signed. destruct (Z.max_spec e 0) as [[K ->]|[K ->]].
    + destruct (Z.leb_spec 0 e); [lia|]. replace (Z.max (- e) 0) with (- e)%Z by lia. assert (0 < 2 ^ (- e))%Z by (apply Z.pow_pos_nonneg; lia). rewrite Z2Pos.id by assumption. change (2 ^ 0)%Z with 1%Z. rewrite Z.mul_1_r. reflexivity.
    + replace (Z.max (- e) 0) with 0%Z by lia. change (Z.to_pos (2 ^ 0)) with 1%positive. rewrite Z.div_1_r. destruct (Z.leb_spec 0 e); [reflexivity|lia]. Qed.
Definition share (p : Z) : f64 := f_div (f_of_Z p) (f_of_Z 100).
Definition place (p last : Z) : f64 := f_mul (share p) (f_of_Z last).
Lemma share_spec : forall p, (0 <= p <= 100)%Z -> is_finite (share p) = true /\ representable (share p) /\ 0 <= exact (share p) <= 1 /\ rounded (share p) (p # 100).
Proof. intros p L. destruct (of_Z_exact p ltac:(lia)) as (F1 & R1 & E1). destruct (of_Z_exact 100 ltac:(lia)) as (F2 & R2 & E2).
  assert (R : rounded (share p) (p # 100)). { eapply rounded_eq; [|apply (div_rounded (f_of_Z p) (f_of_Z 100)); [assumption|assumption|rewrite E2; discriminate]]. rewrite E1, E2. unfold Qdiv, Qinv, Qmult, inject_Z, Qeq. cbn. lia. }
  destruct (rounded_le _ _ 1 R (whole_double 1 ltac:(lia))) as (A & B & C & D); [unfold Qle; cbn; lia|unfold Qle; cbn; lia|]. auto. Qed.
Lemma place_spec : forall p last, (0 <= p <= 100)%Z -> (0 <= last < 2 ^ 53)%Z -> is_finite (place p last) = true /\ representable (place p last) /\ 0 <= exact (place p last) <= inject_Z last /\ rounded (place p last) (exact (share p) * inject_Z last).
Proof. intros p last L M. destruct (share_spec p L) as (F & R & [S0 S1] & _). destruct (of_Z_exact last ltac:(lia)) as (F1 & R1 & E1).
  assert (P : rounded (place p last) (exact (share p) * inject_Z last)). { eapply rounded_eq; [|apply (mul_rounded (share p) (f_of_Z last)); assumption]. now rewrite E1. }
  assert (N0 : 0 <= inject_Z last). { change 0 with (inject_Z 0). rewrite <- Zle_Qle. lia. }
  assert (V1 : exact (share p) * inject_Z last <= inject_Z last). { setoid_replace (inject_Z last) with (1 * inject_Z last) at 2 by ring. apply Qmult_le_compat_r; auto. }
  destruct (rounded_le _ _ _ P (whole_double last ltac:(lia)) V1) as (A & B & C & D); [now apply Qmult_le_0_compat|]. auto. Qed.
Lemma place_mono : forall p q last, (0 <= p <= q)%Z -> (q <= 100)%Z -> (0 <= last < 2 ^ 53)%Z -> exact (place p last) <= exact (place q last).
Proof. intros p q last L Q M. destruct (share_spec p ltac:(lia)) as (F1 & R1 & [A1 B1] & S1). destruct (share_spec q ltac:(lia)) as (F2 & R2 & [A2 B2] & S2).
  destruct (place_spec p last ltac:(lia) M) as (F3 & _ & _ & P1). destruct (place_spec q last ltac:(lia) M) as (F4 & _ & _ & P2).
  apply (rounded_mono _ _ _ _ F3 F4 P1 P2). apply Qmult_le_compat_r; [|change 0 with (inject_Z 0); rewrite <- Zle_Qle; lia]. apply (rounded_mono _ _ _ _ F1 F2 S1 S2). unfold Qle. cbn. lia. Qed.
Definition index_of (p last : Z) : nat := Z.to_nat (Qfloor (exact (place p last))).
Lemma index_range : forall p last, (0 <= p <= 100)%Z -> (0 <= last < 2 ^ 53)%Z -> (0 <= Qfloor (exact (place p last)) <= last)%Z.
Proof. intros p last L M. destruct (place_spec p last L M) as (_ & _ & [A B] & _). split.
  - rewrite <- (Qfloor_Z 0). now apply Qfloor_resp_le.
  - pose proof (Qfloor_resp_le _ _ B) as K. now rewrite Qfloor_Z in K. Qed.
Lemma percentile_index : forall s p, (0 <= p <= 100)%Z -> s <> [] -> (zlen s <= 2 ^ 53)%Z -> bench_percentile s (f_of_Z p) = nth (index_of p (zlen s - 1)) s f_nan.
Proof. intros s p L Ne Z0. assert (L1 : (1 <= zlen s)%Z) by (unfold zlen; destruct s; [congruence|cbn [length]; lia]). unfold bench_percentile. cbv zeta. fold (share p). fold (place p (zlen s - 1)).
  destruct (place_spec p (zlen s - 1) L ltac:(lia)) as (F & _ & [A B] & _). pose proof (index_range p (zlen s - 1) L ltac:(lia)) as K. pose proof (trunc_floor _ F A) as T.
  assert (U : f_to_usize (place p (zlen s - 1)) = Qfloor (exact (place p (zlen s - 1)))). { unfold f_to_usize. rewrite <- T in *. destruct (place p (zlen s - 1)); try discriminate; unfold f_to_int; clear - K Z0; lia. }
  rewrite U. unfold fnth, index_of. now rewrite Z.min_l by lia. Qed.
Lemma index_position : forall p n, (0 <= p <= 100)%Z -> (1 <= n)%nat -> (Z.of_nat n <= 2 ^ 53)%Z -> position p n (index_of p (Z.of_nat n - 1)).
Proof. intros p n L A B. exists (share p), (place p (Z.of_nat n - 1)). destruct (share_spec p L) as (_ & _ & _ & S0). destruct (place_spec p (Z.of_nat n - 1) L ltac:(lia)) as (_ & _ & _ & P). split; [assumption|]. split; [assumption|].
  unfold index_of. rewrite Z2Nat.id; [reflexivity|]. pose proof (index_range p (Z.of_nat n - 1) L ltac:(lia)). lia. Qed.

(** ** Least, most, mean *)
Lemma least_fold : forall l acc, not_nan acc -> Forall not_nan l -> let r := fold_left f_min l acc in In r (acc :: l) /\ Forall (f_le r) (acc :: l).
Proof. assert (Tr : forall x y z, not_nan x -> not_nan y -> not_nan z -> f_le x y -> f_le y z -> f_le x z) by (intros; eapply f_le_trans; eauto).
  induction l as [|y l IH]; intros acc Na F; cbn [fold_left]; [split; [now left|constructor; [now apply f_le_refl|constructor]]|]. inversion F as [|? ? Ny Fl]; subst.
  assert (Nm : not_nan (f_min acc y)) by (destruct (f_min_ok acc y Na Ny) as [[-> _]|[-> _]]; assumption). destruct (IH _ Nm Fl) as [I0 G]. inversion G as [|? ? G1 G2]; subst.
  assert (Nr : not_nan (fold_left f_min l (f_min acc y))) by (destruct I0 as [<-|I0]; [assumption|rewrite Forall_forall in Fl; auto]).
  destruct (f_min_ok acc y Na Ny) as [[E O]|[E O]]; rewrite E in *.
  - split; [destruct I0; [left|right; right]; assumption|]. constructor; [assumption|]. constructor; [|assumption]. eapply (Tr _ acc); eauto.
  - split; [destruct I0; [right; left|right; right]; assumption|]. constructor; [|now constructor]. eapply (Tr _ y); eauto. Qed.
Lemma most_fold : forall l acc, not_nan acc -> Forall not_nan l -> let r := fold_left f_max l acc in In r (acc :: l) /\ Forall (fun x => f_le x r) (acc :: l).
Proof. assert (Tr : forall x y z, not_nan x -> not_nan y -> not_nan z -> f_le x y -> f_le y z -> f_le x z) by (intros; eapply f_le_trans; eauto).
  induction l as [|y l IH]; intros acc Na F; cbn [fold_left]; [split; [now left|constructor; [now apply f_le_refl|constructor]]|]. inversion F as [|? ? Ny Fl]; subst.
  assert (Nm : not_nan (f_max acc y)) by (destruct (f_max_ok acc y Na Ny) as [[-> _]|[-> _]]; assumption). destruct (IH _ Nm Fl) as [I0 G]. inversion G as [|? ? G1 G2]; subst.
  assert (Nr : not_nan (fold_left f_max l (f_max acc y))) by (destruct I0 as [<-|I0]; [assumption|rewrite Forall_forall in Fl; auto]).
  destruct (f_max_ok acc y Na Ny) as [[E O]|[E O]]; rewrite E in *.
  - split; [destruct I0; [left|right; right]; assumption|]. constructor; [assumption|]. constructor; [|assumption]. eapply (Tr _ acc); eauto.
  - split; [destruct I0; [right; left|right; right]; assumption|]. constructor; [|now constructor]. eapply (Tr _ y); eauto. Qed.
Lemma not_nans : forall ms, Forall not_nan (map fz ms).
Proof. intros ms. rewrite Forall_map. apply Forall_forall. intros n _. apply fz_not_nan. Qed.
Lemma least_ms : forall ms, ms <> [] -> Forall small ms -> exists m, fold_left f_min (map fz ms) f_largest = fz m /\ In m ms /\ Forall (fun y => (m <= y)%N) ms.
Proof. intros ms Ne S0. destruct (least_fold (map fz ms) f_largest ltac:(discriminate) (not_nans ms)) as [I0 G]. inversion G as [|? ? _ G1]; subst. rewrite Forall_map in G1. rewrite Forall_forall in S0, G1.
  destruct I0 as [K|I0].
  - exfalso. destruct ms as [|m ms]; [congruence|]. specialize (G1 m (or_introl eq_refl)). rewrite <- K in G1. destruct (fz_largest m (S0 m (or_introl eq_refl))) as (_ & L & _). unfold f_le in G1. congruence.
  - apply in_map_iff in I0 as (m & E & I0). exists m. split; [now symmetry|]. split; [assumption|]. apply Forall_forall. intros y Iy. specialize (G1 y Iy). rewrite <- E in G1. apply fz_le in G1; auto. Qed.
Lemma most_ms : forall ms, ms <> [] -> Forall small ms -> exists m, fold_left f_max (map fz ms) f_zero = fz m /\ In m ms /\ Forall (fun y => (y <= m)%N) ms.
Proof. intros ms Ne S0. destruct (most_fold (map fz ms) f_zero ltac:(discriminate) (not_nans ms)) as [I0 G]. inversion G as [|? ? _ G1]; subst. rewrite Forall_map in G1. rewrite Forall_forall in S0, G1.
  assert (I1 : exists m, In m ms /\ fz m = fold_left f_max (map fz ms) f_zero).
  { destruct I0 as [K|I0]; [|apply in_map_iff in I0 as (m & E & I0); eauto]. destruct ms as [|m ms]; [congruence|]. exists m. split; [now left|]. rewrite <- K. specialize (G1 m (or_introl eq_refl)). rewrite <- K in G1. change f_zero with (fz 0) in *. apply fz_le in G1; [|auto with datatypes|reflexivity]. f_equal. lia. }
  destruct I1 as (m & Im & E). exists m. split; [now symmetry|]. split; [assumption|]. apply Forall_forall. intros y Iy. specialize (G1 y Iy). rewrite <- E in G1. apply fz_le in G1; auto. Qed.
Lemma largest_top : forall t, representable t -> is_finite t = true -> f_le f_largest t -> t = f_largest.
Proof. intros [s|s| |s m e] R F L; try discriminate. unfold f_le, f_leb, SFleb, SFcompare, f_largest in L. destruct s; [discriminate|]. unfold representable, valid_binary, bounded in R. apply andb_prop in R as [C E]. apply Z.leb_le in E. unfold emax, prec in E.
  destruct (Z.compare_spec 971 e) as [<-|K|K]; [|lia|discriminate]. unfold canonical_mantissa in C. apply Zeq_bool_eq in C. unfold fexp, prec, emin, emax in C.
  assert (D : (Zpos (digits2_pos m) <= 53)%Z) by lia. pose proof (digits2_pos_bounds m) as [_ B]. pose proof (Z.pow_le_mono_r 2 _ 53 ltac:(lia) D) as H. change (Pcompare 9007199254740991 m Eq) with (Pos.compare 9007199254740991 m) in L. destruct (Pos.compare_spec 9007199254740991 m) as [K|K|K]; [rewrite <- K; reflexivity| |discriminate]. exfalso. assert (H' : (Zpos m < 2 ^ 53)%Z) by lia. clear - K H'. change (2 ^ 53)%Z with 9007199254740992%Z in H'. lia. Qed.
Lemma least_times : forall ts, ts <> [] -> Forall (fun t => representable t /\ is_finite t = true) ts -> In (fold_left f_min ts f_largest) ts /\ Forall (f_le (fold_left f_min ts f_largest)) ts.
Proof. intros ts Ne F. assert (Nn : Forall not_nan ts) by (eapply Forall_impl; [|exact F]; intros t [_ K]; now apply finite_not_nan). destruct (least_fold ts f_largest ltac:(discriminate) Nn) as [I0 G]. inversion G as [|? ? _ G1]; subst. split; [|assumption].
  destruct I0 as [K|I0]; [|assumption]. rewrite <- K in *. destruct ts as [|t ts]; [congruence|]. inversion G1; subst. inversion F as [|? ? [R1 R2] _]; subst. left. now apply largest_top. Qed.
Lemma most_times : forall ts, ts <> [] -> Forall (fun t => f_ltb f_zero t = true) ts -> In (fold_left f_max ts f_zero) ts /\ Forall (fun t => f_le t (fold_left f_max ts f_zero)) ts.
Proof. intros ts Ne F. assert (Nn : Forall not_nan ts) by (eapply Forall_impl; [|exact F]; intros t K E; subst; discriminate). destruct (most_fold ts f_zero ltac:(discriminate) Nn) as [I0 G]. inversion G as [|? ? _ G1]; subst. split; [|assumption].
  destruct I0 as [K|I0]; [|assumption]. exfalso. rewrite <- K in G1. destruct ts as [|t ts]; [congruence|]. inversion G1 as [|? ? L _]; subst. inversion F as [|? ? L' _]; subst. unfold f_le, f_leb, f_ltb, f_zero, SFleb, SFltb, SFcompare in *. destruct t as [[]|[]| |[] m e]; discriminate. Qed.
Lemma sum_ms : forall ms acc, small (acc + total_of ms)%N -> fold_left f_add (map fz ms) (fz acc) = fz (acc + total_of ms).
Proof. induction ms as [|m ms IH]; intros acc S0; cbn [map fold_left total_of fold_right] in *; [now rewrite N.add_0_r|]. fold (total_of ms) in *.
  assert (E : f_add (fz acc) (fz m) = fz (acc + m)). { unfold fz. rewrite f_add_exact; [now rewrite N2Z.inj_add| | |]; unfold small in S0; change (2 ^ 53)%N with 9007199254740992%N in S0; change (2 ^ 53)%Z with 9007199254740992%Z; lia. }
  rewrite E, IH; [f_equal; lia|]. now rewrite <- N.add_assoc. Qed.
Lemma mean_ms : forall ms, ms <> [] -> small (total_of ms) -> (zlen ms <= 2 ^ 53)%Z -> rounded (f_div (fold_left f_add (map fz ms) f_zero) (f_of_Z (zlen (map fz ms)))) (inject_Z (Z.of_N (total_of ms)) / inject_Z (zlen ms)).
Proof. intros ms Ne S0 L. change f_zero with (fz 0). rewrite sum_ms by exact S0. assert (Lm : zlen (map fz ms) = zlen ms) by (unfold zlen; now rewrite map_length). rewrite Lm.
  assert (L1 : (1 <= zlen ms)%Z) by (unfold zlen; destruct ms; [congruence|cbn [length]; lia]).
  apply small_abs in S0. cbn [N.add] in *. destruct (of_Z_exact (Z.of_N (total_of ms)) ltac:(lia)) as (F1 & R1 & E1). destruct (of_Z_exact (zlen ms) ltac:(lia)) as (F2 & R2 & E2).
  eapply rounded_eq; [|apply div_rounded; [exact F1|exact F2|rewrite E2; unfold Qeq; cbn; lia]]. unfold fz. rewrite E1, E2. reflexivity. Qed.
