(** Lemmas about the statistical functions. *)
From Coq Require Import String List ZArith NArith QArith Qabs Qround Bool Lia Lqa Permutation Sorting.
From Coq Require Import Floats.SpecFloat.
From Verif Require Import Base Base_proofs F64 Syntax Ext Utils Arrays Stats Dispatch Registry Methods Core Evaluator
  Spec Spec_numbers Spec_stats Value_proofs Array_proofs Float_proofs Exact_proofs Round_proofs Nearest_proofs Rounding_proofs Number_proofs Doubles_proofs Compare_proofs.
Import ListNotations.

(** ** Figures *)
Lemma collect_flat : forall v, collect_nums v = figures (flatten v).
Proof.
  induction v using value_ind'; auto. simpl.
  induction H as [|x xs Hx H IH]; simpl; auto.
  unfold figures in *. rewrite flat_map_app. now rewrite Hx, IH.
Qed.
Lemma all_nums_collects : forall vs fs, collects vs fs <-> fs = all_nums vs.
Proof.
  intros vs fs. assert (E : all_nums vs = figures (flatten (VArray vs))).
  { rewrite <- collect_flat. reflexivity. }
  split.
  - intros (ls & L & ->). apply leaves_unique in L. subst. now rewrite E.
  - intros ->. exists (flatten (VArray vs)). split; auto. apply flatten_leaves.
Qed.

(** ** Ranks *)
Lemma sorted_split : forall (s : list f64) k, (k < length s)%nat -> s = firstn k s ++ nth k s f_nan :: skipn (S k) s.
Proof.
  induction s as [|x s IH]; intros [|k] H; simpl in *; try lia; auto. f_equal. apply IH. lia.
Qed.
Lemma sorted_app : forall (R : f64 -> f64 -> Prop) a m b, StronglySorted R (a ++ m :: b) ->
  Forall (fun x => R x m) a /\ Forall (R m) b.
Proof.
  intros R. induction a as [|x a IH]; simpl; intros m b H; inversion H; subst.
  - auto.
  - apply IH in H2 as [Ha Hb]. split; auto. constructor; auto. rewrite Forall_forall in H3. apply H3. apply in_elt.
Qed.
Lemma sorted_ranked : forall fs k, Forall not_nan fs -> (k < length fs)%nat -> ranked k fs (nth k (insertion_sort fs) f_nan).
Proof.
  intros fs k Hn Hk. set (s := insertion_sort fs).
  assert (P : Permutation s fs) by apply insertion_sort_perm.
  assert (L : length s = length fs) by now apply Permutation_length.
  assert (S0 : StronglySorted f_le s) by now apply insertion_sort_sorted.
  assert (E : s = firstn k s ++ nth k s f_nan :: skipn (S k) s) by (apply sorted_split; lia).
  exists (firstn k s), (skipn (S k) s). rewrite E in S0. apply sorted_app in S0 as [Ha Hb].
  repeat split; auto.
  - rewrite <- E. now symmetry.
  - rewrite firstn_length. lia.
Qed.
Lemma sort_nums_ok : forall fs, Forall not_nan fs -> sort_nums fs = Ok (insertion_sort fs).
Proof.
  intros fs H. unfold sort_nums. assert (existsb is_nan fs = false) as ->.
  { apply not_true_iff_false. intros E. apply existsb_exists in E as (x & Hin & Hx). apply is_nan_spec in Hx. subst.
    rewrite Forall_forall in H. now apply (H f_nan). }
  now rewrite andb_false_r.
Qed.
Lemma sort_nums_panics : forall fs, (2 <= length fs)%nat -> In f_nan fs -> exists m, sort_nums fs = Panic m.
Proof.
  intros fs H Hin. unfold sort_nums. apply Nat.leb_le in H. rewrite H.
  assert (existsb is_nan fs = true) as ->. { apply existsb_exists. exists f_nan. auto. }
  eexists; reflexivity.
Qed.
Lemma zlen_sort : forall fs, zlen (insertion_sort fs) = zlen fs.
Proof. intros. unfold zlen. now rewrite (Permutation_length (insertion_sort_perm fs)). Qed.

(** ** Occurrences *)
Section Counting.
  Variable dec : forall x y : f64, {x = y} + {x <> y}.
  Lemma count_bits_occ : forall x xs, count_bits x xs = count_occ dec xs x.
  Proof.
    intros x. unfold count_bits. induction xs as [|y xs IH]; auto. cbn [filter count_occ].
    destruct (dec y x) as [->|n].
    - replace (f_bits_eqb x x) with true by (symmetry; now apply f_bits_eqb_eq). simpl. now rewrite IH.
    - replace (f_bits_eqb x y) with false; auto.
      symmetry. apply not_true_iff_false. intros E. apply f_bits_eqb_eq in E. congruence.
  Qed.
  Definition best_of (all nums : list f64) : nat := fold_right (fun x m => Nat.max (count_bits x all) m) 0%nat nums.
  Lemma best_upper : forall all nums x, In x nums -> (count_bits x all <= best_of all nums)%nat.
  Proof. intros all. induction nums as [|y l IH]; simpl; intros x H; [easy|]. unfold best_of in *. destruct H as [->|H]; [lia|]. apply IH in H. lia. Qed.
  Lemma best_reached : forall all nums, nums <> [] -> exists x, In x nums /\ count_bits x all = best_of all nums.
  Proof.
    intros all. induction nums as [|y l IH]; intros H; [congruence|]. destruct l as [|z l].
    - exists y. split; simpl; auto. unfold best_of. simpl. lia.
    - destruct IH as (x & Hin & E); [discriminate|]. unfold best_of in *. cbn [fold_right] in *.
      destruct (Nat.max_spec (count_bits y all) (Nat.max (count_bits z all) (fold_right (fun x m => Nat.max (count_bits x all) m) 0%nat l))) as [[? ->]|[? ->]].
      + exists x. split; simpl in *; auto.
      + exists y. split; simpl; auto.
  Qed.
  Lemma find_split : forall (p : f64 -> bool) l x, find p l = Some x ->
    exists a b, l = a ++ x :: b /\ p x = true /\ forall y, In y a -> p y = false.
  Proof.
    intros p. induction l as [|y l IH]; simpl; intros x H; [discriminate|]. destruct (p y) eqn:E.
    - injection H as <-. exists [], l. repeat split; auto. intros ? [].
    - apply IH in H as (a & b & -> & Hx & Ha). exists (y :: a), b. repeat split; auto. intros z [<-|Hz]; auto.
  Qed.
  Lemma mode_spec : forall nums, nums <> [] -> exists a m b, mode_of nums = Some m /\ nums = a ++ m :: b
    /\ (forall x, In x nums -> (count_occ dec nums x <= count_occ dec nums m)%nat)
    /\ (forall x, In x a -> (count_occ dec nums x < count_occ dec nums m)%nat).
  Proof.
    intros nums H. unfold mode_of. fold (best_of nums nums).
    destruct (find (fun x => (count_bits x nums =? best_of nums nums)%nat) nums) as [m|] eqn:F.
    - apply find_split in F as (a & b & E & Hm & Ha). exists a, m, b. apply Nat.eqb_eq in Hm.
      repeat split; auto; intros x Hx; rewrite <- !count_bits_occ, Hm.
      + now apply best_upper.
      + assert (In x nums) by (rewrite E; apply in_or_app; auto). pose proof (best_upper nums nums x H0).
        specialize (Ha x Hx). apply Nat.eqb_neq in Ha. lia.
    - destruct (best_reached nums nums H) as (x & Hin & E). exfalso.
      apply (find_none _ _ F) in Hin. apply Nat.eqb_neq in Hin. auto.
  Qed.
End Counting.

(** ** Finite doubles with a known whole value *)
Lemma trunc_exact : forall x z, is_finite x = true -> exact x == inject_Z z -> trunc_Z x = z.
Proof.
  intros [s|s| |s m e] z F E; try discriminate.
  - unfold exact, Qeq in E. simpl in *. lia.
  - unfold trunc_Z. destruct (0 <=? e)%Z eqn:Le.
    + apply Z.leb_le in Le. rewrite exact_int in E by auto. unfold Qeq in E. simpl in E. unfold signed in E. destruct s; lia.
    + apply Z.leb_gt in Le. rewrite exact_frac in E by auto. unfold Qeq in E. simpl in E.
      assert (P : (0 < 2 ^ (- e))%Z) by (apply Z.pow_pos_nonneg; lia).
      rewrite Z2Pos.id in E by auto. unfold signed in E.
      destruct s.
      * assert (Z.pos m = (- z) * 2 ^ (- e))%Z as -> by lia. rewrite Z.div_mul by lia. lia.
      * assert (Z.pos m = z * 2 ^ (- e))%Z as -> by lia. rewrite Z.div_mul by lia. lia.
Qed.
Lemma to_int_exact : forall lo hi x z, is_finite x = true -> exact x == inject_Z z -> (lo <= z <= hi)%Z -> f_to_int lo hi x = z.
Proof.
  intros lo hi x z F E H. rewrite <- (trunc_exact x z F E) in *. destruct x; try discriminate; unfold f_to_int; lia.
Qed.

(** correct rounding stays between 0 and a double above *)
Lemma rounded_le : forall x v n, rounded x v -> is_double n -> v <= n -> (0 <= v) -> is_finite x = true /\ representable x /\ exact x <= n /\ 0 <= exact x.
Proof.
  intros x v n R (y & Ry & Fy & Ey) Hv H0.
  assert (N : nearest x v -> is_finite x = true /\ representable x /\ exact x <= n /\ 0 <= exact x).
  { intros (F & Rx & N & _). split; auto. split; auto.
    pose proof (N y Ry Fy) as A. pose proof (N (S754_zero false) eq_refl eq_refl) as B.
    assert (Z0 : exact (S754_zero false) == 0) by reflexivity.
    rewrite Ey in A. rewrite Z0 in B. set (q := exact x) in *. split.
    + destruct (Qlt_le_dec n q) as [L|L]; auto. exfalso. revert A. rewrite !Qabs_pos by lra. lra.
    + destruct (Qlt_le_dec q 0) as [L|L]; auto. exfalso. revert B. rewrite !Qabs_neg by lra. lra. }
  destruct x as [s|s| |s m e]; try (apply N, R). exfalso. destruct R as [O _]. unfold overflows in O.
  pose proof (double_bound y Ry Fy) as B. rewrite Qabs_pos in O by lra. rewrite Ey, Qabs_pos in B by lra. lra.
Qed.

(** ** Interpolation *)
Lemma floor_ceil : forall q, ~ q == inject_Z (Qfloor q) -> Qceiling q = (Qfloor q + 1)%Z.
Proof.
  intros q H. pose proof (Qfloor_le q). pose proof (Qlt_floor q). pose proof (Qle_ceiling q). pose proof (Qceiling_lt q).
  set (f := Qfloor q) in *. set (g := Qceiling q) in *.
  assert (inject_Z f < q). { apply Qle_lteq in H0 as [?|?]; auto. destruct H. now symmetry. }
  assert (f < g)%Z. { rewrite Zlt_Qlt. lra. }
  assert (g - 1 < f + 1)%Z. { rewrite Zlt_Qlt. lra. }
  lia.
Qed.
Lemma fnth_ranked : forall fs k, Forall not_nan fs -> (0 <= k < zlen fs)%Z -> ranked (Z.to_nat k) fs (fnth (insertion_sort fs) k).
Proof. intros fs k H Hk. unfold fnth. apply sorted_ranked; auto. unfold zlen in *. lia. Qed.

Definition rank_of (fs : list f64) (p : f64) : f64 := f_mul p (f_sub (f_of_Z (zlen fs)) f_one).
Lemma rank_rounded : forall fs p, fs <> [] -> (zlen fs <= 2 ^ 53)%Z -> representable p -> is_finite p = true -> 0 <= exact p -> exact p <= 1 ->
  rounded (rank_of fs p) (exact p * inject_Z (zlen fs - 1)).
Proof.
  intros fs p Ne Hl Rp Fp P0 P1. unfold rank_of.
  assert (L1 : (1 <= zlen fs)%Z). { unfold zlen. destruct fs; [congruence|]. simpl. lia. }
  destruct (of_Z_exact (zlen fs)) as (F1 & R1 & E1); [lia|].
  destruct one_exact as (F2 & R2 & E2).
  pose proof (sub_rounded (f_of_Z (zlen fs)) f_one R1 R2 F1 F2) as S0.
  apply rounded_eq with (w := inject_Z (zlen fs - 1)) in S0.
  2: { rewrite E1, E2. unfold Z.sub. rewrite inject_Z_plus. reflexivity. }
  apply rounded_exact in S0 as (F3 & R3 & E3). 2: { apply whole_double. lia. }
  eapply rounded_eq; [|apply mul_rounded; auto]. now rewrite E3.
Qed.
Lemma interpolated : forall fs p, Forall not_nan fs -> fs <> [] -> (zlen fs <= 2 ^ 53)%Z -> representable p -> is_finite p = true ->
  0 <= exact p -> exact p <= 1 ->
  let r := rank_of fs p in let k := Qfloor (exact r) in
  is_finite r = true /\ (0 <= k < zlen fs)%Z /\
  ((exact r == inject_Z k /\ ranked (Z.to_nat k) fs (interpolate (insertion_sort fs) p))
   \/ (~ exact r == inject_Z k /\ (k + 1 < zlen fs)%Z /\ exists a b, ranked (Z.to_nat k) fs a /\ ranked (S (Z.to_nat k)) fs b /\
       interpolate (insertion_sort fs) p =
         f_add (f_mul a (f_sub f_one (f_sub r (f_of_Z k)))) (f_mul b (f_sub r (f_of_Z k))))).
Proof.
  intros fs p Hn Ne Hl Rp Fp P0 P1 r k.
  assert (L1 : (1 <= zlen fs)%Z). { unfold zlen. destruct fs; [congruence|]. simpl. lia. }
  pose proof (rank_rounded fs p Ne Hl Rp Fp P0 P1) as R. fold r in R.
  assert (N0 : 0 <= inject_Z (zlen fs - 1)). { change 0 with (inject_Z 0). rewrite <- Zle_Qle. lia. }
  assert (V1 : exact p * inject_Z (zlen fs - 1) <= inject_Z (zlen fs - 1)).
  { setoid_replace (inject_Z (zlen fs - 1)) with (1 * inject_Z (zlen fs - 1)) at 2 by ring. apply Qmult_le_compat_r; auto. }
  assert (V0 : 0 <= exact p * inject_Z (zlen fs - 1)) by now apply Qmult_le_0_compat.
  destruct (rounded_le r _ _ R (whole_double (zlen fs - 1) ltac:(lia)) V1 V0) as (Fr & Rr & Ru & Rl).
  assert (K0 : (0 <= k)%Z). { unfold k. rewrite <- (Qfloor_Z 0). now apply Qfloor_resp_le. }
  assert (K1 : (k <= zlen fs - 1)%Z). { unfold k. rewrite <- (Qfloor_Z (zlen fs - 1)). now apply Qfloor_resp_le. }
  split; auto. split; [lia|].
  destruct (floor_exact r Rr Fr) as (Ff & Rf & Ef). destruct (ceil_exact r Rr Fr) as (Fc & Rc & Ec).
  unfold interpolate. rewrite !zlen_sort. fold (rank_of fs p). fold r.
  assert (T1 : f_to_usize (f_floor r) = k). { apply to_int_exact; auto. lia. }
  rewrite T1. destruct (Qeq_dec (exact r) (inject_Z k)) as [E|E].
  - left. split; auto. assert (T2 : f_to_usize (f_ceil r) = k).
    { apply to_int_exact; auto; [|lia]. rewrite Ec. rewrite (Qceiling_comp _ _ E), Qceiling_Z. reflexivity. }
    rewrite T2, Z.eqb_refl. simpl orb. replace (Z.min k (zlen fs - 1)) with k by lia. apply fnth_ranked; auto. lia.
  - right. split; auto.
    assert (C : Qceiling (exact r) = (k + 1)%Z) by now apply floor_ceil.
    assert (K2 : (k + 1 <= zlen fs - 1)%Z). { rewrite <- C. rewrite <- (Qceiling_Z (zlen fs - 1)). now apply Qceiling_resp_le. }
    split; [lia|].
    assert (T2 : f_to_usize (f_ceil r) = (k + 1)%Z).
    { apply to_int_exact; auto; [|lia]. now rewrite Ec, C. }
    rewrite T2. replace (k =? k + 1)%Z with false by (symmetry; apply Z.eqb_neq; lia).
    replace (zlen fs <=? k + 1)%Z with false by (symmetry; apply Z.leb_gt; lia). simpl orb.
    exists (fnth (insertion_sort fs) k), (fnth (insertion_sort fs) (k + 1)). split; [apply fnth_ranked; auto; lia|].
    split; [|reflexivity]. replace (S (Z.to_nat k)) with (Z.to_nat (k + 1)) by lia. apply fnth_ranked; auto. lia.
Qed.

(** ** Signs *)
Definition plus (x : f64) : Prop := match x with S754_finite s _ _ | S754_zero s | S754_infinity s => s = false | S754_nan => True end.
Lemma round_aux_plus : forall m e l, plus (binary_round_aux prec emax false m e l).
Proof.
  intros. unfold binary_round_aux. destruct (shr_fexp prec emax m e l) as [r e']. destruct (shr_fexp prec emax _ e' loc_Exact) as [r' e''].
  destruct (shr_m r'); simpl; auto. destruct (_ <=? _)%Z; simpl; auto.
Qed.
Lemma round_plus : forall m e, plus (binary_round prec emax false m e).
Proof. intros. unfold binary_round. destruct (shl_align _ _ _). apply round_aux_plus. Qed.
Lemma normalize_plus : forall m e, (0 <= m)%Z -> plus (binary_normalize prec emax m e false).
Proof. intros [|m|m] e H; simpl; auto; [apply round_plus|lia]. Qed.
Lemma add_plus : forall x y, plus x -> plus y -> plus (f_add x y).
Proof.
  intros [s1|s1| |s1 m1 e1] [s2|s2| |s2 m2 e2] H1 H2; simpl in H1, H2; subst; try exact I; try reflexivity.
  unfold f_add. cbn [SFadd]. apply normalize_plus. cbn [cond_Zopp]. lia.
Qed.
Lemma square_plus : forall x, plus (f_mul x x).
Proof. intros [[]|[]| |[] m e]; simpl; auto; apply round_aux_plus. Qed.
Lemma div_plus : forall x y, plus x -> plus y -> plus (f_div x y).
Proof.
  intros [s1|s1| |s1 m1 e1] [s2|s2| |s2 m2 e2] H1 H2; simpl in *; subst; auto. unfold f_div. cbn [SFdiv].
  destruct (SFdiv_core_binary _ _ _ _ _ _) as [[? ?] ?]. apply round_aux_plus.
Qed.
Lemma of_Z_plus : forall z, (0 <= z)%Z -> plus (f_of_Z z).
Proof. intros. unfold f_of_Z. now apply normalize_plus. Qed.
Lemma sum_plus : forall xs acc, plus acc -> Forall plus xs -> plus (fold_left f_add xs acc).
Proof. induction xs as [|x xs IH]; simpl; intros acc H F; auto. inversion F; subst. apply IH; auto. now apply add_plus. Qed.
Lemma plus_nonneg : forall x, plus x -> x = f_nan \/ f_le f_zero x.
Proof. intros [s|s| |s m e] H; simpl in H; subst; auto; right; reflexivity. Qed.
Lemma variance_mean : forall fs, fs <> [] -> variance fs = population_variance fs.
Proof.
  intros fs H. unfold variance, population_variance, mean, squared, total, f_sum, zlen. destruct fs as [|x fs]; [congruence|].
  cbn [map length]. rewrite map_length. reflexivity.
Qed.
Lemma variance_plus : forall fs, plus (variance fs).
Proof.
  intros fs. unfold variance, f_sum. apply div_plus; [|apply of_Z_plus; unfold zlen; lia]. apply sum_plus; simpl; auto.
  apply Forall_forall. intros y Hy. apply in_map_iff in Hy as (x & <- & _). apply square_plus.
Qed.

(** ** Calls *)
Section Calls.
  Context {X : Ext}.
  Lemma median_nothing : forall c es vs, uncustomised c "MEDIAN" -> evaluate_to c es vs -> collects vs [] -> eval (call "MEDIAN" es) c = Ok (num 0).
  Proof. intros c es vs Hu He Hc. apply all_nums_collects in Hc. run_builtin. change (fn_median vs = Ok (num 0)). unfold fn_median. rewrite <- Hc. reflexivity. Qed.
  Lemma median_odd : forall c es vs fs k, uncustomised c "MEDIAN" -> evaluate_to c es vs -> collects vs fs -> all_numbers fs -> length fs = (2 * k + 1)%nat ->
    exists m, eval (call "MEDIAN" es) c = Ok (VNumber m) /\ ranked k fs m.
  Proof.
    intros c es vs fs k Hu He Hc Hn Hl. apply all_nums_collects in Hc. exists (fnth (insertion_sort fs) (Z.of_nat k)). split.
    - run_builtin. change (fn_median vs = Ok (VNumber (fnth (insertion_sort fs) (Z.of_nat k)))). unfold fn_median. rewrite <- Hc.
      destruct fs as [|x fs]; [simpl in Hl; lia|]. rewrite sort_nums_ok by auto. cbn [bind]. rewrite zlen_sort. unfold zlen. rewrite Hl.
      replace (Z.of_nat (2 * k + 1)) with (2 * Z.of_nat k + 1)%Z by lia.
      rewrite Z.even_add, Z.even_mul. change (Z.even 2) with true. change (Z.even 1) with false. cbn [orb Bool.eqb]. cbv iota. replace ((2 * Z.of_nat k + 1) / 2)%Z with (Z.of_nat k) by (apply Z.div_unique with 1%Z; lia). reflexivity.
    - replace k with (Z.to_nat (Z.of_nat k)) at 1 by lia. apply fnth_ranked; auto. unfold zlen. lia.
  Qed.
  Lemma median_even : forall c es vs fs k, uncustomised c "MEDIAN" -> evaluate_to c es vs -> collects vs fs -> all_numbers fs -> length fs = (2 * k + 2)%nat ->
    exists a b, eval (call "MEDIAN" es) c = Ok (VNumber (f_div (f_add a b) (f_of_Z 2))) /\ ranked k fs a /\ ranked (S k) fs b.
  Proof.
    intros c es vs fs k Hu He Hc Hn Hl. apply all_nums_collects in Hc.
    exists (fnth (insertion_sort fs) (Z.of_nat k)), (fnth (insertion_sort fs) (Z.of_nat k + 1)). split; [|split].
    - run_builtin. change (fn_median vs = Ok (VNumber (f_div (f_add (fnth (insertion_sort fs) (Z.of_nat k)) (fnth (insertion_sort fs) (Z.of_nat k + 1))) (f_of_Z 2)))).
      unfold fn_median. rewrite <- Hc.
      destruct fs as [|x fs]; [simpl in Hl; lia|]. rewrite sort_nums_ok by auto. cbn [bind]. rewrite zlen_sort. unfold zlen. rewrite Hl.
      replace (Z.of_nat (2 * k + 2)) with (2 * (Z.of_nat k + 1))%Z by lia.
      rewrite Z.even_mul. change (Z.even 2) with true. cbn [orb]. cbv iota. rewrite Z.mul_comm, Z.div_mul by lia.
      replace (Z.of_nat k + 1 - 1)%Z with (Z.of_nat k) by lia. reflexivity.
    - replace k with (Z.to_nat (Z.of_nat k)) at 1 by lia. apply fnth_ranked; auto. unfold zlen. lia.
    - replace (S k) with (Z.to_nat (Z.of_nat k + 1)) by lia. apply fnth_ranked; auto. unfold zlen. lia.
  Qed.
  Lemma median_nan : forall c es vs fs, uncustomised c "MEDIAN" -> evaluate_to c es vs -> collects vs fs -> (2 <= length fs)%nat -> In f_nan fs ->
    exists m, eval (call "MEDIAN" es) c = Panic m.
  Proof.
    intros c es vs fs Hu He Hc Hl Hn. apply all_nums_collects in Hc. destruct (sort_nums_panics fs Hl Hn) as [m E]. exists m.
    run_builtin. change (fn_median vs = Panic m). unfold fn_median. rewrite <- Hc. destruct fs; [destruct Hn|]. now rewrite E.
  Qed.
  Lemma mode_call : forall dec name c es vs fs, In name mode_names -> uncustomised c name -> evaluate_to c es vs -> collects vs fs ->
    (fs = [] -> eval (call name es) c = Ok (num 0)) /\
    (fs <> [] -> exists a m b, eval (call name es) c = Ok (VNumber m) /\ fs = a ++ m :: b
      /\ (forall x, In x fs -> (count_occ dec fs x <= count_occ dec fs m)%nat)
      /\ (forall x, In x a -> (count_occ dec fs x < count_occ dec fs m)%nat)).
  Proof.
    intros dec name c es vs fs Hm Hu He Hc. apply all_nums_collects in Hc.
    assert (E : eval (call name es) c = fn_mode vs).
    { repeat (destruct Hm as [<-|Hm]; [run_builtin; reflexivity|]). destruct Hm. }
    rewrite E. unfold fn_mode. rewrite <- Hc. split.
    - intros ->. reflexivity.
    - intros H. destruct (mode_spec dec fs H) as (a & m & b & M & S0 & U & L). exists a, m, b. rewrite M. destruct fs; [congruence|]. auto.
  Qed.
  Lemma var_call : forall name c es vs fs, In name var_names -> uncustomised c name -> evaluate_to c es vs -> collects vs fs ->
    eval (call name es) c = Ok (VNumber (population_variance fs)) /\ (population_variance fs = f_nan \/ f_le f_zero (population_variance fs)).
  Proof.
    intros name c es vs fs Hm Hu He Hc. apply all_nums_collects in Hc.
    assert (E : eval (call name es) c = fn_varp vs).
    { repeat (destruct Hm as [<-|Hm]; [run_builtin; reflexivity|]). destruct Hm. }
    rewrite E. unfold fn_varp. rewrite <- Hc. destruct fs as [|x fs]; [split; auto; right; reflexivity|].
    rewrite variance_mean by discriminate. split; auto. rewrite <- variance_mean by discriminate. apply plus_nonneg, variance_plus.
  Qed.
  Lemma stdev_call : forall name c es vs fs, In name stdev_names -> uncustomised c name -> evaluate_to c es vs -> collects vs fs ->
    eval (call name es) c = Ok (VNumber (f_sqrt (population_variance fs))).
  Proof.
    intros name c es vs fs Hm Hu He Hc. apply all_nums_collects in Hc.
    assert (E : eval (call name es) c = fn_stdevp vs).
    { repeat (destruct Hm as [<-|Hm]; [run_builtin; reflexivity|]). destruct Hm. }
    rewrite E. unfold fn_stdevp. rewrite <- Hc. destruct fs as [|x fs]; [reflexivity|].
    now rewrite variance_mean by discriminate.
  Qed.

  Lemma last_opt_app : forall A (l : list A) x, last_opt (l ++ [x]) = Some x.
  Proof. intros A. induction l as [|y l IH]; intros x; auto. specialize (IH x). simpl. destruct (l ++ [x]) eqn:E; [destruct l; discriminate|]. exact IH. Qed.
  Lemma app_one_long : forall A (l : list A) x, l <> [] -> (length (l ++ [x]) <? 2)%nat = false.
  Proof. intros A [|y l] x H; [congruence|]. apply Nat.ltb_ge. rewrite app_length. simpl. lia. Qed.
  Lemma evaluate_snoc : forall c es vs e v, evaluate_to c es vs -> eval e c = Ok v -> evaluate_to c (es ++ [e]) (vs ++ [v]).
  Proof. intros. apply Forall2_app; auto. Qed.
  Lemma percentile_run : forall name c es e vs p, In name percentile_names -> uncustomised c name -> evaluate_to c es vs -> eval e c = Ok (VNumber p) -> es <> [] ->
    eval (call name (es ++ [e])) c =
      match all_nums vs with
      | [] => Ok (num 0)
      | _ => if f_ltb p f_zero || f_ltb f_one p then Err (err "Percentile must be between 0 and 1")
             else sorted <- sort_nums (all_nums vs) ;; Ok (VNumber (interpolate sorted p))
      end.
  Proof.
    intros name c es e vs p Hm Hu He Hp Hne. pose proof (evaluate_snoc _ _ _ _ _ He Hp) as Hs.
    assert (Hvs : vs <> []) by (intros ->; inversion He; congruence).
    assert (E : eval (call name (es ++ [e])) c = fn_percentile (vs ++ [VNumber p])).
    { repeat (destruct Hm as [<-|Hm]; [run_builtin; reflexivity|]). destruct Hm. }
    rewrite E. unfold fn_percentile. rewrite app_one_long, last_opt_app, removelast_last by auto. reflexivity.
  Qed.
  Lemma percentile_nothing : forall name c es e vs p, In name percentile_names -> uncustomised c name -> evaluate_to c es vs -> eval e c = Ok (VNumber p) -> es <> [] ->
    collects vs [] -> eval (call name (es ++ [e])) c = Ok (num 0).
  Proof. intros name c es e vs p Hm Hu He Hp Hne Hc. erewrite percentile_run by eauto. apply all_nums_collects in Hc. now rewrite <- Hc. Qed.
  Lemma percentile_call : forall name c es e vs fs p, In name percentile_names -> uncustomised c name -> evaluate_to c es vs -> eval e c = Ok (VNumber p) -> es <> [] ->
    collects vs fs -> all_numbers fs -> fs <> [] -> (Z.of_nat (length fs) <= 2 ^ 53)%Z -> representable p -> is_finite p = true ->
    ((exact p < 0 \/ 1 < exact p) -> fails (eval (call name (es ++ [e])) c)) /\
    (0 <= exact p <= 1 -> exists r k m, rounded r (exact p * inject_Z (Z.of_nat (length fs) - 1)) /\ is_finite r = true /\ k = Qfloor (exact r)
       /\ (0 <= k < Z.of_nat (length fs))%Z /\ eval (call name (es ++ [e])) c = Ok (VNumber m) /\
       (exact r == inject_Z k -> ranked (Z.to_nat k) fs m) /\
       (~ exact r == inject_Z k -> exists a b, ranked (Z.to_nat k) fs a /\ ranked (S (Z.to_nat k)) fs b /\
          m = f_add (f_mul a (f_sub (f_of_Z 1) (f_sub r (f_of_Z k)))) (f_mul b (f_sub r (f_of_Z k))))).
  Proof.
    intros name c es e vs fs p Hm Hu He Hp Hne Hc Hn Hfs Hl Rp Fp. erewrite percentile_run by eauto.
    apply all_nums_collects in Hc. rewrite <- Hc. destruct one_exact as (F1 & R1 & E1).
    pose proof (ltb_exact p f_zero Rp eq_refl Fp eq_refl) as L0. pose proof (ltb_exact f_one p R1 Rp F1 Fp) as L1.
    assert (Z0 : exact f_zero == 0) by reflexivity.
    split.
    - intros H. assert (f_ltb p f_zero || f_ltb f_one p = true) as ->.
      { apply orb_true_iff. destruct H; [left; apply L0|right; apply L1]; lra. }
      destruct fs; [congruence|]. eexists; reflexivity.
    - intros H. assert (f_ltb p f_zero || f_ltb f_one p = false) as ->.
      { apply orb_false_iff. split; apply not_true_iff_false; intros K; [apply L0 in K|apply L1 in K]; lra. }
      destruct H as [P0 P1]. rewrite sort_nums_ok by auto. cbn [bind].
      destruct (interpolated fs p Hn Hfs Hl Rp Fp P0 P1) as (Fr & Hk & D).
      exists (rank_of fs p), (Qfloor (exact (rank_of fs p))), (interpolate (insertion_sort fs) p).
      split; [now apply rank_rounded|]. split; auto. split; auto. split; auto. split; [destruct fs; [congruence|auto]|].
      destruct D as [[E D]|(E & K & D)]; split; intros H; try contradiction; auto.
  Qed.
  Lemma percentile_ends : forall name c es e vs fs, In name percentile_names -> uncustomised c name -> evaluate_to c es vs -> es <> [] ->
    collects vs fs -> all_numbers fs -> fs <> [] -> (Z.of_nat (length fs) <= 2 ^ 53)%Z ->
    (eval e c = Ok (num 0) -> exists m, eval (call name (es ++ [e])) c = Ok (VNumber m) /\ ranked 0 fs m) /\
    (eval e c = Ok (num 1) -> exists m, eval (call name (es ++ [e])) c = Ok (VNumber m) /\ ranked (length fs - 1) fs m).
  Proof.
    intros name c es e vs fs Hm Hu He Hne Hc Hn Hfs Hl.
    assert (L1 : (1 <= Z.of_nat (length fs))%Z) by (destruct fs; [congruence|simpl; lia]).
    assert (G : forall p z, eval e c = Ok (VNumber p) -> representable p -> is_finite p = true -> 0 <= exact p <= 1 ->
      exact p * inject_Z (Z.of_nat (length fs) - 1) == inject_Z z -> (0 <= z <= Z.of_nat (length fs) - 1)%Z ->
      exists m, eval (call name (es ++ [e])) c = Ok (VNumber m) /\ ranked (Z.to_nat z) fs m).
    { intros p z Hp Rp Fp B E Hz. destruct (percentile_call name c es e vs fs p) as [_ D]; auto.
      destruct (D B) as (r & k & m & R & F & K & _ & V & W & _). exists m. split; auto.
      apply rounded_eq with (w := inject_Z z) in R; auto. apply rounded_exact in R as (_ & _ & R). 2: apply whole_double; lia.
      assert (k = z). { rewrite K, (Qfloor_comp _ _ R). apply Qfloor_Z. } subst z. apply W. auto. }
    split; intros Hp.
    - change 0%nat with (Z.to_nat 0). apply (G (f_of_Z 0)); auto; try reflexivity; try lia.
      split; [unfold exact; simpl; lra|]. unfold exact; simpl; lra.
    - replace (length fs - 1)%nat with (Z.to_nat (Z.of_nat (length fs) - 1)) by lia.
      destruct one_exact as (F1 & R1 & E1). apply (G f_one); auto; try lia.
      + rewrite E1. lra.
      + rewrite E1. ring.
  Qed.
  Lemma percentile_nan : forall name c es e vs fs p, In name percentile_names -> uncustomised c name -> evaluate_to c es vs -> eval e c = Ok (VNumber p) -> es <> [] ->
    collects vs fs -> (2 <= length fs)%nat -> In f_nan fs -> representable p -> is_finite p = true -> 0 <= exact p <= 1 -> exists m, eval (call name (es ++ [e])) c = Panic m.
  Proof.
    intros name c es e vs fs p Hm Hu He Hp Hne Hc Hl Hn Rp Fp [P0 P1]. erewrite percentile_run by eauto.
    apply all_nums_collects in Hc. rewrite <- Hc. destruct one_exact as (F1 & R1 & E1).
    pose proof (ltb_exact p f_zero Rp eq_refl Fp eq_refl) as L0. pose proof (ltb_exact f_one p R1 Rp F1 Fp) as L1.
    assert (Z0 : exact f_zero == 0) by reflexivity.
    assert (f_ltb p f_zero || f_ltb f_one p = false) as ->.
    { apply orb_false_iff. split; apply not_true_iff_false; intros K; [apply L0 in K|apply L1 in K]; lra. }
    destruct (sort_nums_panics fs Hl Hn) as [m E]. exists m. destruct fs; [destruct Hn|]. now rewrite E.
  Qed.

  Lemma quartile_run : forall name c es e vs p, In name quartile_names -> uncustomised c name -> evaluate_to c es vs -> eval e c = Ok (VNumber p) -> es <> [] ->
    eval (call name (es ++ [e])) c =
      match all_nums vs with
      | [] => Ok (num 0)
      | _ => if (f_to_i32 p <? 0)%Z || (4 <? f_to_i32 p)%Z then Err (err "Quartile must be 0-4")
             else sorted <- sort_nums (all_nums vs) ;; Ok (VNumber (interpolate sorted (f_div (f_of_Z (f_to_i32 p)) (f_of_Z 4))))
      end.
  Proof.
    intros name c es e vs p Hm Hu He Hp Hne. pose proof (evaluate_snoc _ _ _ _ _ He Hp) as Hs.
    assert (Hvs : vs <> []) by (intros ->; inversion He; congruence).
    assert (E : eval (call name (es ++ [e])) c = fn_quartile (vs ++ [VNumber p])).
    { repeat (destruct Hm as [<-|Hm]; [run_builtin; reflexivity|]). destruct Hm. }
    rewrite E. unfold fn_quartile. rewrite app_one_long, last_opt_app, removelast_last by auto. reflexivity.
  Qed.
  Lemma trunc_whole_part : forall x, trunc_Z x = whole_part x.
  Proof. intros [s|s| |s m e]; auto. destruct s; auto. Qed.
  Lemma quartile_call : forall name name' c es e e' vs x q, In name quartile_names -> In name' percentile_names -> uncustomised c name -> uncustomised c name' ->
    evaluate_to c es vs -> es <> [] -> eval e c = Ok (VNumber x) -> finite x -> whole_part x = q -> (0 <= q <= 4)%Z ->
    eval e' c = Ok (VNumber (f_div (f_of_Z q) (f_of_Z 4))) ->
    eval (call name (es ++ [e])) c = eval (call name' (es ++ [e'])) c.
  Proof.
    intros name name' c es e e' vs x q Hm Hm' Hu Hu' He Hne Hx Fx Hq Hr He'.
    rewrite (quartile_run name c es e vs x) by auto. erewrite (percentile_run name' c es e' vs) by eauto.
    assert (T : f_to_i32 x = q). { rewrite <- trunc_whole_part in Hq. unfold finite in Fx. destruct x; try discriminate; unfold f_to_i32, f_to_int; lia. }
    rewrite T. replace (q <? 0)%Z with false by (symmetry; apply Z.ltb_ge; lia). replace (4 <? q)%Z with false by (symmetry; apply Z.ltb_ge; lia).
    assert (B : f_ltb (f_div (f_of_Z q) (f_of_Z 4)) f_zero || f_ltb f_one (f_div (f_of_Z q) (f_of_Z 4)) = false).
    { clear - Hr. assert (C : (q = 0 \/ q = 1 \/ q = 2 \/ q = 3 \/ q = 4)%Z) by lia. repeat destruct C as [->|C]; try subst q; reflexivity. }
    rewrite B. reflexivity.
  Qed.
  Lemma quartile_rejects : forall name c es e vs fs x, In name quartile_names -> uncustomised c name ->
    evaluate_to c es vs -> es <> [] -> collects vs fs -> fs <> [] -> eval e c = Ok (VNumber x) -> finite x -> (whole_part x < 0 \/ 4 < whole_part x)%Z ->
    fails (eval (call name (es ++ [e])) c).
  Proof.
    intros name c es e vs fs x Hm Hu He Hne Hc Hfs Hx Fx Hq. erewrite quartile_run by eauto.
    apply all_nums_collects in Hc. rewrite <- Hc.
    assert (T : (f_to_i32 x < 0 \/ 4 < f_to_i32 x)%Z). { rewrite <- trunc_whole_part in Hq. unfold finite in Fx. destruct x; try discriminate; unfold f_to_i32, f_to_int; lia. }
    assert (((f_to_i32 x <? 0)%Z || (4 <? f_to_i32 x)%Z) = true) as ->. { apply orb_true_iff. destruct T; [left|right]; now apply Z.ltb_lt. }
    destruct fs; [congruence|]. eexists; reflexivity.
  Qed.
End Calls.
