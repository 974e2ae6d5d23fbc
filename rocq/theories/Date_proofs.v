(** The calendar arithmetic. *)
From Coq Require Import String List ZArith NArith Bool Lia Znumtheory.
From Verif Require Import Base F64 Syntax Ext Dates Spec_dates.
Import ListNotations.
Local Open Scope Z_scope.

(** ** Leap years and month lengths *)
Lemma is_leap_spec : forall y, is_leap y = true <-> leap_year y.
Proof.
  intros y. unfold is_leap, leap_year. rewrite andb_true_iff, orb_true_iff, negb_true_iff, !Z.eqb_eq, Z.eqb_neq.
  assert (D : forall k, 0 < k -> (y mod k = 0 <-> (k | y))).
  { intros k Hk. split; [intros H; apply Zmod_divide; lia|intros H; apply Zdivide_mod; assumption]. }
  rewrite (D 4), (D 100), (D 400) by lia. reflexivity.
Qed.
Lemma length_of_iff : forall y m n, length_of y m n <-> 1 <= m <= 12 /\ n = days_in_month y m.
Proof.
  intros y m n. split.
  - intros H. destruct H as [m H|m H|H|H].
    + repeat (destruct H as [<-|H]; [split; [lia|reflexivity]|]). contradiction.
    + repeat (destruct H as [<-|H]; [split; [lia|reflexivity]|]). contradiction.
    + split; [lia|]. unfold days_in_month. cbn. rewrite <- is_leap_spec in H. apply not_true_is_false in H. now rewrite H.
    + split; [lia|]. unfold days_in_month. cbn. rewrite <- is_leap_spec in H. now rewrite H.
  - intros [Hm ->].
    assert (C : m = 1 \/ m = 2 \/ m = 3 \/ m = 4 \/ m = 5 \/ m = 6 \/ m = 7 \/ m = 8 \/ m = 9 \/ m = 10 \/ m = 11 \/ m = 12) by lia.
    unfold days_in_month. repeat (destruct C as [->|C]; [cbn; try (apply thirty_days; cbn; tauto); try (apply thirty_one_days; cbn; tauto)|]);
      [|subst; cbn; apply thirty_one_days; cbn; tauto].
    destruct (is_leap y) eqn:E; [apply long_february; now apply is_leap_spec|apply short_february; intros H; apply is_leap_spec in H; congruence].
Qed.
Lemma calendar_iff : forall y m d, calendar_date (y, m, d) <-> 1 <= m <= 12 /\ 1 <= d <= days_in_month y m.
Proof.
  intros y m d. unfold calendar_date. split.
  - intros (n & H & L). apply length_of_iff in H as [Hm ->]. now split.
  - intros [Hm Hd]. exists (days_in_month y m). split; [apply length_of_iff; now split|assumption].
Qed.

(** ** 400-year periods *)
Lemma leap_period : forall y k, is_leap (y + 400 * k) = is_leap y.
Proof.
  intros y k. unfold is_leap. replace (y + 400 * k) with (y + (100 * k) * 4) by ring. rewrite Z_mod_plus_full.
  replace (y + 100 * k * 4) with (y + (4 * k) * 100) by ring. rewrite Z_mod_plus_full. replace (y + 4 * k * 100) with (y + k * 400) by ring. now rewrite Z_mod_plus_full.
Qed.
Lemma length_period : forall y k m, days_in_month (y + 400 * k) m = days_in_month y m.
Proof. intros y k m. unfold days_in_month. now rewrite leap_period. Qed.
Lemma days_period : forall y k m d, days_of_civil (y + 400 * k) m d = days_of_civil y m d + 146097 * k.
Proof.
  intros y k m d. unfold days_of_civil.
  replace (if m <=? 2 then y + 400 * k - 1 else y + 400 * k) with ((if m <=? 2 then y - 1 else y) + k * 400) by (destruct (m <=? 2); ring).
  rewrite Z_mod_plus_full, Z.div_add by lia. ring.
Qed.
Lemma civil_period : forall z k, civil_of_days (z + 146097 * k) = let '(y, m, d) := civil_of_days z in (y + 400 * k, m, d).
Proof.
  intros z k. unfold civil_of_days. replace (z + 146097 * k + 719468) with (z + 719468 + k * 146097) by ring.
  rewrite Z_mod_plus_full, Z.div_add by lia.
  match goal with |- context [if ?b <=? 2 then _ else _] => destruct (b <=? 2) end; f_equal; f_equal; ring.
Qed.

(** ** Years and days inside one period *)
Fixpoint zrange (lo : Z) (n : nat) : list Z := match n with O => [] | S n => lo :: zrange (lo + 1) n end.
Lemma zrange_in : forall n lo z, lo <= z < lo + Z.of_nat n -> In z (zrange lo n).
Proof.
  induction n as [|n IH]; intros lo z H; [lia|]. cbn [zrange]. destruct (Z.eq_dec lo z) as [->|N]; [now left|]. right. apply IH. lia.
Qed.
Definition year_start (y : Z) : Z := 365 * y + y / 4 - y / 100.
Definition year_length (y : Z) : Z := if is_leap (y + 1) then 366 else 365.
Definition year_guess (doe : Z) : Z := (doe - doe / 1460 + doe / 36524 - doe / 146096) / 365.
Definition year_ok (y : Z) : bool :=
  (year_guess (year_start y) =? y) && (year_guess (year_start y + year_length y - 1) =? y)
  && (if y =? 399 then year_start y + year_length y =? 146097 else year_start (y + 1) =? year_start y + year_length y).
Lemma years_ok : forallb year_ok (zrange 0 400) = true.
Proof. vm_compute. reflexivity. Qed.
Lemma year_ok_all : forall y, 0 <= y < 400 -> year_ok y = true.
Proof. intros y H. pose proof years_ok as F. rewrite forallb_forall in F. apply F, zrange_in. lia. Qed.
Lemma guess_mono : forall a b, 0 <= a <= b -> b < 146097 -> year_guess a <= year_guess b.
Proof.
  intros a b H B. unfold year_guess. apply Z.div_le_mono; [lia|].
  pose proof (Z.div_mod a 1460 ltac:(lia)). pose proof (Z.mod_pos_bound a 1460 ltac:(lia)). pose proof (Z.div_mod b 1460 ltac:(lia)). pose proof (Z.mod_pos_bound b 1460 ltac:(lia)).
  pose proof (Z.div_mod a 36524 ltac:(lia)). pose proof (Z.mod_pos_bound a 36524 ltac:(lia)). pose proof (Z.div_mod b 36524 ltac:(lia)). pose proof (Z.mod_pos_bound b 36524 ltac:(lia)).
  pose proof (Z.div_mod a 146096 ltac:(lia)). pose proof (Z.mod_pos_bound a 146096 ltac:(lia)). pose proof (Z.div_mod b 146096 ltac:(lia)). pose proof (Z.mod_pos_bound b 146096 ltac:(lia)).
  lia.
Qed.
Lemma start_bounds : forall y, 0 <= y < 400 -> 0 <= year_start y /\ year_start y + year_length y <= 146097.
Proof.
  intros y H. pose proof (year_ok_all y H) as K. unfold year_ok in K. apply andb_true_iff in K as [_ K].
  unfold year_start, year_length in *. pose proof (Z.div_mod y 4 ltac:(lia)). pose proof (Z.mod_pos_bound y 4 ltac:(lia)). pose proof (Z.div_mod y 100 ltac:(lia)). pose proof (Z.mod_pos_bound y 100 ltac:(lia)).
  destruct (Z.eqb_spec y 399).
  - apply Z.eqb_eq in K. destruct (is_leap (y + 1)); lia.
  - split; [lia|]. destruct (is_leap (y + 1)); lia.
Qed.
Lemma guess_year : forall y doy, 0 <= y < 400 -> 0 <= doy < year_length y -> year_guess (year_start y + doy) = y.
Proof.
  intros y doy H B. pose proof (start_bounds y H) as [S1 S2]. pose proof (year_ok_all y H) as K. unfold year_ok in K. apply andb_true_iff in K as [K _]. apply andb_true_iff in K as [A C].
  apply Z.eqb_eq in A, C. pose proof (guess_mono (year_start y) (year_start y + doy) ltac:(lia) ltac:(lia)). pose proof (guess_mono (year_start y + doy) (year_start y + year_length y - 1) ltac:(lia) ltac:(lia)). lia.
Qed.
Lemma find_year : forall doe, 0 <= doe < 146097 -> exists y doy, 0 <= y < 400 /\ 0 <= doy < year_length y /\ doe = year_start y + doy.
Proof.
  intros doe H.
  assert (F : forall n : nat, Z.of_nat n < 400 -> doe < year_start (Z.of_nat n) + year_length (Z.of_nat n) -> exists y doy, 0 <= y < 400 /\ 0 <= doy < year_length y /\ doe = year_start y + doy).
  { induction n as [|n IH]; intros B D.
    - exists 0, doe. change (year_start 0) with 0. change (year_start (Z.of_nat 0)) with 0 in D. change (Z.of_nat 0) with 0 in D. lia.
    - destruct (Z.le_gt_cases (year_start (Z.of_nat (S n))) doe) as [L|L].
      + exists (Z.of_nat (S n)), (doe - year_start (Z.of_nat (S n))). lia.
      + apply IH; [lia|]. pose proof (year_ok_all (Z.of_nat n) ltac:(lia)) as K. unfold year_ok in K. apply andb_true_iff in K as [_ K].
        destruct (Z.eqb_spec (Z.of_nat n) 399); [lia|]. apply Z.eqb_eq in K. rewrite Nat2Z.inj_succ in L. unfold Z.succ in L. lia. }
  apply (F 399%nat); [lia|]. pose proof (year_ok_all 399 ltac:(lia)) as K. unfold year_ok in K. apply andb_true_iff in K as [_ K]. change (399 =? 399) with true in K. apply Z.eqb_eq in K.
  change (Z.of_nat 399) with 399. lia.
Qed.

(** month and day of a day counted from the first of March *)
Definition month_of (doy : Z) : Z := let mp := (5 * doy + 2) / 153 in if mp <? 10 then mp + 3 else mp - 9.
Definition mday_of (doy : Z) : Z := doy - (153 * ((5 * doy + 2) / 153) + 2) / 5 + 1.
Definition day_index (m d : Z) : Z := (153 * ((m + 9) mod 12) + 2) / 5 + d - 1.
Definition month_length (l : bool) (m : Z) : Z := if m =? 2 then (if l then 29 else 28) else if (m =? 4) || (m =? 6) || (m =? 9) || (m =? 11) then 30 else 31.
Definition doy_ok (l : bool) (doy : Z) : bool :=
  let m := month_of doy in let d := mday_of doy in
  (1 <=? m) && (m <=? 12) && (1 <=? d) && (d <=? month_length l m) && (day_index m d =? doy)
  && (if doy =? (if l then 365 else 364) then (m =? 2) && (d =? month_length l 2)
      else if d <? month_length l m then (month_of (doy + 1) =? m) && (mday_of (doy + 1) =? d + 1)
      else negb (m =? 2) && (month_of (doy + 1) =? (if m =? 12 then 1 else m + 1)) && (mday_of (doy + 1) =? 1)).
Lemma doys_ok : forallb (doy_ok true) (zrange 0 366) && forallb (doy_ok false) (zrange 0 365) = true.
Proof. vm_compute. reflexivity. Qed.
Definition index_ok (l : bool) (m d : Z) : bool :=
  let i := day_index m d in (0 <=? i) && (i <? (if l then 366 else 365)) && (month_of i =? m) && (mday_of i =? d).
Lemma indexes_ok : forallb (fun l => forallb (fun m => forallb (index_ok l m) (zrange 1 (Z.to_nat (month_length l m)))) (zrange 1 12)) [true; false] = true.
Proof. vm_compute. reflexivity. Qed.
Lemma doy_ok_all : forall (l : bool) doy, 0 <= doy < (if l then 366 else 365) -> doy_ok l doy = true.
Proof. intros l doy H. pose proof doys_ok as F. apply andb_true_iff in F as [A B]. rewrite forallb_forall in A, B. destruct l; [apply A|apply B]; apply zrange_in; lia. Qed.
Lemma index_ok_all : forall l m d, 1 <= m <= 12 -> 1 <= d <= month_length l m -> index_ok l m d = true.
Proof.
  intros l m d Hm Hd. pose proof indexes_ok as F. rewrite forallb_forall in F. assert (I : In l [true; false]) by (destruct l; cbn; tauto); specialize (F l I). cbv beta in F. rewrite forallb_forall in F.
  specialize (F m ltac:(apply zrange_in; lia)). cbv beta in F. rewrite forallb_forall in F. apply F, zrange_in. rewrite Z2Nat.id by lia. lia.
Qed.

(** the civil year of a month in the March-based year [y] of period [k] *)
Definition civil_year (y k m : Z) : Z := if m <=? 2 then y + 400 * k + 1 else y + 400 * k.
Lemma civil_parts : forall y doy k, 0 <= y < 400 -> 0 <= doy < year_length y ->
  civil_of_days (year_start y + doy - 719468 + 146097 * k) = (civil_year y k (month_of doy), month_of doy, mday_of doy).
Proof.
  intros y doy k Hy Hd. pose proof (start_bounds y Hy) as [S1 S2]. unfold civil_of_days. replace (year_start y + doy - 719468 + 146097 * k + 719468) with (year_start y + doy + k * 146097) by ring.
  rewrite Z_mod_plus_full, Z.div_add, (Z.mod_small (year_start y + doy)), (Z.div_small (year_start y + doy) 146097) by lia. cbv zeta.
  fold (year_guess (year_start y + doy)). rewrite (guess_year y doy Hy Hd). fold (year_start y). replace (year_start y + doy - year_start y) with doy by ring.
  fold (mday_of doy). change (if (5 * doy + 2) / 153 <? 10 then (5 * doy + 2) / 153 + 3 else (5 * doy + 2) / 153 - 9) with (month_of doy).
  unfold civil_year. destruct (month_of doy <=? 2); f_equal; f_equal; ring.
Qed.
Lemma days_parts : forall y k m d, 0 <= y < 400 -> days_of_civil (civil_year y k m) m d = year_start y + day_index m d - 719468 + 146097 * k.
Proof.
  intros y k m d H. unfold days_of_civil, civil_year. replace (if m <=? 2 then (if m <=? 2 then y + 400 * k + 1 else y + 400 * k) - 1 else if m <=? 2 then y + 400 * k + 1 else y + 400 * k) with (y + k * 400) by (destruct (m <=? 2); ring).
  rewrite Z_mod_plus_full, Z.div_add, (Z.mod_small y), (Z.div_small y 400) by lia. cbv zeta. unfold year_start, day_index. ring.
Qed.
Lemma length_parts : forall y k m, 1 <= m <= 12 -> days_in_month (civil_year y k m) m = month_length (is_leap (y + 1)) m.
Proof.
  intros y k m H. unfold days_in_month, month_length, civil_year. destruct (Z.eqb_spec m 2) as [->|N]; [|reflexivity]. change (2 <=? 2) with true. cbv iota.
  replace (y + 400 * k + 1) with (y + 1 + 400 * k) by ring. now rewrite leap_period.
Qed.
Lemma split_period : forall z p, 0 < p -> exists r k, z = r + p * k /\ 0 <= r < p.
Proof. intros z p Hp. exists (z mod p), (z / p). split; [rewrite Z.add_comm; apply Z.div_mod; lia|now apply Z.mod_pos_bound]. Qed.
Lemma find_parts : forall z, exists y doy k, 0 <= y < 400 /\ 0 <= doy < year_length y /\ z = year_start y + doy - 719468 + 146097 * k.
Proof.
  intros z. destruct (split_period (z + 719468) 146097 ltac:(lia)) as (r & k & E & Hr). destruct (find_year r Hr) as (y & doy & Hy & Hd & ->). exists y, doy, k. split; [assumption|]. split; [assumption|]. lia.
Qed.
Lemma doy_facts : forall y doy, 0 <= doy < year_length y -> doy_ok (is_leap (y + 1)) doy = true.
Proof. intros y doy H. apply doy_ok_all. unfold year_length in H. exact H. Qed.
Lemma civil_valid : forall z, let '(y, m, d) := civil_of_days z in calendar_date (y, m, d) /\ days_of_civil y m d = z.
Proof.
  intros z. destruct (find_parts z) as (y & doy & k & Hy & Hd & ->). rewrite civil_parts by assumption. rewrite days_parts by assumption.
  pose proof (doy_facts y doy Hd) as K. unfold doy_ok in K. apply andb_true_iff in K as [K _]. repeat (apply andb_true_iff in K as [K ?K]).
  apply Z.leb_le in K, K3, K2, K1. apply Z.eqb_eq in K0. rewrite calendar_iff, length_parts by lia. rewrite K0. lia.
Qed.
Lemma tomorrow_parts : forall y k doy, 0 <= y < 400 -> 0 <= doy < year_length y -> doy + 1 < year_length y ->
  tomorrow (civil_year y k (month_of doy), month_of doy, mday_of doy) (civil_year y k (month_of (doy + 1)), month_of (doy + 1), mday_of (doy + 1)).
Proof.
  intros y k doy Hy Hd Hn. pose proof (doy_facts y doy Hd) as K. unfold doy_ok in K. apply andb_true_iff in K as [K L]. repeat (apply andb_true_iff in K as [K ?K]).
  apply Z.leb_le in K, K3, K2, K1. unfold year_length in Hn. destruct (Z.eqb_spec doy (if is_leap (y + 1) then 365 else 364)); [destruct (is_leap (y + 1)); lia|].
  pose proof (length_parts y k (month_of doy) ltac:(lia)) as E. destruct (Z.ltb_spec (mday_of doy) (month_length (is_leap (y + 1)) (month_of doy))) as [B|B].
  - apply andb_true_iff in L as [L1 L2]. apply Z.eqb_eq in L1, L2. rewrite L1, L2. apply within_month with (month_length (is_leap (y + 1)) (month_of doy)); [apply length_of_iff; split; [lia|now symmetry]|lia].
  - apply andb_true_iff in L as [L L3]. apply andb_true_iff in L as [L1 L2]. apply Z.eqb_eq in L2, L3. apply negb_true_iff, Z.eqb_neq in L1. rewrite L2, L3.
    assert (mday_of doy = month_length (is_leap (y + 1)) (month_of doy)) as -> by lia. unfold civil_year at 2. destruct (Z.eqb_spec (month_of doy) 12) as [E12|N12].
    + rewrite E12. unfold civil_year. change (12 <=? 2) with false. change (1 <=? 2) with true. cbv iota. change (month_length (is_leap (y + 1)) 12) with 31. apply new_year.
    + replace (if month_of doy + 1 <=? 2 then y + 400 * k + 1 else y + 400 * k) with (civil_year y k (month_of doy)).
      * apply next_month; [apply length_of_iff; split; [lia|now symmetry]|lia].
      * unfold civil_year. destruct (Z.leb_spec (month_of doy) 2), (Z.leb_spec (month_of doy + 1) 2); try reflexivity; lia.
Qed.
Lemma march_first : month_of 0 = 3 /\ mday_of 0 = 1.
Proof. split; reflexivity. Qed.
Lemma tomorrow_turn : forall y k, 0 <= y < 400 ->
  tomorrow (civil_year y k (month_of (year_length y - 1)), month_of (year_length y - 1), mday_of (year_length y - 1)) (y + 1 + 400 * k, 3, 1).
Proof.
  intros y k Hy. assert (B : 0 <= year_length y - 1 < year_length y) by (unfold year_length; destruct (is_leap (y + 1)); lia). pose proof (doy_facts y _ B) as K. unfold doy_ok in K. apply andb_true_iff in K as [_ L].
  replace (year_length y - 1 =? (if is_leap (y + 1) then 365 else 364)) with true in L by (unfold year_length; destruct (is_leap (y + 1)); reflexivity).
  apply andb_true_iff in L as [L1 L2]. apply Z.eqb_eq in L1, L2. rewrite L1, L2. pose proof (length_parts y k 2 ltac:(lia)) as E. unfold civil_year in *. change (2 <=? 2) with true in *. cbv iota in *.
  replace (y + 1 + 400 * k) with (y + 400 * k + 1) by ring. apply (next_month (y + 400 * k + 1) 2 (month_length (is_leap (y + 1)) 2)); [apply length_of_iff; split; [lia|now symmetry]|lia].
Qed.
Lemma civil_next : forall z, tomorrow (civil_of_days z) (civil_of_days (z + 1)).
Proof.
  intros z. destruct (find_parts z) as (y & doy & k & Hy & Hd & ->). rewrite civil_parts by assumption. destruct (Z.eq_dec (doy + 1) (year_length y)) as [E|N].
  - assert (doy = year_length y - 1) as -> by lia. destruct (Z.eq_dec y 399) as [->|N].
    + replace (year_start 399 + (year_length 399 - 1) - 719468 + 146097 * k + 1) with (year_start 0 + 0 - 719468 + 146097 * (k + 1)) by (change (year_length 399) with 366; change (year_start 399) with 145731; change (year_start 0) with 0; ring).
      rewrite civil_parts; [|lia|unfold year_length; destruct (is_leap (0 + 1)); lia]. destruct march_first as [-> ->]. unfold civil_year at 2. change (3 <=? 2) with false. cbv iota.
      replace (0 + 400 * (k + 1)) with (399 + 1 + 400 * k) by ring. now apply tomorrow_turn.
    + pose proof (year_ok_all y Hy) as K. unfold year_ok in K. apply andb_true_iff in K as [_ K]. destruct (Z.eqb_spec y 399); [contradiction|]. apply Z.eqb_eq in K.
      replace (year_start y + (year_length y - 1) - 719468 + 146097 * k + 1) with (year_start (y + 1) + 0 - 719468 + 146097 * k) by lia.
      rewrite civil_parts; [|lia|unfold year_length; destruct (is_leap (y + 1 + 1)); lia]. destruct march_first as [-> ->]. unfold civil_year at 2. change (3 <=? 2) with false. cbv iota. now apply tomorrow_turn.
  - replace (year_start y + doy - 719468 + 146097 * k + 1) with (year_start y + (doy + 1) - 719468 + 146097 * k) by ring. rewrite civil_parts by lia. apply tomorrow_parts; lia.
Qed.
Lemma days_civil : forall y m d, calendar_date (y, m, d) -> civil_of_days (days_of_civil y m d) = (y, m, d).
Proof.
  intros y m d H. apply calendar_iff in H as [Hm Hd]. destruct (split_period (if m <=? 2 then y - 1 else y) 400 ltac:(lia)) as (r & k & E & Hr).
  assert (y = civil_year r k m) as -> by (unfold civil_year; destruct (m <=? 2); lia). rewrite length_parts in Hd by assumption. rewrite days_parts by assumption.
  pose proof (index_ok_all _ _ _ Hm Hd) as K. unfold index_ok in K. repeat (apply andb_true_iff in K as [K ?K]). apply Z.leb_le in K. apply Z.ltb_lt in K2. apply Z.eqb_eq in K1, K0.
  rewrite civil_parts; [|assumption|unfold year_length; lia]. now rewrite K1, K0.
Qed.

(** ** The day count is the calendar's *)
Lemma number_up : forall n, day_number (civil_of_days (Z.of_nat n)) (Z.of_nat n).
Proof. induction n as [|n IH]; [apply epoch|]. rewrite Nat2Z.inj_succ. unfold Z.succ. apply (later (civil_of_days (Z.of_nat n))); [assumption|apply civil_next]. Qed.
Lemma number_down : forall n, day_number (civil_of_days (- Z.of_nat n)) (- Z.of_nat n).
Proof.
  induction n as [|n IH]; [apply epoch|]. rewrite Nat2Z.inj_succ. replace (- Z.succ (Z.of_nat n)) with (- Z.of_nat n - 1) by lia.
  apply (earlier (civil_of_days (- Z.of_nat n))); [assumption|]. pose proof (civil_next (- Z.of_nat n - 1)) as T. now replace (- Z.of_nat n - 1 + 1) with (- Z.of_nat n) in T by lia.
Qed.
Lemma civil_number : forall z, day_number (civil_of_days z) z.
Proof.
  intros z. destruct (Z.le_gt_cases 0 z) as [H|H].
  - rewrite <- (Z2Nat.id z H). apply number_up.
  - replace z with (- Z.of_nat (Z.to_nat (- z))) by (rewrite Z2Nat.id; lia). apply number_down.
Qed.
Lemma tomorrow_valid : forall x x', tomorrow x x' -> calendar_date x /\ calendar_date x'.
Proof.
  intros x x' H. destruct H as [y m d n L D|y m n L M|y]; rewrite !calendar_iff; try (apply length_of_iff in L as [Lm ->]).
  - split; split; lia.
  - assert (G : forall a b, 28 <= days_in_month a b).
    { intros a b. unfold days_in_month. destruct (b =? 2); [destruct (is_leap a); lia|]. match goal with |- context [if ?c then _ else _] => destruct c end; lia. }
    pose proof (G y m). pose proof (G y (m + 1)). lia.
  - cbn. lia.
Qed.
Lemma tomorrow_days : forall y m d y' m' d', tomorrow (y, m, d) (y', m', d') -> days_of_civil y' m' d' = days_of_civil y m d + 1.
Proof.
  intros y m d y' m' d' H. destruct (tomorrow_valid _ _ H) as [V V'].
  pose proof (civil_next (days_of_civil y m d)) as T. rewrite (days_civil _ _ _ V) in T.
  assert (U : forall a b c, tomorrow a b -> tomorrow a c -> b = c).
  { clear. intros a b c A B. destruct A as [y m d n L D|y m n L M|y]; inversion B; subst; try reflexivity;
      repeat match goal with H : length_of _ _ _ |- _ => apply length_of_iff in H as [? ?]; subst end; try (cbn in *; lia). }
  pose proof (U _ _ _ H T) as E. pose proof (civil_valid (days_of_civil y m d + 1)) as W. rewrite <- E in W. apply W.
Qed.
Lemma day_number_days : forall x n, day_number x n -> let '(y, m, d) := x in calendar_date x /\ days_of_civil y m d = n.
Proof.
  intros x n H. induction H as [|x x' n H IH T|x x' n H IH T].
  - split; [rewrite calendar_iff; cbn; lia|reflexivity].
  - destruct x as [[y m] d], x' as [[y' m'] d']. destruct IH as [V <-]. split; [apply (tomorrow_valid _ _ T)|now apply tomorrow_days].
  - destruct x as [[y m] d], x' as [[y' m'] d']. destruct IH as [V <-]. split; [apply (tomorrow_valid _ _ T)|]. apply tomorrow_days in T. lia.
Qed.
Lemma day_number_iff : forall y m d n, day_number (y, m, d) n <-> calendar_date (y, m, d) /\ days_of_civil y m d = n.
Proof.
  intros y m d n. split; [apply (day_number_days (y, m, d))|]. intros [V <-]. pose proof (civil_number (days_of_civil y m d)) as C. now rewrite (days_civil _ _ _ V) in C.
Qed.
Lemma day_number_civil : forall x n, day_number x n <-> civil_of_days n = x.
Proof.
  intros [[y m] d] n. rewrite day_number_iff. split; [intros [V <-]; now apply days_civil|]. intros E. pose proof (civil_valid n) as C. now rewrite E in C.
Qed.

(** ** The representable range *)
Lemma tomorrow_year : forall y m d y' m' d', tomorrow (y, m, d) (y', m', d') -> y <= y'.
Proof. intros y m d y' m' d' H. inversion H; lia. Qed.
Definition year_of (z : Z) : Z := fst (fst (civil_of_days z)).
Lemma year_step : forall z, year_of z <= year_of (z + 1).
Proof.
  intros z. pose proof (civil_next z) as T. unfold year_of. destruct (civil_of_days z) as [[y m] d], (civil_of_days (z + 1)) as [[y' m'] d'].
  now apply tomorrow_year in T.
Qed.
Lemma year_mono_nat : forall n z, year_of z <= year_of (z + Z.of_nat n).
Proof.
  induction n as [|n IH]; intros z; [rewrite Z.add_0_r; lia|]. rewrite Nat2Z.inj_succ. replace (z + Z.succ (Z.of_nat n)) with (z + Z.of_nat n + 1) by lia.
  pose proof (IH z). pose proof (year_step (z + Z.of_nat n)). lia.
Qed.
Lemma year_mono : forall a b, a <= b -> year_of a <= year_of b.
Proof. intros a b H. pose proof (year_mono_nat (Z.to_nat (b - a)) a) as K. rewrite Z2Nat.id in K by lia. now replace (a + (b - a)) with b in K by lia. Qed.
Lemma range_days : forall z, (min_day <=? z) && (z <=? max_day) = true <-> year_in_range (year_of z).
Proof.
  intros z. rewrite andb_true_iff, !Z.leb_le. unfold year_in_range. split.
  - intros [A B]. apply year_mono in A, B. change (year_of min_day) with (-262143) in A. change (year_of max_day) with 262142 in B. lia.
  - intros [A B]. split.
    + destruct (Z.le_gt_cases min_day z) as [|H]; [assumption|]. assert (L : z <= min_day - 1) by lia. apply year_mono in L. change (year_of (min_day - 1)) with (-262144) in L. lia.
    + destruct (Z.le_gt_cases z max_day) as [|H]; [assumption|]. assert (L : max_day + 1 <= z) by lia. apply year_mono in L. change (year_of (max_day + 1)) with 262143 in L. lia.
Qed.
Lemma valid_date_iff : forall y m d, valid_date y m d = true <-> year_in_range y /\ calendar_date (y, m, d).
Proof.
  intros y m d. unfold valid_date, year_in_range, min_year, max_year. rewrite calendar_iff, !andb_true_iff, !Z.leb_le. lia.
Qed.
(** [from_timestamp] *)
Lemma instant_iff : forall t x s, instant t x s <-> from_timestamp t = Some (t / 86400, s) /\ civil_of_days (t / 86400) = x.
Proof.
  intros t [[y m] d] s. unfold instant, from_timestamp. split.
  - intros (Y & R & n & N & ->). assert (D : (86400 * n + s) / 86400 = n) by (symmetry; apply (Z.div_unique_pos _ _ _ s); lia).
    assert (M : (86400 * n + s) mod 86400 = s) by (symmetry; apply (Z.mod_unique_pos _ _ n); lia). rewrite D, M. apply day_number_civil in N.
    split; [|assumption]. replace ((min_day <=? n) && (n <=? max_day)) with true; [reflexivity|]. symmetry. apply range_days. unfold year_of. now rewrite N.
  - intros [F C]. destruct ((min_day <=? t / 86400) && (t / 86400 <=? max_day)) eqn:R; [|discriminate]. injection F as <-.
    apply range_days in R. unfold year_of in R. rewrite C in R. split; [assumption|]. split; [apply Z.mod_pos_bound; lia|]. exists (t / 86400). split; [now apply day_number_civil|].
    apply Z.div_mod. lia.
Qed.
Lemma on_calendar_iff : forall t, on_calendar t <-> exists s, from_timestamp t = Some (t / 86400, s).
Proof.
  intros t. split; [intros (x & s & H); apply instant_iff in H as [H _]; eauto|]. intros (s & H). exists (civil_of_days (t / 86400)), s. now apply instant_iff.
Qed.
Lemma from_timestamp_off : forall t, ~ on_calendar t -> from_timestamp t = None.
Proof.
  intros t H. destruct (from_timestamp t) as [p|] eqn:E; [|reflexivity]. exfalso. apply H. apply on_calendar_iff. unfold from_timestamp in *.
  destruct ((min_day <=? t / 86400) && (t / 86400 <=? max_day)); [|discriminate]. eauto.
Qed.
Lemma on_calendar_range : forall t, on_calendar t <-> -8334601228800 <= t <= 8210266876799.
Proof.
  intros t. rewrite on_calendar_iff. unfold from_timestamp.
  change (-8334601228800) with (min_day * 86400). change 8210266876799 with (max_day * 86400 + 86399).
  assert (H := Z.div_mod t 86400 ltac:(lia)). assert (R := Z.mod_pos_bound t 86400 ltac:(lia)). 
  destruct ((min_day <=? t / 86400) && (t / 86400 <=? max_day)) eqn:E.
  - apply andb_true_iff in E as [A B]. apply Z.leb_le in A, B. split; [intros _; lia|eauto].
  - split; [intros (s & ?); discriminate|]. intros K. apply andb_false_iff in E. rewrite !Z.leb_gt in E. lia.
Qed.
