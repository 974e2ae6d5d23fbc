(** DATE, YEAR, MONTH, DAY, DATEADD, DATEDIFF. *)
From Coq Require Import String List ZArith NArith Bool Lia.
From Verif Require Import Base F64 Syntax Ext Utils Dates Registry Dispatch Core Evaluator Api Spec Spec_dates Base_proofs Float_proofs Exact_proofs Value_proofs Date_proofs.
Import ListNotations.
Local Open Scope Z_scope.

Lemma to_int_exact : forall lo hi z, Z.abs z < 2 ^ 53 -> f_to_int lo hi (f_of_Z z) = Z.max lo (Z.min hi z).
Proof.
  intros lo hi z H. destruct (Z.eq_dec z 0) as [->|N]; [reflexivity|]. pose proof (trunc_of_Z z H) as T.
  destruct (f_of_Z_form z H N) as (m & e & E & _). rewrite E in *. cbn [f_to_int]. now rewrite T.
Qed.
Lemma unit_lower : forall `{X : Ext} u k, map lower_ascii u = k -> forallb is_ascii k = true -> to_lowercase u = k.
Proof.
  intros X u k E A. unfold to_lowercase. generalize ([] : str). subst k. induction u as [|c u IH]; intros b; [reflexivity|]. cbn [map forallb] in A. apply andb_true_iff in A as [A B].
  cbn [lower_from map]. rewrite IH by assumption. assert (L : (c < 128)%N).
  { unfold lower_ascii in A. destruct (is_upper_ascii c) eqn:U; [|now apply N.ltb_lt]. unfold is_upper_ascii in U. apply andb_true_iff in U as [_ U]. apply N.leb_le in U. lia. }
  destruct (N.eqb_spec c 931); [lia|]. unfold lower_char, is_ascii. replace (c <? 128)%N with true by (symmetry; now apply N.ltb_lt). reflexivity.
Qed.
Lemma fixed_unit : forall k len, In (k, len) fixed_units -> forallb is_ascii (lit k) = true /\ 1 <= len <= 604800 /\
  exists u, unit_of (lit k) = Some u /\ len = match u with UDays => 86400 | UHours => 3600 | UMinutes => 60 | USeconds => 1 | UWeeks => 604800 | _ => 0 end.
Proof.
  intros k len H. repeat (destruct H as [H|H]; [injection H as <- <-; split; [reflexivity|split; [lia|eexists; split; reflexivity]]|]). contradiction.
Qed.
Lemma month_unit : forall k n, In (k, n) month_units -> forallb is_ascii (lit k) = true /\ (unit_of (lit k) = Some UMonths /\ n = 1 \/ unit_of (lit k) = Some UYears /\ n = 12).
Proof.
  intros k n H. repeat (destruct H as [H|H]; [injection H as <- <-; split; [reflexivity|first [left; split; reflexivity | right; split; reflexivity]]|]). contradiction.
Qed.

Section DateFns.
  Context {X : Ext}.
  Lemma date_run : forall c es y m d, uncustomised c "DATE" -> evaluate_to c es [VNumber y; VNumber m; VNumber d] ->
    eval (call "DATE" es) c =
      match from_ymd_opt (f_to_i32 y) (f_to_u32 m) (f_to_u32 d) with Some day => Ok (VDateTime (day * 86400)) | None => Err (err "Invalid date") end.
  Proof.
    intros c es y m d Hu He. run_builtin.
    change (bind (ok_or (from_ymd_opt (f_to_i32 y) (f_to_u32 m) (f_to_u32 d)) (err "Invalid date")) (fun day => Ok (VDateTime (timestamp (day, 0)))) =
      match from_ymd_opt (f_to_i32 y) (f_to_u32 m) (f_to_u32 d) with Some day => Ok (VDateTime (day * 86400)) | None => Err (err "Invalid date") end).
    destruct (from_ymd_opt (f_to_i32 y) (f_to_u32 m) (f_to_u32 d)); [|reflexivity]. cbn [bind ok_or]. unfold timestamp. cbn [fst snd]. now rewrite Z.add_0_r.
  Qed.
  Lemma clamp_valid : forall y m d, Z.abs y < 2 ^ 53 -> Z.abs m < 2 ^ 53 -> Z.abs d < 2 ^ 53 ->
    from_ymd_opt (f_to_i32 (f_of_Z y)) (f_to_u32 (f_of_Z m)) (f_to_u32 (f_of_Z d)) = if valid_date y m d then Some (days_of_civil y m d) else None.
  Proof.
    intros y m d Hy Hm Hd. unfold f_to_i32, f_to_u32. rewrite !to_int_exact by assumption. set (y' := Z.max (- 2 ^ 31) (Z.min (2 ^ 31 - 1) y)).
    set (m' := Z.max 0 (Z.min (2 ^ 32 - 1) m)). set (d' := Z.max 0 (Z.min (2 ^ 32 - 1) d)). unfold from_ymd_opt.
    assert (L : forall a b, days_in_month a b <= 31).
    { intros a b. unfold days_in_month. destruct (b =? 2); [destruct (is_leap a); lia|]. match goal with |- context [if ?c then _ else _] => destruct c end; lia. }
    destruct (valid_date y m d) eqn:V.
    - apply valid_date_iff in V as [Y C]. apply calendar_iff in C as [M D]. pose proof (L y m). unfold year_in_range in Y.
      assert (y' = y) as -> by (unfold y'; lia). assert (m' = m) as -> by (unfold m'; lia). assert (d' = d) as -> by (unfold d'; lia).
      replace (valid_date y m d) with true; [reflexivity|]. symmetry. apply valid_date_iff. split; [assumption|]. now apply calendar_iff.
    - destruct (valid_date y' m' d') eqn:V'; [|reflexivity]. exfalso. apply valid_date_iff in V' as [Y C]. apply calendar_iff in C as [M D]. pose proof (L y' m'). unfold year_in_range in Y.
      assert (E1 : y' = y) by (unfold y' in *; lia). assert (E2 : m' = m) by (unfold m' in *; lia). assert (E3 : d' = d) by (unfold d' in *; lia).
      rewrite E1, E2, E3 in *. assert (K : valid_date y m d = true) by (apply valid_date_iff; split; [assumption|now apply calendar_iff]). congruence.
  Qed.
  Lemma date_call : forall c es y m d, uncustomised c "DATE" -> evaluate_to c es [num y; num m; num d] ->
    Z.abs y < 2 ^ 53 -> Z.abs m < 2 ^ 53 -> Z.abs d < 2 ^ 53 ->
    (calendar_date (y, m, d) /\ year_in_range y ->
     exists t, eval (call "DATE" es) c = Ok (VDateTime t) /\ instant t (y, m, d) 0)
    /\ (~ (calendar_date (y, m, d) /\ year_in_range y) -> exists er, eval (call "DATE" es) c = Err er).
  Proof.
    intros c es y m d Hu He Hy Hm Hd. rewrite (date_run c es (f_of_Z y) (f_of_Z m) (f_of_Z d)) by assumption. rewrite clamp_valid by assumption.
    destruct (valid_date y m d) eqn:V.
    - apply valid_date_iff in V as [Y C]. split; [|tauto]. intros _. eexists. split; [reflexivity|]. unfold instant. split; [assumption|]. split; [lia|].
      exists (days_of_civil y m d). split; [now apply day_number_iff|lia].
    - split; [|intros _; eauto]. intros [C Y]. assert (valid_date y m d = true) by (apply valid_date_iff; now split). congruence.
  Qed.
  Lemma part_run : forall name f c es t, In (name, f) [("YEAR"%string, dt_year); ("MONTH"%string, dt_month); ("DAY"%string, dt_day)] ->
    uncustomised c name -> evaluate_to c es [VDateTime t] ->
    eval (call name es) c = match from_timestamp t with Some dt => Ok (num (f dt)) | None => Err (err "Invalid timestamp") end.
  Proof.
    intros name f c es t Hn Hu He.
    assert (G : eval (call name es) c = date_part name f [VDateTime t]).
    { destruct Hn as [Hn|[Hn|[Hn|[]]]]; injection Hn as <- <-; run_builtin; reflexivity. }
    rewrite G. unfold date_part. destruct (from_timestamp t); reflexivity.
  Qed.
  Lemma parts_call : forall c e t y m d s, eval e c = Ok (VDateTime t) -> instant t (y, m, d) s ->
    (uncustomised c "YEAR" -> eval (call "YEAR" [e]) c = Ok (num y))
    /\ (uncustomised c "MONTH" -> eval (call "MONTH" [e]) c = Ok (num m))
    /\ (uncustomised c "DAY" -> eval (call "DAY" [e]) c = Ok (num d)).
  Proof.
    intros c e t y m d s He Hi. apply instant_iff in Hi as [F C]. assert (Hes : evaluate_to c [e] [VDateTime t]) by (repeat constructor; assumption).
    split; [|split]; intros Hu.
    - rewrite (part_run "YEAR" dt_year _ _ t); [|cbn; tauto|assumption|assumption]. rewrite F. unfold dt_year. cbn [fst]. now rewrite C.
    - rewrite (part_run "MONTH" dt_month _ _ t); [|cbn; tauto|assumption|assumption]. rewrite F. unfold dt_month. cbn [fst]. now rewrite C.
    - rewrite (part_run "DAY" dt_day _ _ t); [|cbn; tauto|assumption|assumption]. rewrite F. unfold dt_day. cbn [fst]. now rewrite C.
  Qed.
  Lemma date_parts : forall c es y m d, uncustomised c "DATE" -> uncustomised c "YEAR" -> uncustomised c "MONTH" -> uncustomised c "DAY" ->
    evaluate_to c es [num y; num m; num d] -> calendar_date (y, m, d) -> year_in_range y ->
    eval (call "YEAR" [call "DATE" es]) c = Ok (num y)
    /\ eval (call "MONTH" [call "DATE" es]) c = Ok (num m)
    /\ eval (call "DAY" [call "DATE" es]) c = Ok (num d).
  Proof.
    intros c es y m d U0 U1 U2 U3 He Hc Hy.
    assert (B : Z.abs y < 2 ^ 53 /\ Z.abs m < 2 ^ 53 /\ Z.abs d < 2 ^ 53).
    { apply calendar_iff in Hc as [M D]. unfold year_in_range in Hy.
      assert (days_in_month y m <= 31). { unfold days_in_month. destruct (m =? 2); [destruct (is_leap y); lia|]. match goal with |- context [if ?c then _ else _] => destruct c end; lia. } lia. }
    destruct B as (B1 & B2 & B3). destruct (date_call c es y m d U0 He B1 B2 B3) as [G _]. destruct (G (conj Hc Hy)) as (t & E & I0).
    destruct (parts_call c _ t y m d 0 E I0) as (P1 & P2 & P3). auto.
  Qed.

  (** ** DATEADD *)
  Lemma dateadd_run : forall c es t n u k, uncustomised c "DATEADD" -> evaluate_to c es [VDateTime t; VNumber n; VString u] ->
    map lower_ascii u = k -> forallb is_ascii k = true ->
    eval (call "DATEADD" es) c = match from_timestamp t with
      | Some dt => r <- date_add dt (f_to_i64 n) k ;; Ok (VDateTime r) | None => Err (err "Invalid timestamp") end.
  Proof.
    intros c es t n u k Hu He Hk Ha. run_builtin. change (fn_dateadd [VDateTime t; VNumber n; VString u] = match from_timestamp t with
      | Some dt => r <- date_add dt (f_to_i64 n) k ;; Ok (VDateTime r) | None => Err (err "Invalid timestamp") end).
    unfold fn_dateadd. rewrite (unit_lower u k Hk Ha). destruct (from_timestamp t); reflexivity.
  Qed.
  Lemma datediff_run : forall c es t1 t2 u k, uncustomised c "DATEDIFF" -> evaluate_to c es [VDateTime t1; VDateTime t2; VString u] ->
    map lower_ascii u = k -> forallb is_ascii k = true -> on_calendar t1 -> on_calendar t2 ->
    eval (call "DATEDIFF" es) c = bind (date_diff (t1 / 86400, t1 mod 86400) (t2 / 86400, t2 mod 86400) k) (fun d => Ok (num d)).
  Proof.
    intros c es t1 t2 u k Hu He Hk Ha H1 H2. run_builtin. change (fn_datediff [VDateTime t1; VDateTime t2; VString u] =
      bind (date_diff (t1 / 86400, t1 mod 86400) (t2 / 86400, t2 mod 86400) k) (fun d => Ok (num d))).
    unfold fn_datediff. rewrite (unit_lower u k Hk Ha). apply on_calendar_iff in H1 as (s1 & H1). apply on_calendar_iff in H2 as (s2 & H2).
    unfold from_timestamp in *. destruct ((min_day <=? t1 / 86400) && (t1 / 86400 <=? max_day)); [|discriminate].
    destruct ((min_day <=? t2 / 86400) && (t2 / 86400 <=? max_day)); [|discriminate]. reflexivity.
  Qed.
  Lemma to_i64_exact : forall k, Z.abs k < 2 ^ 53 -> f_to_i64 (f_of_Z k) = k.
  Proof. intros k H. unfold f_to_i64. rewrite to_int_exact by assumption. unfold i64_min, i64_max. lia. Qed.
  Lemma ts_back : forall t, timestamp (t / 86400, t mod 86400) = t.
  Proof. intros t. unfold timestamp. cbn [fst snd]. rewrite Z.mul_comm. symmetry. apply Z.div_mod. lia. Qed.
  Lemma on_calendar_ts : forall t, on_calendar t -> from_timestamp t = Some (t / 86400, t mod 86400).
  Proof.
    intros t H. apply on_calendar_iff in H as (s & H). unfold from_timestamp in *. destruct ((min_day <=? t / 86400) && (t / 86400 <=? max_day)); [reflexivity|discriminate].
  Qed.
  Lemma add_fixed : forall len t k, 1 <= len <= 604800 -> on_calendar t ->
    bind (duration len k) (fun s => dt_add (t / 86400, t mod 86400) s) = Ok (t + len * k) /\ on_calendar (t + len * k)
    \/ (exists w, bind (duration len k) (fun s => dt_add (t / 86400, t mod 86400) s) = Panic w) /\ ~ on_calendar (t + len * k).
  Proof.
    intros len t k Hl Ht. unfold duration. destruct ((- duration_limit <=? len * k) && (len * k <=? duration_limit)) eqn:E; cbn [bind].
    - unfold dt_add. rewrite ts_back. destruct (from_timestamp (t + len * k)) as [p|] eqn:F.
      + left. split; [reflexivity|]. apply on_calendar_iff. unfold from_timestamp in *. destruct ((min_day <=? (t + len * k) / 86400) && ((t + len * k) / 86400 <=? max_day)); [|discriminate]. eauto.
      + right. split; [eauto|]. intros H. rewrite (on_calendar_ts _ H) in F. discriminate.
    - right. split; [eauto|]. rewrite on_calendar_range in *. apply andb_false_iff in E. rewrite !Z.leb_gt in E. unfold duration_limit in E. lia.
  Qed.
  Lemma dateadd_fixed : forall c es t k u name len, uncustomised c "DATEADD" -> evaluate_to c es [VDateTime t; num k; VString u] ->
    In (name, len) fixed_units -> map lower_ascii u = lit name -> on_calendar t -> Z.abs k < 2 ^ 53 ->
    (on_calendar (t + len * k) -> eval (call "DATEADD" es) c = Ok (VDateTime (t + len * k)))
    /\ (~ on_calendar (t + len * k) -> exists w, eval (call "DATEADD" es) c = Panic w).
  Proof.
    intros c es t k u name len Hu He Hn Hk Ht Hb. destruct (fixed_unit name len Hn) as (A & L & un & U & W).
    rewrite (dateadd_run c es t (f_of_Z k) u (lit name)) by assumption. rewrite (on_calendar_ts t Ht), to_i64_exact by assumption.
    unfold date_add. rewrite U. pose proof (add_fixed len t k L Ht) as G.
    destruct un; subst len; try lia;
      (destruct G as [[G1 G2]|[(w & G1) G2]]; [rewrite G1; cbn [bind]; split; [reflexivity|contradiction]|rewrite G1; cbn [bind]; split; [contradiction|eauto]]).
  Qed.
  Lemma datediff_fixed : forall c es t1 t2 u name len, uncustomised c "DATEDIFF" -> evaluate_to c es [VDateTime t1; VDateTime t2; VString u] ->
    In (name, len) fixed_units -> map lower_ascii u = lit name -> on_calendar t1 -> on_calendar t2 ->
    eval (call "DATEDIFF" es) c = Ok (num (Z.quot (t2 - t1) len)).
  Proof.
    intros c es t1 t2 u name len Hu He Hn Hk H1 H2. destruct (fixed_unit name len Hn) as (A & L & un & U & W).
    rewrite (datediff_run c es t1 t2 u (lit name)) by assumption. unfold date_diff. rewrite U, !ts_back.
    destruct un; subst len; try lia; cbn [bind]; try reflexivity.
    - now rewrite Z.quot_1_r.
    - rewrite Z.quot_quot by lia. reflexivity.
  Qed.
  Lemma diff_of_add : forall c e n w d1 d2 t k u u' name name' len, uncustomised c "DATEADD" -> uncustomised c "DATEDIFF" ->
    eval e c = Ok (VDateTime t) -> eval n c = Ok (num k) -> eval w c = Ok (VString u) ->
    eval d1 c = Ok (VDateTime t) -> eval d2 c = Ok (VString u') ->
    In (name, len) fixed_units -> map lower_ascii u = lit name -> In (name', len) fixed_units -> map lower_ascii u' = lit name' ->
    on_calendar t -> on_calendar (t + len * k) -> Z.abs k < 2 ^ 53 ->
    eval (call "DATEDIFF" [d1; call "DATEADD" [e; n; w]; d2]) c = Ok (num k).
  Proof.
    intros c e n w d1 d2 t k u u' name name' len U1 U2 He Hn Hw H1 H2 N1 L1 N2 L2 T1 T2 B.
    destruct (dateadd_fixed c [e; n; w] t k u name len) as [A _]; try assumption; [repeat constructor; assumption|]. specialize (A T2).
    rewrite (datediff_fixed c _ t (t + len * k) u' name' len); try assumption; [|repeat constructor; assumption].
    replace (t + len * k - t) with (k * len) by ring. destruct (fixed_unit name len N1) as (_ & L & _). rewrite Z.quot_mul by lia. reflexivity.
  Qed.

  (** ** Months and years *)
  Lemma ymd28_spec : forall y m d, 1 <= m <= 12 -> 1 <= d <= 31 ->
    (year_in_range y -> ymd_or_28 y m d = Ok (days_of_civil y m (if d <=? days_in_month y m then d else 28)))
    /\ (~ year_in_range y -> exists w, ymd_or_28 y m d = Panic w).
  Proof.
    intros y m d Hm Hd. unfold ymd_or_28, from_ymd_opt.
    assert (L : 28 <= days_in_month y m).
    { unfold days_in_month. destruct (m =? 2); [destruct (is_leap y); lia|]. match goal with |- context [if ?c then _ else _] => destruct c end; lia. }
    split; intros Y.
    - assert (V28 : valid_date y m 28 = true) by (apply valid_date_iff; split; [assumption|apply calendar_iff; lia]).
      destruct (Z.leb_spec d (days_in_month y m)) as [D|D].
      + replace (valid_date y m d) with true; [reflexivity|]. symmetry. apply valid_date_iff. split; [assumption|apply calendar_iff; lia].
      + replace (valid_date y m d) with false; [now rewrite V28|]. symmetry. apply not_true_iff_false. intros V. apply valid_date_iff in V as [_ V]. apply calendar_iff in V. lia.
    - assert (V : forall d, valid_date y m d = false) by (intros d'; apply not_true_iff_false; intros V; apply valid_date_iff in V; tauto). rewrite !V. eauto.
  Qed.
  Lemma i32_same : forall k, - 2 ^ 31 <= k < 2 ^ 31 -> wrap_i32 k = k.
  Proof. intros k H. unfold wrap_i32. rewrite Z.mod_small by lia. lia. Qed.
  Lemma on_parts : forall t y m d s, instant t (y, m, d) s -> from_timestamp t = Some (t / 86400, s) /\ dt_year (t / 86400, s) = y /\ dt_month (t / 86400, s) = m
    /\ dt_day (t / 86400, s) = d /\ 1 <= m <= 12 /\ 1 <= d <= 31 /\ year_in_range y /\ 0 <= s < 86400.
  Proof.
    intros t y m d s H. pose proof H as H'. unfold instant in H'. destruct H' as (Y & S0 & n & N & _). apply day_number_iff in N as [C _]. apply calendar_iff in C as [M D].
    apply instant_iff in H as [F C]. unfold dt_year, dt_month, dt_day. cbn [fst]. rewrite C.
    assert (days_in_month y m <= 31). { unfold days_in_month. destruct (m =? 2); [destruct (is_leap y); lia|]. match goal with |- context [if ?c then _ else _] => destruct c end; lia. }
    repeat split; try assumption; try lia; apply Y.
  Qed.
  Lemma days_instant : forall y m d s, year_in_range y -> 1 <= m <= 12 -> 1 <= d <= days_in_month y m -> 0 <= s < 86400 ->
    instant (timestamp (days_of_civil y m d, s)) (y, m, d) s.
  Proof.
    intros y m d s Y M D S0. unfold instant. split; [assumption|]. split; [assumption|]. exists (days_of_civil y m d). split.
    - apply day_number_iff. split; [now apply calendar_iff|reflexivity].
    - unfold timestamp. cbn [fst snd]. ring.
  Qed.
  Lemma dateadd_months : forall c es t k u name mult y m d s, uncustomised c "DATEADD" -> evaluate_to c es [VDateTime t; num k; VString u] ->
    In (name, mult) month_units -> map lower_ascii u = lit name -> instant t (y, m, d) s -> - 2 ^ 31 <= k < 2 ^ 31 ->
    (exists t' y' m' d', months_later (y, m, d) (y', m', d') (mult * k) /\ instant t' (y', m', d') s
       /\ eval (call "DATEADD" es) c = Ok (VDateTime t'))
    \/ (exists y' m' d', months_later (y, m, d) (y', m', d') (mult * k) /\ ~ year_in_range y')
       /\ exists w, eval (call "DATEADD" es) c = Panic w.
  Proof.
    intros c es t k u name mult y m d s Hu He Hn Hk Hi Hb. destruct (month_unit name mult Hn) as (A & U).
    rewrite (dateadd_run c es t (f_of_Z k) u (lit name)) by assumption. destruct (on_parts t y m d s Hi) as (F & Ey & Em & Ed & M & D & Y & S0).
    rewrite F, to_i64_exact by lia. set (dt := (t / 86400, s)) in *.
    assert (G : forall y' m', 1 <= m' <= 12 -> 12 * y' + m' = 12 * y + m + mult * k -> forall r, 
      r = bind (ymd_or_28 y' m' d) (fun day => Ok (timestamp (day, s))) ->
      (exists t' y' m' d', months_later (y, m, d) (y', m', d') (mult * k) /\ instant t' (y', m', d') s /\ bind r (fun r => Ok (VDateTime r)) = Ok (VDateTime t'))
      \/ (exists y' m' d', months_later (y, m, d) (y', m', d') (mult * k) /\ ~ year_in_range y') /\ exists w, bind r (fun r => Ok (VDateTime r)) = Panic w).
    { intros y' m' M' E r ->. destruct (ymd28_spec y' m' d M' D) as [G1 G2].
      set (d' := if d <=? days_in_month y' m' then d else 28) in *.
      assert (ML : months_later (y, m, d) (y', m', d') (mult * k)).
      { unfold months_later. split; [assumption|]. split; [assumption|]. exists (days_in_month y' m'). split; [now apply length_of_iff|reflexivity]. }
      assert (D' : 1 <= d' <= days_in_month y' m').
      { unfold d'. assert (28 <= days_in_month y' m').
        { unfold days_in_month. destruct (m' =? 2); [destruct (is_leap y'); lia|]. match goal with |- context [if ?c then _ else _] => destruct c end; lia. }
        destruct (Z.leb_spec d (days_in_month y' m')); lia. }
      assert (R : {year_in_range y'} + {~ year_in_range y'}).
      { unfold year_in_range. destruct (Z_le_dec (-262143) y'); [destruct (Z_le_dec y' 262142); [left; lia|right; lia]|right; lia]. }
      destruct R as [R|R].
      - left. rewrite (G1 R). cbn [bind]. exists (timestamp (days_of_civil y' m' d', s)), y', m', d'. split; [assumption|]. split; [now apply days_instant|reflexivity].
      - right. destruct (G2 R) as (w & ->). cbn [bind]. split; [now exists y', m', d'|eauto]. }
    unfold date_add. destruct U as [[U ->]|[U ->]]; rewrite U.
    - unfold add_months. rewrite Em, Ey, Ed, i32_same by assumption. unfold add_i32. destruct ((- 2 ^ 31 <=? m + k) && (m + k <? 2 ^ 31)) eqn:O.
      + cbn [bind snd dt]. apply (G (y + (m + k - 1) / 12) ((m + k - 1) mod 12 + 1)).
        * pose proof (Z.mod_pos_bound (m + k - 1) 12 ltac:(lia)). lia.
        * pose proof (Z.div_mod (m + k - 1) 12 ltac:(lia)). lia.
        * reflexivity.
      + right. apply andb_false_iff in O. rewrite Z.leb_gt, Z.ltb_ge in O. split; [|cbn [bind]; eauto].
        destruct (Z.div_mod (m + k - 1) 12 ltac:(lia)) as []. pose proof (Z.mod_pos_bound (m + k - 1) 12 ltac:(lia)) as MB. pose proof (Z.div_mod (m + k - 1) 12 ltac:(lia)) as DM.
        exists (y + (m + k - 1) / 12), ((m + k - 1) mod 12 + 1), (if d <=? days_in_month (y + (m + k - 1) / 12) ((m + k - 1) mod 12 + 1) then d else 28). split.
        * unfold months_later. split; [lia|]. split; [lia|]. eexists. split; [apply length_of_iff; split; [lia|reflexivity]|reflexivity].
        * unfold year_in_range in *. lia.
    - unfold add_years. rewrite Em, Ey, Ed, i32_same by assumption. unfold add_i32. destruct ((- 2 ^ 31 <=? y + k) && (y + k <? 2 ^ 31)) eqn:O.
      + cbn [bind snd dt]. apply (G (y + k) m); [assumption|lia|reflexivity].
      + right. apply andb_false_iff in O. rewrite Z.leb_gt, Z.ltb_ge in O. split; [|cbn [bind]; eauto]. 
        exists (y + k), m, (if d <=? days_in_month (y + k) m then d else 28). split.
        * unfold months_later. split; [lia|]. split; [lia|]. eexists. split; [apply length_of_iff; split; [lia|reflexivity]|reflexivity].
        * unfold year_in_range in *. lia.
  Qed.
  Lemma instant_ts : forall t y m d s, instant t (y, m, d) s -> t mod 86400 = s.
  Proof.
    intros t y m d s H. apply instant_iff in H as [F _]. unfold from_timestamp in F. destruct ((min_day <=? t / 86400) && (t / 86400 <=? max_day)); [|discriminate]. now injection F.
  Qed.
  Lemma datediff_months : forall c es t1 t2 u name mult y1 m1 d1 s1 y2 m2 d2 s2, uncustomised c "DATEDIFF" ->
    evaluate_to c es [VDateTime t1; VDateTime t2; VString u] -> In (name, mult) month_units -> map lower_ascii u = lit name ->
    instant t1 (y1, m1, d1) s1 -> instant t2 (y2, m2, d2) s2 ->
    eval (call "DATEDIFF" es) c = Ok (num (if mult =? 1 then 12 * (y2 - y1) + (m2 - m1) else y2 - y1)).
  Proof.
    intros c es t1 t2 u name mult y1 m1 d1 s1 y2 m2 d2 s2 Hu He Hn Hk H1 H2. destruct (month_unit name mult Hn) as (A & U).
    rewrite (datediff_run c es t1 t2 u (lit name)); try assumption; try (unfold on_calendar; eauto; fail).
    rewrite (instant_ts _ _ _ _ _ H1), (instant_ts _ _ _ _ _ H2). destruct (on_parts _ _ _ _ _ H1) as (_ & Y1 & M1 & _). destruct (on_parts _ _ _ _ _ H2) as (_ & Y2 & M2 & _).
    unfold date_diff. destruct U as [[-> ->]|[-> ->]]; rewrite Y1, Y2, ?M1, ?M2; cbn [bind Z.eqb Pos.eqb]; [|reflexivity]. do 3 f_equal. ring.
  Qed.
  Lemma months_of_add : forall c e n w d1 d2 t k u u' name name' mult y m d s t', uncustomised c "DATEADD" -> uncustomised c "DATEDIFF" ->
    eval e c = Ok (VDateTime t) -> eval n c = Ok (num k) -> eval w c = Ok (VString u) -> eval d1 c = Ok (VDateTime t) -> eval d2 c = Ok (VString u') ->
    In (name, mult) month_units -> map lower_ascii u = lit name -> In (name', mult) month_units -> map lower_ascii u' = lit name' ->
    instant t (y, m, d) s -> - 2 ^ 31 <= k < 2 ^ 31 -> eval (call "DATEADD" [e; n; w]) c = Ok (VDateTime t') ->
    eval (call "DATEDIFF" [d1; call "DATEADD" [e; n; w]; d2]) c = Ok (num k).
  Proof.
    intros c e n w d1 d2 t k u u' name name' mult y m d s t' U1 U2 He Hn Hw H1 H2 N1 L1 N2 L2 I1 B R.
    destruct (dateadd_months c [e; n; w] t k u name mult y m d s) as [(t0 & y' & m' & d' & ML & I2 & E)|(_ & w0 & E)]; try assumption; [repeat constructor; assumption| |congruence].
    rewrite E in R. injection R as ->.
    rewrite (datediff_months c _ t t' u' name' mult y m d s y' m' d' s); try assumption; [|repeat constructor; assumption]. f_equal. f_equal.
    unfold months_later in ML. destruct ML as (ML & M' & _). destruct (on_parts _ _ _ _ _ I1) as (_ & _ & _ & _ & M & _).
    destruct (month_unit name mult N1) as (_ & [[_ ->]|[_ ->]]); cbn [Z.eqb Pos.eqb]; lia.
  Qed.
End DateFns.
Lemma month_amount_refuted : forall `{X : Ext},
  ~ (forall src t k src', evaluate src = Ok (VDateTime t) -> 0 < k < 2 ^ 53 -> evaluate src' = Ok (num k) ->
       forall t', evaluate (lit "DATEADD(" ++ src ++ lit "," ++ src' ++ lit ",""months"")") = Ok (VDateTime t') -> t < t').
Proof.
  intros X H. specialize (H (lit "DATE(2024,1,1)") 1704067200 4294967296 (lit "4294967296")). 
  assert (K : 1704067200 < 1704067200); [|lia]. apply H; [vm_compute; reflexivity|lia|vm_compute; reflexivity|vm_compute; reflexivity].
Qed.
Lemma last_day_refuted : forall `{X : Ext},
  evaluate (lit "DATEADD(DATE(2024,1,31),1,""months"")") = evaluate (lit "DATE(2024,2,28)")
  /\ calendar_date (2024, 2, 29) /\ ~ calendar_date (2024, 2, 30).
Proof. intros X. rewrite !calendar_iff. split; [vm_compute; reflexivity|]. vm_compute. intuition discriminate. Qed.
