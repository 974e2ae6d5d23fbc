(** The arguments of the functions on numbers and on times. *)
From Coq Require Import String List NArith ZArith Lia Bool.
From Verif Require Import Base F64 Syntax Ext Utils Registry Arith Logic Dates Arrays Stats Core Dispatch Evaluator Spec Spec_dates Spec_methods Spec_stats Spec_arguments Base_proofs Value_proofs Date_proofs DateFn_proofs.
Import ListNotations.
Local Open Scope Z_scope.
Section Arguments.
  Context {X : Ext}.
  Lemma num1_filled : forall f vs, num1 f vs = num1 f (filled [0] vs).
  Proof. intros f [|[] vs]; reflexivity. Qed.
  Lemma filled_first : forall d d' vs, num_arg vs 0 (f_of_Z d) = num_arg (filled [d; d'] vs) 0 (f_of_Z d).
  Proof. intros d d' [|[] vs]; reflexivity. Qed.
  Lemma filled_second : forall d d' vs, num_arg vs 1 (f_of_Z d') = num_arg (filled [d; d'] vs) 1 (f_of_Z d').
  Proof. intros d d' [|[] [|[] vs]]; reflexivity. Qed.
  Lemma filled_numbers : forall name missing c es es' vs, In (name, missing) number_functions -> uncustomised c name -> evaluate_to c es vs -> evaluate_to c es' (filled missing vs) ->
    eval (call name es) c = eval (call name es') c.
  Proof. intros name missing c es es' vs I0 Hu He He'.
    assert (R : forall es vs, evaluate_to c es vs -> eval (call name es) c = exec_arithmetic (lit name) vs).
    { clear He He' es es' vs. intros es vs He. repeat (destruct I0 as [I0|I0]; [injection I0 as <- <-; run_builtin; reflexivity|]). contradiction I0. }
    rewrite (R es vs He), (R es' _ He'). clear R He He' Hu.
    repeat (destruct I0 as [I0|I0]; [injection I0 as <- <-|]); [..|contradiction I0].
    - exact (num1_filled f_ceil vs).
    - exact (num1_filled f_ceil vs).
    - exact (num1_filled f_floor vs).
    - exact (num1_filled f_floor vs).
    - exact (num1_filled f_abs vs).
    - exact (num1_filled f_sqrt vs).
    - change (Ok (VNumber (x_powf (num_arg vs 0 f_zero) (num_arg vs 1 f_zero))) = Ok (VNumber (x_powf (num_arg (filled [0; 0] vs) 0 f_zero) (num_arg (filled [0; 0] vs) 1 f_zero)))).
      rewrite (filled_first 0 0 vs : num_arg vs 0 f_zero = _), (filled_second 0 0 vs : num_arg vs 1 f_zero = _). reflexivity.
    - change (Ok (VNumber (x_powf (num_arg vs 0 f_zero) (num_arg vs 1 f_zero))) = Ok (VNumber (x_powf (num_arg (filled [0; 0] vs) 0 f_zero) (num_arg (filled [0; 0] vs) 1 f_zero)))).
      rewrite (filled_first 0 0 vs : num_arg vs 0 f_zero = _), (filled_second 0 0 vs : num_arg vs 1 f_zero = _). reflexivity.
    - change (Ok (VNumber (f_rem (num_arg vs 0 (f_of_Z 0)) (num_arg vs 1 (f_of_Z 1)))) = Ok (VNumber (f_rem (num_arg (filled [0; 1] vs) 0 (f_of_Z 0)) (num_arg (filled [0; 1] vs) 1 (f_of_Z 1))))).
      rewrite <- (filled_first 0 1 vs), <- (filled_second 0 1 vs). reflexivity. Qed.
  Lemma no_number : forall name c es vs, In name ["CEIL"; "CEILING"; "FLOOR"; "INT"; "ABS"; "SQRT"]%string -> uncustomised c name -> evaluate_to c es vs -> (forall x more, vs <> VNumber x :: more) -> eval (call name es) c = Ok (num 0).
  Proof. intros name c es vs I0 Hu He Nn.
    assert (R : eval (call name es) c = exec_arithmetic (lit name) vs).
    { repeat (destruct I0 as [<-|I0]; [run_builtin; reflexivity|]). contradiction I0. }
    rewrite R. repeat (destruct I0 as [<-|I0]; [destruct vs as [|[] more]; try reflexivity; exfalso; eapply Nn; reflexivity|]). contradiction I0. Qed.
  Lemma round_arguments : forall c es vs, uncustomised c "ROUND" -> evaluate_to c es vs ->
    (vs = [] -> eval (call "ROUND" es) c = Ok (num 0)) /\ (vs <> [] -> (forall x more, vs <> VNumber x :: more) -> fails (eval (call "ROUND" es) c)).
  Proof. intros c es vs Hu He. split; [intros ->; run_builtin; reflexivity|]. intros N1 N2. run_builtin. change (fails (fn_round vs)). destruct vs as [|[] more]; try (eexists; reflexivity); exfalso; [now apply N1|eapply N2; reflexivity]. Qed.
  Lemma round_whole : forall c a x more vs, uncustomised c "ROUND" -> eval a c = Ok (VNumber x) -> evaluate_to c more vs ->
    (forall d r, vs = VNumber d :: r -> exists z, d = f_of_Z z /\ - 2 ^ 53 < z <= 0) -> eval (call "ROUND" (a :: more)) c = eval (call "ROUND" [a]) c.
  Proof. intros c a x more vs Hu Ha Hm Hd.
    assert (E1 : eval (call "ROUND" (a :: more)) c = fn_round (VNumber x :: vs)). { assert (He : evaluate_to c (a :: more) (VNumber x :: vs)) by (constructor; assumption). run_builtin. reflexivity. }
    assert (E2 : eval (call "ROUND" [a]) c = fn_round [VNumber x]). { assert (He : evaluate_to c [a] [VNumber x]) by (repeat constructor; assumption). run_builtin. reflexivity. }
    rewrite E1, E2. destruct vs as [|[d| | | | | | | ] r]; try reflexivity. destruct (Hd d r eq_refl) as (z & -> & Z1). unfold fn_round. unfold f_to_i32. rewrite to_int_exact by lia.
    replace (Z.max (Z.max (- 2 ^ 31) (Z.min (2 ^ 31 - 1) z)) 0) with (Z.max 0 0) by lia. reflexivity. Qed.

  Lemma wrong_part : forall who f vs, ~ begins_with [ATime] vs -> fails (date_part who f vs).
  Proof. intros who f [|v0 vs] W; [eexists; reflexivity|]. destruct v0; try (eexists; reflexivity). exfalso. apply W. match goal with |- begins_with _ (?v :: ?r) => exists [v], r end. split; [reflexivity|]. repeat constructor; eexists; reflexivity. Qed.
  Lemma wrong_add : forall vs, ~ begins_with [ATime; ANumber; AText] vs -> fails (fn_dateadd vs).
  Proof. intros [|v0 [|v1 [|v2 vs]]] W; try (eexists; reflexivity); destruct v0; try (eexists; reflexivity); destruct v1; try (eexists; reflexivity); destruct v2; try (eexists; reflexivity).
    exfalso. apply W. match goal with |- begins_with _ (?a :: ?b :: ?d :: ?r) => exists [a; b; d], r end. split; [reflexivity|]. repeat constructor; eexists; reflexivity. Qed.
  Lemma wrong_diff : forall vs, ~ begins_with [ATime; ATime; AText] vs -> fails (fn_datediff vs).
  Proof. intros [|v0 [|v1 [|v2 vs]]] W; try (eexists; reflexivity); destruct v0; try (eexists; reflexivity); destruct v1; try (eexists; reflexivity); destruct v2; try (eexists; reflexivity).
    exfalso. apply W. match goal with |- begins_with _ (?a :: ?b :: ?d :: ?r) => exists [a; b; d], r end. split; [reflexivity|]. repeat constructor; eexists; reflexivity. Qed.
  Lemma wrong_times : forall name ws c es vs, In (name, ws) time_functions -> uncustomised c name -> evaluate_to c es vs -> ~ begins_with ws vs -> fails (eval (call name es) c).
  Proof. intros name ws c es vs I0 Hu He W. repeat (destruct I0 as [I0|I0]; [injection I0 as <- <-; run_builtin|]); [..|contradiction I0].
    - exact (wrong_part "YEAR" dt_year vs W).
    - exact (wrong_part "MONTH" dt_month vs W).
    - exact (wrong_part "DAY" dt_day vs W).
    - exact (wrong_add vs W).
    - exact (wrong_diff vs W). Qed.
  Lemma off_calendar : forall name ws c es vs more t, In (name, ws) time_functions -> uncustomised c name -> evaluate_to c es (vs ++ more) -> Forall2 fits ws vs -> In (VDateTime t) vs -> ~ on_calendar t -> fails (eval (call name es) c).
  Proof. intros name ws c es vs more t I0 Hu He F In0 Off. apply from_timestamp_off in Off. repeat (destruct I0 as [I0|I0]; [injection I0 as <- <-|]); [..|contradiction I0].
    1-3: inversion F as [|? v0 ? r0 E0 F1]; subst; destruct E0 as (t0 & E0); subst; inversion F1; subst; destruct In0 as [In0|[]]; injection In0 as ->; run_builtin.
    - change (fails (date_part "YEAR" dt_year (VDateTime t :: more))). unfold date_part. rewrite Off. eexists. reflexivity.
    - change (fails (date_part "MONTH" dt_month (VDateTime t :: more))). unfold date_part. rewrite Off. eexists. reflexivity.
    - change (fails (date_part "DAY" dt_day (VDateTime t :: more))). unfold date_part. rewrite Off. eexists. reflexivity.
    - inversion F as [|? v0 ? r0 E0 F1]; subst; destruct E0 as (t0 & E0); subst; inversion F1 as [|? v1 ? r1 E1 F2]; subst; destruct E1 as (t1 & E1); subst; inversion F2 as [|? v2 ? r2 E2 F3]; subst; destruct E2 as (t2 & E2); subst; inversion F3; subst. destruct In0 as [In0|[In0|[In0|[]]]]; try discriminate In0. injection In0 as ->. run_builtin.
      change (fails (fn_dateadd (VDateTime t :: VNumber t1 :: VString t2 :: more))). unfold fn_dateadd. rewrite Off. eexists. reflexivity.
    - inversion F as [|? v0 ? r0 E0 F1]; subst; destruct E0 as (t0 & E0); subst; inversion F1 as [|? v1 ? r1 E1 F2]; subst; destruct E1 as (t1 & E1); subst; inversion F2 as [|? v2 ? r2 E2 F3]; subst; destruct E2 as (t2 & E2); subst; inversion F3; subst. run_builtin.
      change (fails (fn_datediff (VDateTime t0 :: VDateTime t1 :: VString t2 :: more))). unfold fn_datediff.
      destruct In0 as [In0|[In0|[In0|[]]]]; try discriminate In0; injection In0 as ->; [rewrite Off; eexists; reflexivity|]. destruct (from_timestamp t0); [|eexists; reflexivity]. cbn [ok_or bind]. rewrite Off. eexists. reflexivity. Qed.
  Lemma unit_unknown : forall s, (forall n, In n unit_names -> s <> lit n) -> unit_of s = None.
  Proof. intros s Nn. unfold unit_of.
    assert (R : forall n, In n unit_names -> is s n = false). { intros n I0. unfold is. apply str_eqb_neq. now apply Nn. }
    rewrite !R by (cbn; tauto). reflexivity. Qed.
  Lemma unknown_unit : forall name c es a b u more, In name ["DATEADD"; "DATEDIFF"]%string -> uncustomised c name -> evaluate_to c es (a :: b :: VString u :: more) -> ascii u -> (forall n, In n unit_names -> map lower_ascii u <> lit n) -> fails (eval (call name es) c).
  Proof. intros name c es a b u more I0 Hu He A Nn. apply unit_unknown in Nn.
    assert (L : to_lowercase u = map lower_ascii u).
    { apply unit_lower; [reflexivity|]. clear - A. unfold ascii in A. induction A as [|ch r P _ IH]; [reflexivity|]. cbn [map forallb]. rewrite IH, andb_true_r. unfold lower_ascii, is_ascii. destruct (is_upper_ascii ch) eqn:U; [|now apply N.ltb_lt].
      unfold is_upper_ascii in U. apply andb_true_iff in U as [U1 U2]. apply N.leb_le in U1, U2. apply N.ltb_lt. lia. }
    destruct I0 as [<-|[<-|[]]]; run_builtin.
    - change (fails (fn_dateadd (a :: b :: VString u :: more))). unfold fn_dateadd. destruct a; try (eexists; reflexivity). destruct b; try (eexists; reflexivity). destruct (from_timestamp _); [|eexists; reflexivity]. cbn [ok_or bind]. unfold date_add. rewrite L, Nn. eexists. reflexivity.
    - change (fails (fn_datediff (a :: b :: VString u :: more))). unfold fn_datediff. destruct a; try (eexists; reflexivity). destruct b; try (eexists; reflexivity). destruct (from_timestamp _); [|eexists; reflexivity]. cbn [ok_or bind]. destruct (from_timestamp _); [|eexists; reflexivity]. cbn [ok_or bind]. unfold date_diff. rewrite L, Nn. eexists. reflexivity. Qed.
  Lemma date_arguments : forall c es vs, uncustomised c "DATE" -> evaluate_to c es vs -> vs <> [] -> (forall y m d, vs <> [VNumber y; VNumber m; VNumber d]) -> fails (eval (call "DATE" es) c).
  Proof. intros c es vs Hu He N1 N2. run_builtin. change (fails (fn_date vs)). destruct vs as [|v0 [|v1 [|v2 [|v3 vs]]]]; try (eexists; reflexivity); [now exfalso|]. destruct v0; try (eexists; reflexivity); destruct v1; try (eexists; reflexivity); destruct v2; try (eexists; reflexivity). exfalso. eapply N2. reflexivity. Qed.
  Lemma clock : forall c es vs, evaluate_to c es vs -> (uncustomised c "NOW" -> eval (call "NOW" es) c = Ok (VDateTime x_now)) /\ (uncustomised c "TIME" -> eval (call "TIME" es) c = Ok (num x_time)) /\ (vs = [] -> uncustomised c "DATE" -> eval (call "DATE" es) c = Ok (VDateTime x_today)).
  Proof. intros c es vs He. split; [|split].
    - intros Hu. run_builtin. reflexivity.
    - intros Hu. run_builtin. reflexivity.
    - intros -> Hu. run_builtin. reflexivity. Qed.

  Lemma fraction_arguments : forall name c es vs, In name (percentile_names ++ quartile_names) -> uncustomised c name -> evaluate_to c es vs -> (forall first v x, vs <> (first ++ [v]) ++ [VNumber x]) -> fails (eval (call name es) c).
  Proof. intros name c es vs I0 Hu He Nn.
    assert (P : (length vs <? 2)%nat = true \/ (length vs <? 2)%nat = false /\ forall x, last_opt vs <> Some (VNumber x)).
    { destruct (length vs <? 2)%nat eqn:L; [now left|]. right. split; [reflexivity|]. intros x E. apply Nat.ltb_ge in L. destruct (exists_last (l := vs)) as (r & z & ->); [intros ->; cbn in L; lia|].
      rewrite app_length in L. cbn in L. destruct (exists_last (l := r)) as (r' & z' & ->); [intros ->; cbn in L; lia|].
      assert (K : forall l (v : value), last_opt (l ++ [v]) = Some v). { clear. induction l as [|a [|b l] IH]; intros v; [reflexivity|reflexivity|]. apply (IH v). }
      rewrite K in E. injection E as ->. exact (Nn r' z' x eq_refl). }
    assert (P1 : fails (fn_percentile vs)). { unfold fn_percentile. destruct P as [-> |[-> P]]; [eexists; reflexivity|]. cbv zeta. destruct (last_opt vs) as [[x| | | | | | | ]|]; try (eexists; reflexivity). exfalso. now apply (P x). }
    assert (P2 : fails (fn_quartile vs)). { unfold fn_quartile. destruct P as [-> |[-> P]]; [eexists; reflexivity|]. cbv zeta. destruct (last_opt vs) as [[x| | | | | | | ]|]; try (eexists; reflexivity). exfalso. now apply (P x). }
    clear P. repeat (destruct I0 as [<-|I0]; [run_builtin; first [exact P1|exact P2]|]). contradiction I0. Qed.
  Lemma if_arguments : forall c es vs, uncustomised c "IF" -> evaluate_to c es vs -> (length vs < 2)%nat -> fails (eval (call "IF" es) c).
  Proof. intros c es vs Hu He L. run_builtin. change (fails (fn_if vs)). destruct vs as [|v0 [|v1 vs]]; try (eexists; reflexivity). cbn in L. lia. Qed.
End Arguments.
