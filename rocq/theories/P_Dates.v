(** Property theorems about dates. *)
From Coq Require Import String List ZArith NArith Bool Lia.
From Verif Require Import Base F64 Syntax Ext Registry Core Evaluator Api Dates Spec Spec_dates Date_proofs DateFn_proofs.
Import ListNotations.
Local Open Scope Z_scope.

(** C29: DATE(y, m, d) is midnight of the calendar day it names, and an error if
    there is no such day or its year is out of range. *)
Theorem C29_date : forall (X : Ext) c es y m d, uncustomised c "DATE" -> evaluate_to c es [num y; num m; num d] ->
  Z.abs y < 2 ^ 53 -> Z.abs m < 2 ^ 53 -> Z.abs d < 2 ^ 53 ->
  (calendar_date (y, m, d) /\ year_in_range y ->
   exists t, eval (call "DATE" es) c = Ok (VDateTime t) /\ instant t (y, m, d) 0)
  /\ (~ (calendar_date (y, m, d) /\ year_in_range y) -> exists er, eval (call "DATE" es) c = Err er).
Proof. exact @date_call. Qed.
Print Assumptions C29_date.

(** YEAR, MONTH and DAY give the calendar date of a timestamp *)
Theorem C29_parts : forall (X : Ext) c e t y m d s, eval e c = Ok (VDateTime t) -> instant t (y, m, d) s ->
  (uncustomised c "YEAR" -> eval (call "YEAR" [e]) c = Ok (num y))
  /\ (uncustomised c "MONTH" -> eval (call "MONTH" [e]) c = Ok (num m))
  /\ (uncustomised c "DAY" -> eval (call "DAY" [e]) c = Ok (num d)).
Proof. exact @parts_call. Qed.
Print Assumptions C29_parts.

Theorem C29_date_parts : forall (X : Ext) c es y m d, uncustomised c "DATE" -> uncustomised c "YEAR" -> uncustomised c "MONTH" -> uncustomised c "DAY" ->
  evaluate_to c es [num y; num m; num d] -> calendar_date (y, m, d) -> year_in_range y ->
  eval (call "YEAR" [call "DATE" es]) c = Ok (num y)
  /\ eval (call "MONTH" [call "DATE" es]) c = Ok (num m)
  /\ eval (call "DAY" [call "DATE" es]) c = Ok (num d).
Proof. exact @date_parts. Qed.
Print Assumptions C29_date_parts.

(** the seconds that are on the calendar *)
Theorem C29_range : forall t, on_calendar t <-> -8334601228800 <= t <= 8210266876799.
Proof. exact @on_calendar_range. Qed.
Print Assumptions C29_range.

(** DATEADD in days, weeks, hours, minutes or seconds moves the timestamp by
    exactly that much, and aborts when that leaves the calendar *)
Theorem C29_dateadd_fixed : forall (X : Ext) c es t k u name len, uncustomised c "DATEADD" -> evaluate_to c es [VDateTime t; num k; VString u] ->
  In (name, len) fixed_units -> map lower_ascii u = lit name -> on_calendar t -> Z.abs k < 2 ^ 53 ->
  (on_calendar (t + len * k) -> eval (call "DATEADD" es) c = Ok (VDateTime (t + len * k)))
  /\ (~ on_calendar (t + len * k) -> exists w, eval (call "DATEADD" es) c = Panic w).
Proof. exact @dateadd_fixed. Qed.
Print Assumptions C29_dateadd_fixed.

(** DATEDIFF counts whole units, towards zero *)
Theorem C29_datediff_fixed : forall (X : Ext) c es t1 t2 u name len, uncustomised c "DATEDIFF" -> evaluate_to c es [VDateTime t1; VDateTime t2; VString u] ->
  In (name, len) fixed_units -> map lower_ascii u = lit name -> on_calendar t1 -> on_calendar t2 ->
  eval (call "DATEDIFF" es) c = Ok (num (Z.quot (t2 - t1) len)).
Proof. exact @datediff_fixed. Qed.
Print Assumptions C29_datediff_fixed.

Theorem C29_diff_of_add : forall (X : Ext) c e n w d1 d2 t k u u' name name' len, uncustomised c "DATEADD" -> uncustomised c "DATEDIFF" ->
  eval e c = Ok (VDateTime t) -> eval n c = Ok (num k) -> eval w c = Ok (VString u) ->
  eval d1 c = Ok (VDateTime t) -> eval d2 c = Ok (VString u') ->
  In (name, len) fixed_units -> map lower_ascii u = lit name -> In (name', len) fixed_units -> map lower_ascii u' = lit name' ->
  on_calendar t -> on_calendar (t + len * k) -> Z.abs k < 2 ^ 53 ->
  eval (call "DATEDIFF" [d1; call "DATEADD" [e; n; w]; d2]) c = Ok (num k).
Proof. exact @diff_of_add. Qed.
Print Assumptions C29_diff_of_add.

(** DATEADD in months or years keeps the time of the day and the day of the
    month; the 28th stands for a day that the target month does not have *)
Theorem C29_dateadd_months : forall (X : Ext) c es t k u name mult y m d s, uncustomised c "DATEADD" -> evaluate_to c es [VDateTime t; num k; VString u] ->
  In (name, mult) month_units -> map lower_ascii u = lit name -> instant t (y, m, d) s -> - 2 ^ 31 <= k < 2 ^ 31 ->
  (exists t' y' m' d', months_later (y, m, d) (y', m', d') (mult * k) /\ instant t' (y', m', d') s
     /\ eval (call "DATEADD" es) c = Ok (VDateTime t'))
  \/ (exists y' m' d', months_later (y, m, d) (y', m', d') (mult * k) /\ ~ year_in_range y')
     /\ exists w, eval (call "DATEADD" es) c = Panic w.
Proof. exact @dateadd_months. Qed.
Print Assumptions C29_dateadd_months.

(** DATEDIFF in months counts month boundaries, in years year boundaries *)
Theorem C29_datediff_months : forall (X : Ext) c es t1 t2 u name mult y1 m1 d1 s1 y2 m2 d2 s2, uncustomised c "DATEDIFF" ->
  evaluate_to c es [VDateTime t1; VDateTime t2; VString u] -> In (name, mult) month_units -> map lower_ascii u = lit name ->
  instant t1 (y1, m1, d1) s1 -> instant t2 (y2, m2, d2) s2 ->
  eval (call "DATEDIFF" es) c = Ok (num (if mult =? 1 then 12 * (y2 - y1) + (m2 - m1) else y2 - y1)).
Proof. exact @datediff_months. Qed.
Print Assumptions C29_datediff_months.

Theorem C29_months_of_add : forall (X : Ext) c e n w d1 d2 t k u u' name name' mult y m d s t', uncustomised c "DATEADD" -> uncustomised c "DATEDIFF" ->
  eval e c = Ok (VDateTime t) -> eval n c = Ok (num k) -> eval w c = Ok (VString u) -> eval d1 c = Ok (VDateTime t) -> eval d2 c = Ok (VString u') ->
  In (name, mult) month_units -> map lower_ascii u = lit name -> In (name', mult) month_units -> map lower_ascii u' = lit name' ->
  instant t (y, m, d) s -> - 2 ^ 31 <= k < 2 ^ 31 -> eval (call "DATEADD" [e; n; w]) c = Ok (VDateTime t') ->
  eval (call "DATEDIFF" [d1; call "DATEADD" [e; n; w]; d2]) c = Ok (num k).
Proof. exact @months_of_add. Qed.
Print Assumptions C29_months_of_add.

(** the amount of months is reduced modulo 2^32, and the last day of a month is
    not kept: 31 January plus one month is 28 February even in a leap year *)
Theorem C29_month_amount_refuted : forall X : Ext,
  ~ (forall src t k src', evaluate src = Ok (VDateTime t) -> 0 < k < 2 ^ 53 -> evaluate src' = Ok (num k) ->
       forall t', evaluate (lit "DATEADD(" ++ src ++ lit "," ++ src' ++ lit ",""months"")") = Ok (VDateTime t') -> t < t').
Proof. exact @month_amount_refuted. Qed.
Print Assumptions C29_month_amount_refuted.
Theorem C29_last_day_refuted : forall X : Ext,
  evaluate (lit "DATEADD(DATE(2024,1,31),1,""months"")") = evaluate (lit "DATE(2024,2,28)")
  /\ calendar_date (2024, 2, 29) /\ ~ calendar_date (2024, 2, 30).
Proof. exact @last_day_refuted. Qed.
Print Assumptions C29_last_day_refuted.

Example C29_nonvacuous :
  let X := example_ext in
  calendar_date (2024, 2, 29) /\ ~ calendar_date (2023, 2, 29) /\ ~ calendar_date (1900, 2, 29) /\ calendar_date (2000, 2, 29)
  /\ instant 1709210096 (2024, 2, 29) 45296
  /\ evaluate (lit "DATE(2024,2,29)") = Ok (VDateTime 1709164800)
  /\ (exists er, evaluate (lit "DATE(2023,2,29)") = Err er)
  /\ evaluate (lit "DATEADD(DATE(2024,2,29), 1, ""Days"")") = evaluate (lit "DATE(2024,3,1)")
  /\ evaluate (lit "DATEADD(DATE(2024,2,29), 12, ""months"")") = evaluate (lit "DATE(2025,2,28)")
  /\ evaluate (lit "DATEADD(DATE(2024,3,31), -4, ""month"")") = evaluate (lit "DATE(2023,11,28)")
  /\ evaluate (lit "DATEDIFF(DATE(2024,1,31), DATE(2024,3,1), ""months"")") = Ok (num 2)
  /\ evaluate (lit "DATEDIFF(DATE(2024,3,1), DATE(2024,2,28), ""weeks"")") = Ok (num 0)
  /\ (exists w, evaluate (lit "DATEADD(DATE(2024,3,1), 99999999999, ""days"")") = Panic w).
Proof.
  cbv zeta. rewrite !calendar_iff.
  split; [vm_compute; intuition discriminate|]. split; [vm_compute; intuition discriminate|]. split; [vm_compute; intuition discriminate|].
  split; [vm_compute; intuition discriminate|].
  split; [apply instant_iff; split; vm_compute; reflexivity|].
  split; [vm_compute; reflexivity|]. split; [eexists; vm_compute; reflexivity|].
  do 5 (split; [vm_compute; reflexivity|]). eexists; vm_compute; reflexivity.
Qed.
