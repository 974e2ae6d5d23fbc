(** Property theorems about the arguments of functions on numbers and on times. *)
From Coq Require Import String List ZArith NArith Bool Lia.
From Verif Require Import Base F64 Syntax Ext Registry Core Evaluator Api Spec Spec_dates Spec_methods Spec_stats Spec_arguments Arguments_proofs.
Import ListNotations.
Local Open Scope Z_scope.

(** * C95 The arguments of functions on numbers and on times *)

(** an argument that is missing, or is no number, counts as the number [number_functions] gives; later arguments are not read *)
Theorem C95_filled : forall (X : Ext) name missing c es es' vs, In (name, missing) number_functions -> uncustomised c name -> evaluate_to c es vs -> evaluate_to c es' (filled missing vs) ->
  eval (call name es) c = eval (call name es') c.
Proof. exact @filled_numbers. Qed.
Print Assumptions C95_filled.
Theorem C95_no_number : forall (X : Ext) name c es vs, In name ["CEIL"; "CEILING"; "FLOOR"; "INT"; "ABS"; "SQRT"]%string -> uncustomised c name -> evaluate_to c es vs -> (forall x more, vs <> VNumber x :: more) ->
  eval (call name es) c = Ok (num 0).
Proof. exact @no_number. Qed.
Print Assumptions C95_no_number.

(** so these functions do not work on amounts, although SUM does *)
Theorem C95_amounts_refuted : let X := example_ext in
  evaluate (lit "SUM((0 - 5)::Currency)") = Ok (num (-5)) /\ evaluate (lit "ABS((0 - 5)::Currency)") = Ok (num 0) /\ evaluate (lit "FLOOR(7.5::Currency)") = Ok (num 0) /\ evaluate (lit "SQRT(4::Currency)") = Ok (num 0)
  /\ fails (evaluate (lit "ROUND(7.5::Currency)")).
Proof. vm_compute. repeat split; try reflexivity. eexists. reflexivity. Qed.
Print Assumptions C95_amounts_refuted.

(** ROUND is 0 without arguments and fails if the first is no number; digits that are negative or no number count as 0 *)
Theorem C95_round : forall (X : Ext) c es vs, uncustomised c "ROUND" -> evaluate_to c es vs ->
  (vs = [] -> eval (call "ROUND" es) c = Ok (num 0)) /\ (vs <> [] -> (forall x more, vs <> VNumber x :: more) -> fails (eval (call "ROUND" es) c)).
Proof. exact @round_arguments. Qed.
Print Assumptions C95_round.
Theorem C95_round_whole : forall (X : Ext) c a x more vs, uncustomised c "ROUND" -> eval a c = Ok (VNumber x) -> evaluate_to c more vs ->
  (forall d r, vs = VNumber d :: r -> exists z, d = f_of_Z z /\ - 2 ^ 53 < z <= 0) -> eval (call "ROUND" (a :: more)) c = eval (call "ROUND" [a]) c.
Proof. exact @round_whole. Qed.
Print Assumptions C95_round_whole.

(** the functions on times fail on arguments of other kinds, on times off the calendar and on units they do not know *)
Theorem C95_wrong_times : forall (X : Ext) name ws c es vs, In (name, ws) time_functions -> uncustomised c name -> evaluate_to c es vs -> ~ begins_with ws vs -> fails (eval (call name es) c).
Proof. exact @wrong_times. Qed.
Print Assumptions C95_wrong_times.
Theorem C95_off_calendar : forall (X : Ext) name ws c es vs more t, In (name, ws) time_functions -> uncustomised c name -> evaluate_to c es (vs ++ more) -> Forall2 fits ws vs -> In (VDateTime t) vs -> ~ on_calendar t ->
  fails (eval (call name es) c).
Proof. exact @off_calendar. Qed.
Print Assumptions C95_off_calendar.
Theorem C95_unknown_unit : forall (X : Ext) name c es a b u more, In name ["DATEADD"; "DATEDIFF"]%string -> uncustomised c name -> evaluate_to c es (a :: b :: VString u :: more) -> ascii u ->
  (forall n, In n unit_names -> map lower_ascii u <> lit n) -> fails (eval (call name es) c).
Proof. exact @unknown_unit. Qed.
Print Assumptions C95_unknown_unit.
Theorem C95_date : forall (X : Ext) c es vs, uncustomised c "DATE" -> evaluate_to c es vs -> vs <> [] -> (forall y m d, vs <> [VNumber y; VNumber m; VNumber d]) -> fails (eval (call "DATE" es) c).
Proof. exact @date_arguments. Qed.
Print Assumptions C95_date.

(** NOW and TIME read the clock whatever their arguments, DATE only without any *)
Theorem C95_clock : forall (X : Ext) c es vs, evaluate_to c es vs ->
  (uncustomised c "NOW" -> eval (call "NOW" es) c = Ok (VDateTime x_now)) /\ (uncustomised c "TIME" -> eval (call "TIME" es) c = Ok (num x_time)) /\ (vs = [] -> uncustomised c "DATE" -> eval (call "DATE" es) c = Ok (VDateTime x_today)).
Proof. exact @clock. Qed.
Print Assumptions C95_clock.

(** percentiles and quartiles need a number as the last of at least two arguments, IF two arguments *)
Theorem C95_fraction : forall (X : Ext) name c es vs, In name (percentile_names ++ quartile_names) -> uncustomised c name -> evaluate_to c es vs -> (forall first v x, vs <> (first ++ [v]) ++ [VNumber x]) ->
  fails (eval (call name es) c).
Proof. exact @fraction_arguments. Qed.
Print Assumptions C95_fraction.
Theorem C95_if : forall (X : Ext) c es vs, uncustomised c "IF" -> evaluate_to c es vs -> (length vs < 2)%nat -> fails (eval (call "IF" es) c).
Proof. exact @if_arguments. Qed.
Print Assumptions C95_if.

Example C95_nonvacuous :
  let X := example_ext in
  evaluate (lit "ABS('x')") = Ok (num 0) /\ evaluate (lit "MOD(7.5, 'x')") = evaluate (lit "MOD(7.5, 1)") /\ filled [0; 1] [num 7; VNull; VNull] = [num 7; num 1]
  /\ evaluate (lit "ROUND()") = Ok (num 0) /\ evaluate (lit "ROUND(2.5, 0 - 3)") = Ok (num 3).
Proof. intros X. split; [vm_compute; reflexivity|]. split; [vm_compute; reflexivity|]. split; [reflexivity|]. split; vm_compute; reflexivity. Qed.
Example C95_times_nonvacuous :
  let X := example_ext in
  fails (evaluate (lit "YEAR(5)")) /\ fails (evaluate (lit "YEAR(9000000000000::DateTime)")) /\ fails (evaluate (lit "DATEADD(0::DateTime, 1, 'fortnights')")) /\ fails (evaluate (lit "DATE(2024, 2)")) /\ fails (evaluate (lit "PERCENTILE_INC(0.5)"))
  /\ fails (evaluate (lit "IF(TRUE)")) /\ ~ begins_with [ATime] [num 5] /\ (forall n, In n unit_names -> lit "fortnights" <> lit n) /\ ~ on_calendar 9000000000000.
Proof. intros X. split; [vm_compute; eexists; reflexivity|]. split; [vm_compute; eexists; reflexivity|]. split; [vm_compute; eexists; reflexivity|]. split; [vm_compute; eexists; reflexivity|]. split; [vm_compute; eexists; reflexivity|].
  split; [vm_compute; eexists; reflexivity|]. split; [|split].
  - intros (first & more & E & F). inversion F as [|? v ? r E0 F1]; subst. destruct E0 as (t & ->). discriminate E.
  - intros n I0 E. cbn in I0. repeat (destruct I0 as [<-|I0]; [discriminate E|]). exact I0.
  - rewrite Date_proofs.on_calendar_range. lia. Qed.
