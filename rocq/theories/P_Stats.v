(** Statistical functions and the square root. *)
From Coq Require Import String List ZArith NArith QArith Qround Bool.
From Coq Require Import Floats.SpecFloat.
From Verif Require Import Base F64 Syntax Ext Registry Core Evaluator Api Spec Spec_syntax Spec_numbers Spec_stats Stats_proofs Sqrt_proofs.
Import ListNotations.
Local Open Scope Q_scope.

(** * C62 MEDIAN is the middle figure *)

(** the figures are the numbers and currency amounts at any depth; with none of them the median is 0 *)
Theorem C62_nothing : forall (X : Ext) c es vs, uncustomised c "MEDIAN" -> evaluate_to c es vs -> collects vs [] -> eval (call "MEDIAN" es) c = Ok (num 0).
Proof. exact @median_nothing. Qed.
Print Assumptions C62_nothing.

(** an odd number of figures: the one with as many on each side *)
Theorem C62_odd : forall (X : Ext) c es vs fs k, uncustomised c "MEDIAN" -> evaluate_to c es vs -> collects vs fs -> all_numbers fs -> length fs = (2 * k + 1)%nat ->
  exists m, eval (call "MEDIAN" es) c = Ok (VNumber m) /\ ranked k fs m.
Proof. exact @median_odd. Qed.
Print Assumptions C62_odd.

(** an even number: half the sum of the two middle ones *)
Theorem C62_even : forall (X : Ext) c es vs fs k, uncustomised c "MEDIAN" -> evaluate_to c es vs -> collects vs fs -> all_numbers fs -> length fs = (2 * k + 2)%nat ->
  exists a b, eval (call "MEDIAN" es) c = Ok (VNumber (f_div (f_add a b) (f_of_Z 2))) /\ ranked k fs a /\ ranked (S k) fs b.
Proof. exact @median_even. Qed.
Print Assumptions C62_even.

(** a NaN among two or more figures makes the call panic *)
Theorem C62_nan_panics : forall (X : Ext) c es vs fs, uncustomised c "MEDIAN" -> evaluate_to c es vs -> collects vs fs -> (2 <= length fs)%nat -> In f_nan fs ->
  exists m, eval (call "MEDIAN" es) c = Panic m.
Proof. exact @median_nan. Qed.
Print Assumptions C62_nan_panics.
Example C62_nonvacuous :
  let X := example_ext in
  evaluate (lit "MEDIAN(5, [1, ['x', 9]], 3)") = Ok (VNumber (f_of_Z 4)) /\ evaluate (lit "MEDIAN(5, 1, 9)") = Ok (num 5)
  /\ (exists m, evaluate (lit "MEDIAN(1, SQRT(0 - 1))") = Panic m)
  /\ ranked 1 [f_of_Z 5; f_of_Z 1; f_of_Z 9] (f_of_Z 5).
Proof.
  cbv zeta. split; [vm_compute; reflexivity|]. split; [vm_compute; reflexivity|]. split; [eexists; vm_compute; reflexivity|].
  exists [f_of_Z 1], [f_of_Z 9]. split; [apply Permutation.perm_swap|]. split; [reflexivity|]. split; repeat constructor.
Qed.

(** * C63 MODE.SNGL is the most frequent figure, the first of them if there are several *)

Theorem C63_mode : forall (X : Ext) dec name c es vs fs, In name mode_names -> uncustomised c name -> evaluate_to c es vs -> collects vs fs ->
  (fs = [] -> eval (call name es) c = Ok (num 0)) /\
  (fs <> [] -> exists a m b, eval (call name es) c = Ok (VNumber m) /\ fs = a ++ m :: b
    /\ (forall x, In x fs -> (count_occ dec fs x <= count_occ dec fs m)%nat)
    /\ (forall x, In x a -> (count_occ dec fs x < count_occ dec fs m)%nat)).
Proof. exact @mode_call. Qed.
Print Assumptions C63_mode.
Example C63_nonvacuous :
  let X := example_ext in
  evaluate (lit "MODE_SNGL(3, 1, [2, 1], 3, 7)") = Ok (num 3) /\ evaluate (lit "MODESNGL(4, 1, 1)") = Ok (num 1)
  /\ evaluate (lit "MODE_SNGL('x')") = Ok (num 0).
Proof. vm_compute. repeat split; reflexivity. Qed.

(** the documented names with a dot cannot be written in an expression: the text is refused for every such name, whatever the functions registered *)
Theorem C63_dotted_names_refuted : forall (X : Ext), Forall (fun name => fails (evaluate (lit (name ++ "(1, 2, 1)")))) ["MODE.SNGL"; "STDEV.P"; "VAR.P"; "PERCENTILE.INC"; "QUARTILE.INC"]%string.
Proof. intros X. repeat (apply Forall_cons; [eexists; lazy; reflexivity|]). apply Forall_nil. Qed.
Print Assumptions C63_dotted_names_refuted.

(** * C64 PERCENTILE.INC and QUARTILE.INC *)

(** the figures come first, the percentile last; the position [p * (n - 1)] is rounded once and the result is the figure there,
    or the two neighbours weighted by the distance; a percentile outside 0..1 is an error *)
Theorem C64_percentile : forall (X : Ext) name c es e vs fs p, In name percentile_names -> uncustomised c name -> evaluate_to c es vs -> eval e c = Ok (VNumber p) -> es <> [] ->
  collects vs fs -> all_numbers fs -> fs <> [] -> (Z.of_nat (length fs) <= 2 ^ 53)%Z -> representable p -> is_finite p = true ->
  ((exact p < 0 \/ 1 < exact p) -> fails (eval (call name (es ++ [e])) c)) /\
  (0 <= exact p <= 1 -> exists r k m, rounded r (exact p * inject_Z (Z.of_nat (length fs) - 1)) /\ is_finite r = true /\ k = Qfloor (exact r)
     /\ (0 <= k < Z.of_nat (length fs))%Z /\ eval (call name (es ++ [e])) c = Ok (VNumber m) /\
     (exact r == inject_Z k -> ranked (Z.to_nat k) fs m) /\
     (~ exact r == inject_Z k -> exists a b, ranked (Z.to_nat k) fs a /\ ranked (S (Z.to_nat k)) fs b /\
        m = f_add (f_mul a (f_sub (f_of_Z 1) (f_sub r (f_of_Z k)))) (f_mul b (f_sub r (f_of_Z k))))).
Proof. exact @percentile_call. Qed.
Print Assumptions C64_percentile.

(** percentile 0 is the smallest figure and percentile 1 the largest *)
Theorem C64_ends : forall (X : Ext) name c es e vs fs, In name percentile_names -> uncustomised c name -> evaluate_to c es vs -> es <> [] ->
  collects vs fs -> all_numbers fs -> fs <> [] -> (Z.of_nat (length fs) <= 2 ^ 53)%Z ->
  (eval e c = Ok (num 0) -> exists m, eval (call name (es ++ [e])) c = Ok (VNumber m) /\ ranked 0 fs m) /\
  (eval e c = Ok (num 1) -> exists m, eval (call name (es ++ [e])) c = Ok (VNumber m) /\ ranked (length fs - 1) fs m).
Proof. exact @percentile_ends. Qed.
Print Assumptions C64_ends.

Theorem C64_nothing : forall (X : Ext) name c es e vs p, In name percentile_names -> uncustomised c name -> evaluate_to c es vs -> eval e c = Ok (VNumber p) -> es <> [] ->
  collects vs [] -> eval (call name (es ++ [e])) c = Ok (num 0).
Proof. exact @percentile_nothing. Qed.
Print Assumptions C64_nothing.

Theorem C64_nan_panics : forall (X : Ext) name c es e vs fs p, In name percentile_names -> uncustomised c name -> evaluate_to c es vs -> eval e c = Ok (VNumber p) -> es <> [] ->
  collects vs fs -> (2 <= length fs)%nat -> In f_nan fs -> representable p -> is_finite p = true -> 0 <= exact p <= 1 -> exists m, eval (call name (es ++ [e])) c = Panic m.
Proof. exact @percentile_nan. Qed.
Print Assumptions C64_nan_panics.

(** the quartile [q] is the percentile [q / 4] *)
Theorem C64_quartile : forall (X : Ext) name name' c es e e' vs x q, In name quartile_names -> In name' percentile_names -> uncustomised c name -> uncustomised c name' ->
  evaluate_to c es vs -> es <> [] -> eval e c = Ok (VNumber x) -> finite x -> whole_part x = q -> (0 <= q <= 4)%Z ->
  eval e' c = Ok (VNumber (f_div (f_of_Z q) (f_of_Z 4))) ->
  eval (call name (es ++ [e])) c = eval (call name' (es ++ [e'])) c.
Proof. exact @quartile_call. Qed.
Print Assumptions C64_quartile.

Theorem C64_quartile_rejects : forall (X : Ext) name c es e vs fs x, In name quartile_names -> uncustomised c name ->
  evaluate_to c es vs -> es <> [] -> collects vs fs -> fs <> [] -> eval e c = Ok (VNumber x) -> finite x -> (whole_part x < 0 \/ 4 < whole_part x)%Z ->
  fails (eval (call name (es ++ [e])) c).
Proof. exact @quartile_rejects. Qed.
Print Assumptions C64_quartile_rejects.
Example C64_nonvacuous :
  let X := example_ext in
  evaluate (lit "PERCENTILE_INC([15, 20, 35, 40, 50], 0.4)") = Ok (num 29) /\ evaluate (lit "PERCENTILE_INC(4, 8, 0.5)") = Ok (num 6)
  /\ evaluate (lit "QUARTILE_INC([1, 2, 3, 4, 5], 3)") = Ok (num 4) /\ evaluate (lit "PERCENTILEINC([3, 1, 2], 0)") = Ok (num 1)
  /\ fails (evaluate (lit "PERCENTILE_INC([1], 1.5)")) /\ fails (evaluate (lit "QUARTILE_INC([1], 5)"))
  /\ (exists m, evaluate (lit "PERCENTILE_INC(SQRT(0 - 1), 1, 0.5)") = Panic m).
Proof. vm_compute. repeat split; try reflexivity; eexists; reflexivity. Qed.

(** a percentile that is no number counts as 0, and without figures it may be anything *)
Theorem C64_range_refuted : let X := example_ext in
  evaluate (lit "PERCENTILE_INC([3, 1, 2], SQRT(0 - 1))") = Ok (num 1) /\ evaluate (lit "PERCENTILE_INC([], 7)") = Ok (num 0) /\ evaluate (lit "QUARTILE_INC('x', 0 - 9)") = Ok (num 0) /\ evaluate (lit "QUARTILE_INC([1, 2, 3], SQRT(0 - 1))") = Ok (num 1).
Proof. vm_compute. repeat split. Qed.
Print Assumptions C64_range_refuted.

(** a percentile is not always between the smallest and the largest figure: the weights are rounded *)
Theorem C64_between_refuted :
  exists X : Ext, exists text a m, evaluate text = Ok (VNumber m) /\ text = lit "PERCENTILE_INC([0.1, 0.1], 0.2)" /\ evaluate (lit "MAX([0.1, 0.1])") = Ok (VNumber a) /\ exact a < exact m.
Proof. exists example_ext. eexists. eexists. eexists. split; [|split; [reflexivity|split; [vm_compute; reflexivity|]]]; vm_compute; reflexivity. Qed.
Print Assumptions C64_between_refuted.

(** * C65 VAR.P and STDEV.P *)

(** the population variance, computed from the mean, never negative *)
Theorem C65_variance : forall (X : Ext) name c es vs fs, In name var_names -> uncustomised c name -> evaluate_to c es vs -> collects vs fs ->
  eval (call name es) c = Ok (VNumber (population_variance fs)) /\ (population_variance fs = f_nan \/ f_le f_zero (population_variance fs)).
Proof. exact @var_call. Qed.
Print Assumptions C65_variance.

(** the standard deviation is the double closest to the root of the variance *)
Theorem C65_deviation : forall (X : Ext) name name' c es vs fs, In name stdev_names -> In name' var_names -> uncustomised c name -> uncustomised c name' -> evaluate_to c es vs -> collects vs fs ->
  Forall representable fs ->
  exists v r, eval (call name' es) c = Ok (VNumber v) /\ eval (call name es) c = Ok (VNumber r) /\
    (is_finite v = true -> 0 < exact v -> nearest_root r (exact v)) /\ (is_finite v = true -> exact v == 0 -> is_exactly r 0).
Proof. exact @stdev_root. Qed.
Print Assumptions C65_deviation.

(** on whole numbers whose mean and variance are whole, both are exact *)
Theorem C65_whole : forall (X : Ext) name name' c es vs zs m v, In name var_names -> In name' stdev_names -> uncustomised c name -> uncustomised c name' -> evaluate_to c es vs ->
  collects vs (map f_of_Z zs) -> zs <> nil -> (fold_right Z.add 0 (map Z.abs zs) <= 2 ^ 53)%Z -> (Z.of_nat (length zs) <= 2 ^ 53)%Z ->
  (sum_Z zs = Z.of_nat (length zs) * m)%Z -> (sum_Z (map (fun z => (z - m) * (z - m)) zs) = Z.of_nat (length zs) * v)%Z -> (Z.of_nat (length zs) * v <= 2 ^ 53)%Z ->
  (exists r, eval (call name es) c = Ok (VNumber r) /\ is_exactly r (inject_Z v)) /\
  (forall s, (v = s * s)%Z -> (0 <= s)%Z -> exists r, eval (call name' es) c = Ok (VNumber r) /\ is_exactly r (inject_Z s)).
Proof. exact @whole_variance. Qed.
Print Assumptions C65_whole.
Example C65_nonvacuous :
  let X := example_ext in
  evaluate (lit "VAR_P(2, 4, 4, 4, 5, 5, 7, 9)") = Ok (num 4) /\ evaluate (lit "STDEV_P([2, 4, 4, 4], [5, 5, 7, 9])") = Ok (num 2)
  /\ sum_Z [2; 4; 4; 4; 5; 5; 7; 9]%Z = (8 * 5)%Z /\ sum_Z (map (fun z => (z - 5) * (z - 5))%Z [2; 4; 4; 4; 5; 5; 7; 9]%Z) = (8 * 4)%Z.
Proof. vm_compute. repeat split; reflexivity. Qed.

(** equal figures do not always have variance 0: the mean of three times 0.1 is not 0.1 *)
Theorem C65_constant_refuted :
  exists X : Ext, exists v, evaluate (lit "VAR_P(0.1, 0.1, 0.1)") = Ok (VNumber v) /\ 0 < exact v.
Proof. exists example_ext. eexists. split; vm_compute; reflexivity. Qed.
Print Assumptions C65_constant_refuted.

(** * C66 SQRT is correctly rounded *)

Theorem C66_sqrt : forall (X : Ext) c e x, uncustomised c "SQRT" -> eval e c = Ok (VNumber x) -> representable x ->
  exists r, eval (call "SQRT" [e]) c = Ok (VNumber r) /\
    (is_finite x = true -> 0 < exact x -> nearest_root r (exact x)) /\
    (is_finite x = true -> exact x < 0 -> r = f_nan) /\
    (is_finite x = true -> exact x == 0 -> r = x) /\
    (x = S754_infinity false -> r = x) /\ (x = S754_infinity true \/ x = f_nan -> r = f_nan).
Proof. exact @sqrt_call. Qed.
Print Assumptions C66_sqrt.

(** a square of a double has exactly that root *)
Theorem C66_square : forall (X : Ext) c e x y, uncustomised c "SQRT" -> eval e c = Ok (VNumber x) -> representable x -> is_finite x = true ->
  is_double y -> 0 <= y -> exact x == y * y ->
  exists r, eval (call "SQRT" [e]) c = Ok (VNumber r) /\ is_exactly r y.
Proof. exact @sqrt_square. Qed.
Print Assumptions C66_square.
Example C66_nonvacuous :
  let X := example_ext in
  evaluate (lit "SQRT(2)") = Ok (VNumber (S754_finite false 6369051672525773 (-52))) /\ evaluate (lit "SQRT(6.25)") = Ok (VNumber (f_div (f_of_Z 5) (f_of_Z 2)))
  /\ evaluate (lit "SQRT(0 - 1)") = Ok (VNumber f_nan)
  /\ nearest_root (S754_finite false 6369051672525773 (-52)) (exact (f_of_Z 2)).
Proof.
  cbv zeta. repeat (split; [vm_compute; reflexivity|]).
  assert (E : S754_finite false 6369051672525773 (-52) = f_sqrt (f_of_Z 2)) by (vm_compute; reflexivity). rewrite E.
  apply sqrt_nearest; reflexivity.
Qed.
