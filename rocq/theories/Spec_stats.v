(** Vocabulary of the statistical functions. *)
From Coq Require Import String List ZArith QArith Qround Permutation.
From Coq Require Import Floats.SpecFloat.
From Verif Require Import Base F64 Syntax Spec Spec_numbers.
Import ListNotations.

(** the numbers and currency amounts among the values, at any depth of nesting, from left to right *)
Definition collects (vs : list value) (fs : list f64) : Prop := exists ls, leaves_of (VArray vs) ls /\ fs = figures ls.
(** [m] is one of the figures, [k] of the others are at most [m] and the rest at least [m]: the k-th smallest, counting from 0 *)
Definition ranked (k : nat) (fs : list f64) (m : f64) : Prop :=
  exists lo hi, Permutation fs (lo ++ m :: hi) /\ length lo = k /\ Forall (fun x => f_le x m) lo /\ Forall (fun x => f_le m x) hi.
Definition all_numbers (fs : list f64) : Prop := Forall not_nan fs.
(** the names each function answers to *)
Definition mode_names := ["MODE.SNGL"; "MODESNGL"; "MODE_SNGL"]%string.
Definition stdev_names := ["STDEV.P"; "STDEVP"; "STDEV_P"]%string.
Definition var_names := ["VAR.P"; "VARP"; "VAR_P"]%string.
Definition percentile_names := ["PERCENTILE.INC"; "PERCENTILEINC"; "PERCENTILE_INC"]%string.
Definition quartile_names := ["QUARTILE.INC"; "QUARTILEINC"; "QUARTILE_INC"]%string.
(** population variance in floating point: the mean of the squared distances from the mean *)
Definition squared (x : f64) : f64 := f_mul x x.
Definition population_variance (fs : list f64) : f64 := mean (map (fun x => squared (f_sub x (mean fs))) fs).
(** sums of integers *)
Definition sum_Z (zs : list Z) : Z := fold_right Z.add 0%Z zs.
(** [x] is the double closest to the square root of [v]: for every other non-negative double, [v] lies
    on [x]'s side of the square of the point half way *)
Definition nearest_root (x : f64) (v : Q) : Prop :=
  is_finite x = true /\ representable x /\ (0 <= exact x)%Q /\
  forall y, representable y -> is_finite y = true -> (0 <= exact y)%Q ->
    ((exact y < exact x)%Q -> (((exact x + exact y) / inject_Z 2) * ((exact x + exact y) / inject_Z 2) <= v)%Q)
    /\ ((exact x < exact y)%Q -> (v <= ((exact x + exact y) / inject_Z 2) * ((exact x + exact y) / inject_Z 2))%Q).
