(** [runtime/arithmetic.rs] *)
From Coq Require Import String List ZArith NArith Bool.
From Verif Require Import Base F64 Syntax Ext F64Text Utils.
Import ListNotations.
Local Open Scope Z_scope.

(** [match args.get(i) { Some(Value::Number(n)) => *n, _ => d }] *)
Definition num_arg (args : list value) (i : nat) (d : f64) : f64 :=
  match nth_error args i with Some (VNumber n) => n | _ => d end.

(** [arithmetic.rs:8-21] *)
Fixpoint sum_value (acc : f64) (v : value) : f64 :=
  match v with
  | VNumber n | VCurrency n => f_add acc n
  | VArray xs => fold_left sum_value xs acc
  | _ => acc
  end.
(** [arithmetic.rs:6-24] *)
Definition fn_sum (args : list value) : res value :=
  Ok (VNumber (fold_left sum_value args f_zero)).

(** [arithmetic.rs:25-31] *)
Definition fn_round (args : list value) : res value :=
  match args with
  | [] => Ok (VNumber f_zero)
  | VNumber n :: r =>
      let decimals := match r with VNumber d :: _ => f_to_i32 d | _ => 0 end in
      let factor := f_powi (f_of_Z 10) (Z.max decimals 0) in
      Ok (VNumber (f_div (f_round (f_mul n factor)) factor))
  | _ => Err (err "ROUND expects number")
  end.

(** [arithmetic.rs:70-81]: running sum and count *)
Fixpoint avg_value (acc : f64 * Z) (v : value) : f64 * Z :=
  match v with
  | VNumber n | VCurrency n => (f_add (fst acc) n, snd acc + 1)
  | VArray xs => fold_left avg_value xs acc
  | _ => acc
  end.
(** [arithmetic.rs:67-85] *)
Definition fn_avg (args : list value) : res value :=
  let '(acc, count) := fold_left avg_value args (f_zero, 0) in
  Ok (VNumber (if count =? 0 then f_zero else f_div acc (f_of_Z count))).

(** [arithmetic.rs:88-99] and [105-116], [pick] = [f64::min] or [f64::max] *)
Definition pick_opt (pick : f64 -> f64 -> f64) (cur : option f64) (n : f64) : option f64 :=
  Some (match cur with Some c => pick c n | None => n end).
Fixpoint minmax_value (pick : f64 -> f64 -> f64) (cur : option f64) (v : value) : option f64 :=
  match v with
  | VNumber n | VCurrency n => pick_opt pick cur n
  | VArray xs => fold_left (minmax_value pick) xs cur
  | _ => cur
  end.
Definition or_zero (o : option f64) : f64 := match o with Some x => x | None => f_zero end.
(** [arithmetic.rs:86-102] *)
Definition fn_min (args : list value) : res value :=
  Ok (VNumber (or_zero (fold_left (minmax_value f_min) args None))).
(** [arithmetic.rs:103-119] *)
Definition fn_max (args : list value) : res value :=
  Ok (VNumber (or_zero (fold_left (minmax_value f_max) args None))).

(** [arithmetic.rs:122-135] *)
Fixpoint mul_value (acc : f64) (v : value) : f64 :=
  match v with
  | VNumber n | VCurrency n => f_mul acc n
  | VArray xs => fold_left mul_value xs acc
  | _ => acc
  end.
(** [arithmetic.rs:120-138] *)
Definition fn_product (args : list value) : res value :=
  Ok (VNumber (fold_left mul_value args f_one)).

Definition num1 (f : f64 -> f64) (args : list value) : res value :=
  Ok (VNumber (f (num_arg args 0 f_zero))).

(** [arithmetic.rs:4-140] *)
Definition exec_arithmetic {X : Ext} (name : str) (args : list value) : res value :=
  if is name "SUM" then fn_sum args
  else if is name "ROUND" then fn_round args
  else if is name "CEIL" then num1 f_ceil args
  else if is name "FLOOR" then num1 f_floor args
  else if is name "ABS" then num1 f_abs args
  else if is name "SQRT" then num1 f_sqrt args
  else if is name "POW" || is name "POWER" then
    Ok (VNumber (x_powf (num_arg args 0 f_zero) (num_arg args 1 f_zero)))
  else if is name "MOD" then
    Ok (VNumber (f_rem (num_arg args 0 f_zero) (num_arg args 1 f_one)))
  else if is name "INT" then num1 f_floor args
  else if is name "CEILING" then num1 f_ceil args
  else if is name "AVG" || is name "AVERAGE" then fn_avg args
  else if is name "MIN" then fn_min args
  else if is name "MAX" then fn_max args
  else if is name "PRODUCT" || is name "MULTIPLY" then fn_product args
  else Err (mkErr (lit "Unknown arithmetic function: " ++ name) None).
