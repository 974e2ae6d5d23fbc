(** Vocabulary for the exact value of a floating-point number. *)
From Coq Require Import String List ZArith QArith Qabs Qround.
From Coq Require Import Floats.SpecFloat.
From Verif Require Import Base F64 Syntax Spec.
Import ListNotations.
Local Open Scope Q_scope.

(** the rational number that a finite double stands for *)
Definition exact (x : f64) : Q :=
  match x with
  | S754_finite s m e => ((if s then Zneg m else Zpos m) * 2 ^ Z.max e 0 # Z.to_pos (2 ^ Z.max (- e) 0))
  | _ => 0
  end.
(** the significand of a finite double is even *)
Definition even_significand (x : f64) : Prop := match x with S754_finite _ m _ => Z.Even (Zpos m) | _ => True end.
(** no finite double is closer to [v] than [x] is; of two that are equally close, [x] is the one with the even significand *)
Definition nearest (x : f64) (v : Q) : Prop :=
  is_finite x = true /\ representable x /\
  (forall y, representable y -> is_finite y = true -> Qabs (exact x - v) <= Qabs (exact y - v)) /\
  (forall y, representable y -> is_finite y = true -> Qabs (exact y - v) == Qabs (exact x - v) -> ~ exact y == exact x -> even_significand x).
(** [v] is beyond the largest finite double by at least half a step *)
Definition overflows (v : Q) : Prop := inject_Z (2 ^ 1024 - 2 ^ 970) <= Qabs v.
(** [n * 10^e] *)
Definition decimal (n : N) (e : Z) : Q := (Z.of_N n * 10 ^ Z.max e 0 # Z.to_pos (10 ^ Z.max (- e) 0)).
(** [x] is what a correctly rounded operation returns for the exact result [v] *)
Definition rounded (x : f64) (v : Q) : Prop :=
  match x with
  | S754_infinity s => overflows v /\ (if s then v < 0 else 0 < v)
  | _ => ~ overflows v /\ nearest x v
  end.
(** the sign of a number, zeros included *)
Definition has_sign (negative : bool) (x : f64) : Prop :=
  match x with S754_zero s | S754_infinity s | S754_finite s _ _ => s = negative | S754_nan => False end.
(** [x] is the double that a sign and the decimal [n * 10^e] denote *)
Definition denotes (negative : bool) (n : N) (e : Z) (x : f64) : Prop :=
  has_sign negative x /\ rounded x (if negative then - decimal n e else decimal n e).
(** the exact result of an arithmetic operator *)
Definition exact_op (op : binary_op) (a b : Q) : option Q :=
  match op with
  | BAdd => Some (a + b)
  | BSub => Some (a - b)
  | BMul => Some (a * b)
  | BDiv => Some (a / b)
  | _ => None
  end.
(** the sign bit *)
Definition sign_bit (x : f64) : bool := match x with S754_zero s | S754_infinity s | S754_finite s _ _ => s | S754_nan => false end.
Definition is_zero (x : f64) : Prop := exists s, x = S754_zero s.
Definition is_infinity (x : f64) : Prop := exists s, x = S754_infinity s.
Definition operators : list binary_op := [BAdd; BSub; BMul; BDiv; BMod].
(** what the operators return when the exact result does not exist as a number *)
Inductive exceptional : binary_op -> f64 -> f64 -> f64 -> Prop :=
| nan_left : forall op y, In op operators -> exceptional op S754_nan y S754_nan
| nan_right : forall op x, In op operators -> exceptional op x S754_nan S754_nan
| sum_left : forall s y, is_finite y = true \/ y = S754_infinity s -> exceptional BAdd (S754_infinity s) y (S754_infinity s)
| sum_right : forall s x, is_finite x = true -> exceptional BAdd x (S754_infinity s) (S754_infinity s)
| sum_cancels : forall s, exceptional BAdd (S754_infinity s) (S754_infinity (negb s)) S754_nan
| difference_left : forall s y, is_finite y = true \/ y = S754_infinity (negb s) -> exceptional BSub (S754_infinity s) y (S754_infinity s)
| difference_right : forall s x, is_finite x = true -> exceptional BSub x (S754_infinity s) (S754_infinity (negb s))
| difference_cancels : forall s, exceptional BSub (S754_infinity s) (S754_infinity s) S754_nan
| product_infinite : forall x y, x <> S754_nan -> y <> S754_nan -> is_infinity x \/ is_infinity y -> ~ is_zero x -> ~ is_zero y ->
    exceptional BMul x y (S754_infinity (xorb (sign_bit x) (sign_bit y)))
| product_undefined : forall x y, is_infinity x /\ is_zero y \/ is_zero x /\ is_infinity y -> exceptional BMul x y S754_nan
| quotient_infinite : forall x y, x <> S754_nan -> y <> S754_nan -> is_infinity x /\ ~ is_infinity y \/ is_zero y /\ ~ is_zero x ->
    exceptional BDiv x y (S754_infinity (xorb (sign_bit x) (sign_bit y)))
| quotient_vanishes : forall x y, is_finite x = true -> is_infinity y -> exceptional BDiv x y (S754_zero (xorb (sign_bit x) (sign_bit y)))
| quotient_undefined : forall x y, is_infinity x /\ is_infinity y \/ is_zero x /\ is_zero y -> exceptional BDiv x y S754_nan
| remainder_undefined : forall x y, is_infinity x \/ is_zero y -> exceptional BMod x y S754_nan
| remainder_itself : forall x y, is_finite x = true -> is_infinity y -> exceptional BMod x y x.
(** whether a result that is zero is the negative one *)
Definition zero_sign (op : binary_op) (x y : f64) (s : bool) : Prop :=
  match op with
  | BAdd => s = true <-> x = S754_zero true /\ y = S754_zero true
  | BSub => s = true <-> x = S754_zero true /\ y = S754_zero false
  | BMod => s = sign_bit x
  | _ => s = xorb (sign_bit x) (sign_bit y)
  end.
(** [v] is the value of some finite double *)
Definition is_double (v : Q) : Prop := exists y, representable y /\ is_finite y = true /\ exact y == v.
(** rounding functions on exact numbers *)
Definition truncated (q : Q) : Z := if Qlt_le_dec q 0 then Qceiling q else Qfloor q.
Definition half_away (q : Q) : Z := if Qlt_le_dec q 0 then Qceiling (q - (1 # 2)) else Qfloor (q + (1 # 2)).
(** the functions that return a whole number, and the whole number each returns *)
Definition whole_functions : list (string * (Q -> Z)) :=
  [("FLOOR", Qfloor); ("INT", Qfloor); ("CEIL", Qceiling); ("CEILING", Qceiling); ("ROUND", half_away)]%string.
(** [x] is the double whose value is [v] *)
Definition is_exactly (x : f64) (v : Q) : Prop := is_finite x = true /\ representable x /\ exact x == v.
