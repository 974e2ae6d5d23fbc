(** Model of Rust's [f64] on top of the standard library's [SpecFloat]
    (binary64, round to nearest even).  NaN payloads are not represented:
    there is a single NaN. *)
From Coq Require Import ZArith NArith Bool List.
From Coq Require Import Floats.SpecFloat.
From Verif Require Import Base.
Local Open Scope Z_scope.

Definition prec := 53.
Definition emax := 1024.
Definition f64 := spec_float.

Definition f_add := SFadd prec emax.
Definition f_sub := SFsub prec emax.
Definition f_mul := SFmul prec emax.
Definition f_div := SFdiv prec emax.
Definition f_sqrt := SFsqrt prec emax.
Definition f_neg : f64 -> f64 := SFopp.
Definition f_abs : f64 -> f64 := SFabs.
(** IEEE comparisons: every comparison with NaN is false, [!=] is true. *)
Definition f_eqb : f64 -> f64 -> bool := SFeqb.
Definition f_ltb : f64 -> f64 -> bool := SFltb.
Definition f_leb : f64 -> f64 -> bool := SFleb.
Definition f_cmp : f64 -> f64 -> option comparison := SFcompare.

Definition f_nan : f64 := S754_nan.
Definition f_inf : f64 := S754_infinity false.
Definition f_zero : f64 := S754_zero false.
Definition is_nan (x : f64) : bool := match x with S754_nan => true | _ => false end.
Definition is_finite (x : f64) : bool :=
  match x with S754_zero _ | S754_finite _ _ _ => true | _ => false end.
Definition is_infinite (x : f64) : bool := match x with S754_infinity _ => true | _ => false end.

(** [z as f64] *)
Definition f_of_Z (z : Z) : f64 := binary_normalize prec emax z 0 false.
Definition f_one : f64 := f_of_Z 1.

(** Bit equality ([to_bits] compare), all NaN identified. *)
Definition f_bits_eqb (x y : f64) : bool :=
  match x, y with
  | S754_nan, S754_nan => true
  | S754_zero a, S754_zero b => Bool.eqb a b
  | S754_infinity a, S754_infinity b => Bool.eqb a b
  | S754_finite a m e, S754_finite b m' e' => Bool.eqb a b && Pos.eqb m m' && Z.eqb e e'
  | _, _ => false
  end.

(** Signed integer mantissa. *)
Definition signed (s : bool) (m : positive) : Z := if s then Zneg m else Zpos m.

(** Truncation towards zero of a finite float, as an integer. *)
Definition trunc_Z (x : f64) : Z :=
  match x with
  | S754_finite s m e =>
      let a := if 0 <=? e then Zpos m * 2 ^ e else Zpos m / 2 ^ (- e) in
      if s then - a else a
  | _ => 0
  end.

(** [x as iN]: truncation, saturating; NaN gives 0. *)
Definition f_to_int (lo hi : Z) (x : f64) : Z :=
  match x with
  | S754_nan => 0
  | S754_infinity s => if s then lo else hi
  | _ => Z.max lo (Z.min hi (trunc_Z x))
  end.
Definition i64_min := - 2 ^ 63.
Definition i64_max := 2 ^ 63 - 1.
Definition f_to_i64 := f_to_int i64_min i64_max.
(** [isize] on a 64-bit target *)
Definition f_to_isize := f_to_i64.
Definition f_to_i32 := f_to_int (- 2 ^ 31) (2 ^ 31 - 1).
Definition f_to_u32 := f_to_int 0 (2 ^ 32 - 1).
Definition f_to_usize := f_to_int 0 (2 ^ 64 - 1).

(** Rounding a finite non-integral float to an integer [z] keeps the sign of
    zero results. *)
Definition f_of_Z_signed (s : bool) (z : Z) : f64 :=
  match z with Z0 => S754_zero s | _ => f_of_Z z end.

(** [f64::floor] *)
Definition f_floor (x : f64) : f64 :=
  match x with
  | S754_finite s m e =>
      if 0 <=? e then x else f_of_Z_signed s (signed s m / 2 ^ (- e))
  | _ => x
  end.
(** [f64::ceil] *)
Definition f_ceil (x : f64) : f64 := f_neg (f_floor (f_neg x)).
(** [f64::trunc] *)
Definition f_trunc (x : f64) : f64 :=
  match x with
  | S754_finite s m e => if 0 <=? e then x else f_of_Z_signed s (trunc_Z x)
  | _ => x
  end.
(** [f64::round]: half away from zero. *)
Definition f_round (x : f64) : f64 :=
  match x with
  | S754_finite s m e =>
      if 0 <=? e then x
      else
        let a := (2 * Zpos m + 2 ^ (- e)) / (2 * 2 ^ (- e)) in
        f_of_Z_signed s (if s then - a else a)
  | _ => x
  end.
(** [f64::fract]: x - trunc x *)
Definition f_fract (x : f64) : f64 := f_sub x (f_trunc x).

(** [x % y]: exact remainder with the sign of [x] (C fmod). *)
Definition f_rem (x y : f64) : f64 :=
  match x, y with
  | S754_nan, _ | _, S754_nan => S754_nan
  | S754_infinity _, _ => S754_nan
  | _, S754_zero _ => S754_nan
  | _, S754_infinity _ => x
  | S754_zero _, _ => x
  | S754_finite s m e, S754_finite _ m' e' =>
      let ez := Z.min e e' in
      let a := Zpos m * 2 ^ (e - ez) in
      let b := Zpos m' * 2 ^ (e' - ez) in
      let r := Z.rem a b in
      binary_normalize prec emax (if s then - r else r) ez s
  end.

(** [f64::min]/[max]: NaN is ignored if the other operand is a number.  For
    zeros of opposite sign Rust leaves the result unspecified; the model
    returns the first operand. *)
Definition f_min (x y : f64) : f64 :=
  match x, y with
  | S754_nan, _ => y
  | _, S754_nan => x
  | _, _ => if f_ltb y x then y else x
  end.
Definition f_max (x y : f64) : f64 :=
  match x, y with
  | S754_nan, _ => y
  | _, S754_nan => x
  | _, _ => if f_ltb x y then y else x
  end.

(** ** Reading decimal text: the value [m * 10^e10] correctly rounded.
    For a negative exponent the quotient m / 10^k is rounded once, by the
    division kernel of [SpecFloat] (which keeps a sticky remainder). *)
Definition f_of_dec (neg : bool) (m : N) (e10 : Z) : f64 :=
  match m with
  | N0 => S754_zero neg
  | Npos p =>
      if 0 <=? e10 then binary_round prec emax neg (p * Z.to_pos (10 ^ e10))%positive 0
      else
        let '(mz, ez, lz) := SFdiv_core_binary prec emax (Zpos p) 0 (10 ^ (- e10)) 0 in
        binary_round_aux prec emax neg mz ez lz
  end.
