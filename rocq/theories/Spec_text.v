(** Vocabulary for numbers written as text, and for the types of values. *)
From Coq Require Import String List ZArith NArith QArith Qabs Bool.
From Coq Require Import Floats.SpecFloat.
From Verif Require Import Base F64 Syntax Spec_syntax Spec_numbers.
Import ListNotations.
Local Open Scope N_scope.

Inductive sign_text : str -> bool -> Prop :=
| no_sign : sign_text [] false
| plus_sign : sign_text (lit "+") false
| minus_sign : sign_text (lit "-") true.
Definition signed_value (negative : bool) (n : N) : Z := if negative then (- Z.of_N n)%Z else Z.of_N n.
Definition all_digits (ds : str) : Prop := forallb is_digit ds = true.

(** an optional exponent: [e] or [E], an optional sign, digits *)
Inductive exponent_text : str -> Z -> Prop :=
| no_exponent : exponent_text [] 0%Z
| some_exponent : forall c sg neg ds, c = 101 \/ c = 69 -> sign_text sg neg -> digits ds ->
    exponent_text (c :: sg ++ ds) (signed_value neg (digits_value ds)).
(** digits, with at most one point among them and at least one digit;
    [mantissa_text text whole fraction] *)
Inductive mantissa_text : str -> str -> str -> Prop :=
| no_point : forall ds, digits ds -> mantissa_text ds ds []
| with_point : forall a b, all_digits a -> all_digits b -> a ++ b <> [] -> mantissa_text (a ++ lit "." ++ b) a b.
(** [float_text s x]: the text [s] is a floating-point number, read as [x] *)
Inductive float_text : str -> f64 -> Prop :=
| infinity_text : forall sg neg w, sign_text sg neg -> same_word w (lit "inf") \/ same_word w (lit "infinity") ->
    float_text (sg ++ w) (S754_infinity neg)
| nan_text : forall sg neg w, sign_text sg neg -> same_word w (lit "nan") -> float_text (sg ++ w) f_nan
| decimal_number : forall sg neg m a b ex e x, sign_text sg neg -> mantissa_text m a b -> exponent_text ex e ->
    denotes neg (digits_value (a ++ b)) (e - Z.of_nat (length b)) x -> float_text (sg ++ m ++ ex) x.
(** [integer_text s z]: the text [s] is a 64-bit integer *)
Inductive integer_text : str -> Z -> Prop :=
| integer_digits : forall sg neg ds, sign_text sg neg -> digits ds ->
    (- 2 ^ 63 <= signed_value neg (digits_value ds) < 2 ^ 63)%Z ->
    integer_text (sg ++ ds) (signed_value neg (digits_value ds)).

(** what a value of a type looks like *)
Definition of_type (ty : type_name) (v : value) : Prop :=
  match ty with
  | TyFloat | TyInteger => exists n, v = VNumber n
  | TyString => exists s, v = VString s
  | TyBoolean => exists b, v = VBoolean b
  | TyArray => exists xs, v = VArray xs
  | TyCurrency => exists n, v = VCurrency n
  | TyDateTime => exists t, v = VDateTime t
  | TyJson => exists s, v = VJson s
  end.
(** the values that cannot be cast to a type *)
Definition uncastable (v : value) (ty : type_name) : Prop :=
  match ty with
  | TyFloat | TyCurrency =>
      match v with
      | VArray _ | VDateTime _ | VJson _ => True
      | VString s => forall x, ~ float_text s x
      | _ => False
      end
  | TyInteger => match v with VArray _ | VDateTime _ | VJson _ => True | _ => False end
  | TyDateTime =>
      match v with
      | VDateTime _ | VNumber _ => False
      | VString s => forall z, ~ integer_text s z
      | _ => True
      end
  | TyString | TyBoolean | TyArray | TyJson => False
  end.
(** a number that is a whole number *)
Definition integral (x : f64) : Prop := exists z, x = f_of_Z z.
(** the usual decimal text of a natural number: no leading zeros *)
Definition decimal_text_of (n : N) (ds : str) : Prop := digits ds /\ digits_value ds = n /\ (hd 0 ds = 48 -> ds = [48]).
(** the usual decimal text of an integer *)
Definition integer_written (z : Z) (s : str) : Prop :=
  exists ds, decimal_text_of (Z.abs_N z) ds /\ s = if (z <? 0)%Z then lit "-" ++ ds else ds.

(** [d * 10^k] denotes [x]; no decimal with fewer digits does; and of those with as many digits it is the closest to [x] *)
Definition shortest_decimal (negative : bool) (d : N) (k : Z) (x : f64) : Prop :=
  denotes negative d k x /\
  forall n e, denotes negative n e x ->
    (forall p, n < 10 ^ p -> d < 10 ^ p) /\
    ((forall p, d < 10 ^ p -> n < 10 ^ p) -> (Qabs (decimal d k - Qabs (exact x)) <= Qabs (decimal n e - Qabs (exact x)))%Q).
(** [d * 10^k] in plain notation: an optional minus sign, whole part, and a fraction when there is one; no superfluous zeros *)
Definition plain_text (negative : bool) (d : N) (k : Z) (s : str) : Prop :=
  exists a b, s = (if negative then lit "-" else []) ++ a ++ (match b with [] => [] | _ => lit "." ++ b end) /\ digits a /\ all_digits b
  /\ (decimal (digits_value (a ++ b)) (- Z.of_nat (length b)) == decimal d k)%Q
  /\ (a = lit "0" \/ hd 48 a <> 48) /\ (b = [] \/ last b 48 <> 48).
