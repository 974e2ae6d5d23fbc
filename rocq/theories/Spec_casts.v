(** Vocabulary for what a cast gives, and for the texts of values. *)
From Coq Require Import Floats.SpecFloat QArith Qabs.
From Coq Require Import String List ZArith NArith Bool.
From Verif Require Import Base F64 Syntax Ext Spec Spec_syntax Spec_numbers Spec_text Spec_shown.
From Verif Require Spec_methods.
Import ListNotations.
Local Open Scope Z_scope.

(** a number in plain notation, with as few digits as give it back *)
Inductive number_written : f64 -> str -> Prop :=
| nan_written : number_written S754_nan (lit "NaN")
| infinity_written : forall b, number_written (S754_infinity b) (minus b ++ lit "inf")
| zero_written : forall b, number_written (S754_zero b) (minus b ++ lit "0")
| finite_written : forall x d k s, is_finite x = true -> ~ (exact x == 0)%Q -> shortest_decimal (sign_bit x) d k x -> plain_text (sign_bit x) d k s -> number_written x s.
(** an amount with four decimals; ties go to the even digit *)
Inductive amount_written : f64 -> str -> Prop :=
| finite_amount : forall x z units decimals, is_finite x = true -> Spec_methods.nearest_whole (Qabs (exact x) * 10000) z -> decimal_text_of (Z.to_N (z / 10000)) units ->
    length decimals = 4%nat -> all_digits decimals -> Z.of_N (digits_value decimals) = z mod 10000 -> amount_written x (minus (sign_bit x) ++ units ++ lit "." ++ decimals)
| other_amount : forall x s, is_finite x = false -> number_written x s -> amount_written x s.
(** the nearest whole number towards zero that 64 bits hold *)
Inductive whole_of : f64 -> Z -> Prop :=
| whole_finite : forall x, is_finite x = true -> whole_of x (Z.max (- 2 ^ 63) (Z.min (2 ^ 63 - 1) (truncated (exact x))))
| whole_nan : whole_of S754_nan 0
| whole_large : whole_of (S754_infinity false) (2 ^ 63 - 1)
| whole_small : whole_of (S754_infinity true) (- 2 ^ 63).
(** the text of a value that is no array *)
Inductive text_of : value -> str -> Prop :=
| text_text : forall s, text_of (VString s) s
| json_text : forall s, text_of (VJson s) s
| number_text : forall x s, number_written x s -> text_of (VNumber x) s
| truth_text : forall b, text_of (VBoolean b) (if b then lit "TRUE" else lit "FALSE")
| null_text : text_of VNull []
| amount_text : forall x s, amount_written x s -> text_of (VCurrency x) s
| time_text : forall t s, integer_written t s -> text_of (VDateTime t) s.
(** the JSON text; a text is taken to be JSON already *)
Inductive json_of : value -> str -> Prop :=
| text_json : forall s, json_of (VString s) s
| json_json : forall s, json_of (VJson s) s
| number_json : forall x s, number_written x s -> json_of (VNumber x) s
| amount_json : forall x s, number_written x s -> json_of (VCurrency x) s
| truth_json : forall b, json_of (VBoolean b) (if b then lit "true" else lit "false")
| null_json : json_of VNull (lit "null")
| time_json : forall t s, integer_written t s -> json_of (VDateTime t) s
| array_json : forall xs ss s, Forall2 json_of xs ss -> joined (lit ",") ss s -> json_of (VArray xs) (lit "[" ++ s ++ lit "]").
(** the number of a value that is no text: numbers and amounts themselves, 1 and 0 for the truth values, 0 for null *)
Inductive amount_of : value -> f64 -> Prop :=
| of_number : forall x, amount_of (VNumber x) x
| of_amount : forall x, amount_of (VCurrency x) x
| of_truth : forall b, amount_of (VBoolean b) (f_of_Z (if b then 1 else 0))
| of_null : amount_of VNull (f_of_Z 0).
(** the values that cast to FALSE *)
Definition counts_false (v : value) : Prop :=
  v = VBoolean false \/ v = VNull \/ v = VArray [] \/ v = VDateTime 0 \/ (exists x, (v = VNumber x \/ v = VCurrency x) /\ number_relation BEq x (f_of_Z 0))
  \/ (exists s, (v = VString s \/ v = VJson s) /\ Forall (fun ch => is_whitespace ch = true) s).
Section Casts.
  Context {X : Ext}.
  Inductive cast_as : value -> type_name -> value -> Prop :=
  | to_number : forall v x, amount_of v x -> cast_as v TyFloat (VNumber x)
  | read_number : forall s x, float_text s x -> cast_as (VString s) TyFloat (VNumber x)
  | to_whole : forall v x z, amount_of v x -> whole_of x z -> cast_as v TyInteger (num z)
  | to_text : forall v s, text_of v s -> cast_as v TyString (VString s)
  | array_to_text : forall xs ss s, Forall2 shown xs ss -> joined (lit ", ") ss s -> cast_as (VArray xs) TyString (VString (lit "[" ++ s ++ lit "]"))
  | to_truth : forall v b, (b = false <-> counts_false v) -> cast_as v TyBoolean (VBoolean b)
  | stays_array : forall xs, cast_as (VArray xs) TyArray (VArray xs)
  | into_array : forall v, (forall xs, v <> VArray xs) -> cast_as v TyArray (VArray [v])
  | to_amount : forall v x, amount_of v x -> cast_as v TyCurrency (VCurrency x)
  | read_amount : forall s x, float_text s x -> cast_as (VString s) TyCurrency (VCurrency x)
  | stays_time : forall t, cast_as (VDateTime t) TyDateTime (VDateTime t)
  | to_time : forall x t, whole_of x t -> cast_as (VNumber x) TyDateTime (VDateTime t)
  | read_time : forall s t, integer_text s t -> cast_as (VString s) TyDateTime (VDateTime t)
  | to_json : forall v s, json_of v s -> cast_as v TyJson (VJson s).
End Casts.
(** JOIN: the separator is the second argument if that is a text, otherwise a comma *)
Definition separator (more : list value) : str := match more with VString s :: _ => s | _ => lit "," end.
(** the functions whose first argument must be an array *)
Definition array_names : list string := ["FIRST"; "LAST"; "CONTAINS"; "UNIQUE"; "SORT"; "REVERSE"; "JOIN"]%string.
