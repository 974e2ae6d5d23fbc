(** Vocabulary of the text, path and financial functions. *)
From Coq Require Import String List ZArith NArith Bool QArith.
From Coq Require Import Floats.SpecFloat.
From Verif Require Import Base F64 Syntax Ext Json F64Text Core Evaluator Spec Spec_syntax Spec_text Spec_numbers.
Import ListNotations.
Local Open Scope Z_scope.

(** ** CONCAT *)
(** [s] denotes the number [x]; a whole number below 2^53 is written as a plain integer *)
Definition number_text (x : f64) (s : str) : Prop :=
  float_text s x /\ forall z, Z.abs z < 2 ^ 53 -> x = f_of_Z z -> integer_written z s.
(** the text CONCAT inserts for a value: nothing for null, amounts, dates and objects *)
Inductive inlined : value -> str -> Prop :=
| inlined_text : forall s, inlined (VString s) s
| inlined_number : forall x s, number_text x s -> inlined (VNumber x) s
| inlined_truth : forall b, inlined (VBoolean b) (if b then lit "TRUE" else lit "FALSE")
| inlined_array : forall vs ss, Forall2 inlined vs ss -> inlined (VArray vs) (concat ss)
| inlined_null : inlined VNull []
| inlined_amount : forall x, inlined (VCurrency x) []
| inlined_time : forall t, inlined (VDateTime t) []
| inlined_object : forall s, inlined (VJson s) [].

(** ** JQ *)
(** the JSON document of a value *)
Inductive json_form : value -> json -> Prop :=
| form_null : json_form VNull JNull
| form_truth : forall b, json_form (VBoolean b) (JBool b)
| form_text : forall s, json_form (VString s) (JStr s)
| form_array : forall vs js, Forall2 json_form vs js -> json_form (VArray vs) (JArr js)
| form_object : forall s j, json_parse s = Some j -> json_form (VJson s) j
| form_natural : forall x n, is_exactly x (inject_Z (Z.of_N n)) -> Z.of_N n < 2 ^ 63 -> json_form (VNumber x) (JNum (JPos n))
| form_negative : forall x z, is_exactly x (inject_Z z) -> - 2 ^ 63 <= z < 0 -> json_form (VNumber x) (JNum (JNeg z))
| form_fraction : forall x, is_finite x = true -> representable x -> (forall z, - 2 ^ 63 <= z <= 2 ^ 63 -> ~ (exact x == inject_Z z)%Q) ->
    json_form (VNumber x) (JNum (JFlt x))
| form_amount : forall x, is_finite x = true -> json_form (VCurrency x) (JNum (JFlt x)).

(** ** Money over time *)
(** the number at position [i] of the arguments, [d] if there is none *)
Definition optional (vs : list value) (i : nat) (d x : f64) : Prop :=
  nth_error vs i = Some (VNumber x) \/ (x = d /\ forall y, nth_error vs i <> Some (VNumber y)).
(** payments at the beginning of the periods? *)
Definition at_start (ty : f64) : bool := negb (f_eqb ty f_zero).
(** what the money grows by over one period and over all of them *)
Definition one_plus (rate : f64) : f64 := f_add f_one rate.
Definition growth {X : Ext} (rate nper : f64) : f64 := x_powf (one_plus rate) nper.
(** the value at the end of one unit paid in each period *)
Definition annuity {X : Ext} (rate nper : f64) (start : bool) : f64 :=
  f_mul (f_div (f_sub (growth rate nper) f_one) rate) (if start then one_plus rate else f_one).
(** [owed pv pmt rate k b]: a loan of [pv] with payments [pmt] (negative amounts) at the end of the
    periods; [b] is what bears the interest of period [k] *)
Inductive owed (pv pmt rate : f64) : nat -> f64 -> Prop :=
| owed_first : owed pv pmt rate 1 pv
| owed_next : forall k b, owed pv pmt rate k b -> owed pv pmt rate (S k) (f_add (f_add b (f_mul b rate)) pmt).
(** the balance the code keeps instead: it subtracts the interest *)
Inductive tallied (pv pmt rate : f64) (start : bool) : nat -> f64 -> Prop :=
| tallied_first : tallied pv pmt rate start 1 pv
| tallied_next : forall k b, tallied pv pmt rate start k b ->
    tallied pv pmt rate start (S k)
      (f_add b (f_sub pmt (if start then f_div (f_mul b rate) (one_plus rate) else f_mul b rate))).
(** the yearly rate of depreciation, and the value in the books after [k] periods *)
Definition decline {X : Ext} (cost salvage life : f64) : f64 := f_sub f_one (x_powf (f_div salvage cost) (f_div f_one life)).
Definition first_year (cost rate month : f64) : f64 := f_div (f_mul (f_mul cost rate) month) (f_of_Z 12).
Inductive booked (cost rate month : f64) : nat -> f64 -> Prop :=
| booked_first : booked cost rate month 1 (f_sub cost (first_year cost rate month))
| booked_next : forall k b, booked cost rate month k b -> booked cost rate month (S k) (f_sub b (f_mul b rate)).
(** the financial functions with the least and the greatest number of arguments; the first of them must be numbers *)
Definition financial_arity : list (string * (nat * nat)) := [("PMT", (3, 5)); ("FV", (3, 5)); ("IPMT", (4, 6)); ("DB", (4, 5))]%nat%string.

(** the example oracle with powers to whole exponents and one half, and paths [$] (the document), [$.k] (member [k]) and [$*] (all items) *)
Definition example_paths (j : json) (p : str) : list json + str :=
  match p with
  | [36%N] => inl [j]
  | 36%N :: 46%N :: k => match jget k j with Some r => inl [r] | None => inl [] end
  | [36%N; 42%N] => match j with JArr js => inl js | _ => inl [] end
  | _ => inr (lit "syntax")
  end.
Definition example_powers : Ext :=
  let X := example_ext in
  Build_Ext x_upper_char x_lower_char x_final_sigma x_alnum (fun x y => if f_eqb y (S754_finite false 4503599627370496 (-53)) then f_sqrt x else f_powi x (f_to_i32 y)) x_sin x_cos x_tan x_printable x_now x_today x_time x_json_err x_json_exp_plus
    example_paths x_sort_nan.
(** the characters with the property White_Space of Unicode *)
Definition unicode_white_space : list N :=
  [9; 10; 11; 12; 13; 32; 133; 160; 5760; 8192; 8193; 8194; 8195; 8196; 8197; 8198; 8199; 8200; 8201; 8202; 8232; 8233; 8239; 8287; 12288]%N.
