(** Vocabulary of method calls. *)
From Coq Require Import String List ZArith NArith Bool QArith Qabs Qround.
From Coq Require Import Floats.SpecFloat.
From Verif Require Import Base F64 Syntax Ext Utf8 Core Evaluator Spec Spec_syntax Spec_text Spec_numbers Spec_http.
Import ListNotations.
Local Open Scope Z_scope.

(** the method name [n] is [name] in any mixture of ASCII letter cases *)
Definition spelled (name : string) (n : str) : Prop := map lower_ascii n = lit name.
Definition any_of (names : list string) (n : str) : Prop := exists name, In name names /\ spelled name n.
(** [t.n(args)] and [t.n?(args)] *)
Definition method (t : expr) (n : str) (args : list expr) : expr := EMethodCall t n args false.
Definition asks (t : expr) (n : str) (args : list expr) : expr := EMethodCall t n args true.
(** the value of a method argument: it is run with the variables of the call, without custom functions *)
Definition argument {X : Ext} (c : ctx) (a : expr) (v : value) : Prop := ev a (Some (c_vars c)) = Ok v.

(** ** Predicates *)
(** nothing, an empty array, or text without any character that is not white space *)
Definition blank (v : value) : Prop :=
  v = VNull \/ v = VArray [] \/ exists s, v = VString s /\ white s.
(** the predicates that look at the whole value, and what they ask *)
Definition predicates : list (string * (value -> Prop)) :=
  [("positive", fun v => exists x, v = VNumber x /\ number_relation BGt x f_zero);
   ("negative", fun v => exists x, v = VNumber x /\ number_relation BLt x f_zero);
   ("zero", fun v => exists x, v = VNumber x /\ number_relation BEq x f_zero);
   ("numeric", fun v => exists x, v = VNumber x);
   ("array", fun v => exists xs, v = VArray xs);
   ("nil", fun v => v = VNull);
   ("blank", blank);
   ("present", fun v => ~ blank v)]%string.
Definition predicate_names : list string := map fst predicates ++ ["even"; "odd"]%string.

(** ** Names *)
Definition conversions : list string :=
  ["to_s"; "to_string"; "to_i"; "to_int"; "to_f"; "to_float"; "to_a"; "to_array"; "to_json"; "to_bool"; "to_boolean"]%string.
Definition text_methods : list string :=
  ["length"; "len"; "upper"; "upcase"; "lower"; "downcase"; "trim"; "reverse"; "includes"; "contains"; "startswith"; "starts_with";
   "endswith"; "ends_with"; "split"; "replace"; "substring"; "substr"]%string.
Definition array_methods : list string :=
  ["length"; "len"; "count"; "first"; "last"; "reverse"; "unique"; "sort"; "sum"; "avg"; "average"; "min"; "max"; "join"; "contains"; "includes";
   "flatten"; "compact"; "filter"; "map"; "find"; "reduce"]%string.
Definition number_methods : list string :=
  ["abs"; "ceil"; "ceiling"; "floor"; "round"; "sqrt"; "sin"; "cos"; "tan"; "int"; "between"]%string.
Definition object_methods : list string := ["keys"; "values"; "has_key"; "has"; "dig"]%string.
(** the methods a value has *)
Definition methods_of (v : value) : list string :=
  conversions ++ match v with
                 | VString _ => text_methods
                 | VArray _ => array_methods
                 | VNumber _ => number_methods
                 | VJson _ => object_methods
                 | _ => []
                 end.

(** ** Text *)
Definition ascii (s : str) : Prop := Forall (fun ch => (ch < 128)%N) s.
(** the size of a character and of a text in UTF-8 *)
Definition utf8_size (ch : N) : Z := if (ch <? 128)%N then 1 else if (ch <? 2048)%N then 2 else if (ch <? 65536)%N then 3 else 4.
Definition utf8_length (s : str) : Z := fold_right (fun ch n => utf8_size ch + n) 0 s.
(** ** Arrays *)
(** every element is a number or a currency amount; [fs] are their figures *)
Definition all_figures (xs : list value) (fs : list f64) : Prop :=
  Forall2 (fun v f => v = VNumber f \/ v = VCurrency f) xs fs.
(** how [join] writes an element *)
Definition join_writes (v : value) (s : str) : Prop :=
  match v with
  | VString t => s = t
  | VNumber x => float_text s x
  | VBoolean b => s = if b then lit "true" else lit "false"
  | _ => False
  end.
(** the elements other than null, in order *)
Inductive without_nulls : list value -> list value -> Prop :=
| without_end : without_nulls [] []
| without_null : forall xs out, without_nulls xs out -> without_nulls (VNull :: xs) out
| without_other : forall v xs out, v <> VNull -> without_nulls xs out -> without_nulls (v :: xs) (v :: out).
(** ** Conversions *)
(** [z] is the whole number nearest to [q], the even one on a tie *)
Definition nearest_whole (q : Q) (z : Z) : Prop :=
  (Qabs (q - inject_Z z) <= 1 # 2)%Q /\ ((Qabs (q - inject_Z z) == 1 # 2)%Q -> Z.Even z).
(** the sign bit *)
Definition minus (x : f64) : str :=
  match x with S754_zero true | S754_infinity true | S754_finite true _ _ => lit "-" | _ => [] end.
(** the text of a value *)
Inductive shown : value -> str -> Prop :=
| shown_null : shown VNull []
| shown_text : forall s, shown (VString s) s
| shown_object : forall s, shown (VJson s) s
| shown_truth : forall b, shown (VBoolean b) (if b then lit "true" else lit "false")
| shown_time : forall t s, integer_written t s -> shown (VDateTime t) s
| shown_whole : forall x z s, is_exactly x (inject_Z z) -> z <> 0 -> integer_written z s -> shown (VNumber x) s
| shown_zero : forall b, shown (VNumber (S754_zero b)) (if b then lit "-0" else lit "0")
| shown_fraction : forall x s, is_finite x = true -> (forall z, ~ (exact x == inject_Z z)%Q) -> float_text s x -> shown (VNumber x) s
| shown_other : forall x s, is_finite x = false -> float_text s x -> shown (VNumber x) s
| shown_amount : forall x z units cents, is_finite x = true -> nearest_whole (Qabs (exact x) * 100) z ->
    decimal_text_of (Z.to_N (z / 100)) units -> length cents = 2%nat -> all_digits cents -> Z.of_N (digits_value cents) = z mod 100 ->
    shown (VCurrency x) (minus x ++ units ++ lit "." ++ cents)
| shown_other_amount : forall x s, is_finite x = false -> float_text s x -> shown (VCurrency x) s
| shown_array : forall xs ss t, Forall2 shown xs ss -> joined (lit ", ") ss t -> shown (VArray xs) (lit "[" ++ t ++ lit "]").
(** the number a value converts to *)
Inductive number_of : value -> f64 -> Prop :=
| number_null : number_of VNull f_zero
| number_number : forall x, number_of (VNumber x) x
| number_currency : forall x, number_of (VCurrency x) x
| number_truth : forall b, number_of (VBoolean b) (if b then f_one else f_zero)
| number_text : forall s core x, trimmed s core -> float_text core x -> number_of (VString s) x
| number_words : forall s core, trimmed s core -> (forall x, ~ float_text core x) -> number_of (VString s) f_zero
| number_array : forall xs, number_of (VArray xs) (f_of_Z (Z.of_nat (length xs)))
| number_object : forall s, number_of (VJson s) f_one
| number_time : forall t, number_of (VDateTime t) f_one.
(** the values that convert to FALSE *)
Definition empty_value (v : value) : Prop :=
  v = VNull \/ v = VBoolean false \/ v = VString [] \/ v = VArray []
  \/ exists x, (v = VNumber x \/ v = VCurrency x) /\ number_relation BEq x f_zero.
Definition elements (v : value) : list value :=
  match v with
  | VNull => []
  | VArray xs => xs
  | VString s => map (fun ch => VString [ch]) s
  | other => [other]
  end.
(** ** Numbers *)
(** the methods that give a whole number, and which *)
Definition whole_methods : list (string * (Q -> Z)) :=
  [("floor", Qfloor); ("ceil", Qceiling); ("ceiling", Qceiling); ("round", half_away); ("int", truncated)]%string.
(** ** Arguments *)
(** how many arguments a method needs, depending on the value it is called on *)
Definition on_text (k : nat) (v : value) : nat := match v with VString _ => k | _ => 0 end.
Definition on_text_or_array (k : nat) (v : value) : nat := match v with VString _ | VArray _ => k | _ => 0 end.
Definition on_array (k : nat) (v : value) : nat := match v with VArray _ => k | _ => 0 end.
Definition on_number (k : nat) (v : value) : nat := match v with VNumber _ => k | _ => 0 end.
Definition on_object (k : nat) (v : value) : nat := match v with VJson _ => k | _ => 0 end.
Definition needs_arguments : list (string * (value -> nat)) :=
  [("includes", on_text_or_array 1); ("contains", on_text_or_array 1); ("startswith", on_text 1); ("starts_with", on_text 1); ("endswith", on_text 1);
   ("ends_with", on_text 1); ("split", on_text 1); ("replace", on_text 2); ("substring", on_text 1); ("substr", on_text 1); ("filter", on_array 1); ("map", on_array 1);
   ("find", on_array 1); ("reduce", on_array 2); ("between", on_number 2); ("has_key", on_object 1); ("has", on_object 1); ("dig", on_object 1)]%string.
