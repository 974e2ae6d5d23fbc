(** Vocabulary for values that pass into JavaScript and out of it. *)
From Coq Require Import String List ZArith NArith Bool.
From Verif Require Import Base F64 Utf8 Syntax JsEngine Host.
Import ListNotations.
Local Open Scope N_scope.

(** the 16-bit units of a character: itself, or a high and a low surrogate *)
Inductive char_units : N -> list N -> Prop :=
| one_unit : forall c, c < 65536 -> char_units c [c]
| two_units : forall hi lo, lo < 1024 -> char_units (65536 + hi * 1024 + lo) [55296 + hi; 56320 + lo].
Definition utf16 (s : str) (us : list N) : Prop := exists ps, Forall2 char_units s ps /\ us = concat ps.

(** [goes_in v j]: JavaScript sees the value [v] as [j]; null is undefined, amounts and
    dates are numbers, and a JSON value is its text *)
Inductive goes_in : value -> js -> Prop :=
| number_enters : forall n, goes_in (VNumber n) (JsNumber n)
| text_enters : forall s us, utf16 s us -> goes_in (VString s) (JsText us)
| boolean_enters : forall b, goes_in (VBoolean b) (JsBool b)
| null_enters : goes_in VNull JsUndefined
| array_enters : forall vs js, Forall2 goes_in vs js -> goes_in (VArray vs) (JsArray js)
| amount_enters : forall n, goes_in (VCurrency n) (JsNumber n)
| date_enters : forall t, goes_in (VDateTime t) (JsNumber (f_of_Z t))
| json_enters : forall s us, utf16 s us -> goes_in (VJson s) (JsText us).

(** [comes_out j v]: the crate sees what JavaScript returned, [j], as the value [v]; an
    object is the JSON text that JSON.stringify writes *)
Inductive comes_out : js -> value -> Prop :=
| undefined_arrives : comes_out JsUndefined VNull
| null_arrives : comes_out JsNull VNull
| boolean_arrives : forall b, comes_out (JsBool b) (VBoolean b)
| number_arrives : forall n, comes_out (JsNumber n) (VNumber n)
| text_arrives : forall s us, valid_str s -> utf16 s us -> comes_out (JsText us) (VString s)
| array_arrives : forall js vs, Forall2 comes_out js vs -> comes_out (JsArray js) (VArray vs)
| object_arrives : forall s us, valid_str s -> utf16 s us -> comes_out (JsObject (ShownAs us)) (VJson s)
| function_arrives : comes_out (JsObject NotShown) (VString (lit "[object Object]"))
| other_arrives : comes_out JsOther (VString (lit "[unknown type]")).

(** an array that contains itself, or that contains such an array *)
Inductive endless : js -> Prop :=
| holds_itself : endless JsLoop
| holds_endless : forall j js, In j js -> endless j -> endless (JsArray js).

(** the source, called with the values, gives the value *)
Definition js_gives {H : Host} (code : str) (vs : list value) (v : value) : Prop :=
  exists args r, Forall2 goes_in vs args /\ h_js code args = JsReturned r /\ comes_out r v.

(** a value as it comes back from a function that returns it *)
Inductive comes_back : value -> value -> Prop :=
| number_back : forall n, comes_back (VNumber n) (VNumber n)
| text_back : forall s, comes_back (VString s) (VString s)
| boolean_back : forall b, comes_back (VBoolean b) (VBoolean b)
| null_back : comes_back VNull VNull
| array_back : forall vs ws, Forall2 comes_back vs ws -> comes_back (VArray vs) (VArray ws)
| amount_back : forall n, comes_back (VCurrency n) (VNumber n)
| date_back : forall t, comes_back (VDateTime t) (VNumber (f_of_Z t))
| json_back : forall s, comes_back (VJson s) (VString s).
(** every text inside is Unicode, as every text in Rust is *)
Inductive unicode_value : value -> Prop :=
| unicode_number : forall n, unicode_value (VNumber n)
| unicode_string : forall s, valid_str s -> unicode_value (VString s)
| unicode_boolean : forall b, unicode_value (VBoolean b)
| unicode_null : unicode_value VNull
| unicode_array : forall vs, Forall unicode_value vs -> unicode_value (VArray vs)
| unicode_amount : forall n, unicode_value (VCurrency n)
| unicode_date : forall t, unicode_value (VDateTime t)
| unicode_json : forall s, valid_str s -> unicode_value (VJson s).
(** nothing inside changes on the way: no amount, no date, no JSON value *)
Inductive plain_value : value -> Prop :=
| plain_num : forall n, plain_value (VNumber n)
| plain_str : forall s, plain_value (VString s)
| plain_bool : forall b, plain_value (VBoolean b)
| plain_null : plain_value VNull
| plain_array : forall vs, Forall plain_value vs -> plain_value (VArray vs).
