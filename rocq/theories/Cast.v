(** [runtime/type_casting.rs] *)
From Coq Require Import String List ZArith NArith Bool.
From Verif Require Import Base F64 Syntax Ext F64Text Json.
Import ListNotations.
Local Open Scope Z_scope.

Definition f_of_bool (b : bool) : f64 := if b then f_one else f_zero.

(** [type_casting.rs:24-35]: the leading sign, digits and at most one dot *)
Fixpoint clean_number (first has_dot : bool) (s : str) : str :=
  match s with
  | [] => []
  | c :: r =>
      if first && ((c =? 45)%N || (c =? 43)%N) then c :: clean_number false has_dot r
      else if is_digit c then c :: clean_number false has_dot r
      else if (c =? 46)%N && negb has_dot then c :: clean_number false true r
      else []
  end.

(** [type_casting.rs:7-17] *)
Definition cast_float (v : value) : res value :=
  match v with
  | VNumber n | VCurrency n => Ok (VNumber n)
  | VString s => n <- ok_or (f_from_str s) (err "Cannot cast String to Float") ;; Ok (VNumber n)
  | VBoolean b => Ok (VNumber (f_of_bool b))
  | VNull => Ok (VNumber f_zero)
  | _ => Err (err "Cannot cast to Float")
  end.

(** [type_casting.rs:18-45] *)
Definition cast_integer (v : value) : res value :=
  match v with
  | VNumber n | VCurrency n => Ok (VNumber (f_of_Z (f_to_i64 n)))
  | VString s =>
      let n := match f_from_str (clean_number true false s) with Some n => n | None => f_zero end in
      Ok (VNumber (f_trunc n))
  | VBoolean b => Ok (VNumber (f_of_bool b))
  | VNull => Ok (VNumber f_zero)
  | _ => Err (err "Cannot cast to Integer")
  end.

(** [type_casting.rs:46-55] *)
Definition cast_string {X : Ext} (v : value) : str :=
  match v with
  | VString s => s
  | VNumber n => f_display n
  | VBoolean b => if b then lit "TRUE" else lit "FALSE"
  | VNull => []
  | VArray xs => values_debug xs
  | VCurrency n => f_fixed 4 n
  | VDateTime t => Z_to_str t
  | VJson s => s
  end.

Definition nonblank (s : str) : bool := match trim s with [] => false | _ => true end.
(** [type_casting.rs:56-65] *)
Definition cast_boolean (v : value) : bool :=
  match v with
  | VBoolean b => b
  | VNumber n | VCurrency n => negb (f_eqb n f_zero)
  | VString s => nonblank s
  | VArray xs => match xs with [] => false | _ => true end
  | VNull => false
  | VDateTime t => negb (t =? 0)
  | VJson s => nonblank s
  end.

(** [type_casting.rs:70-80] *)
Definition cast_currency (v : value) : res value :=
  match v with
  | VCurrency n | VNumber n => Ok (VCurrency n)
  | VString s => n <- ok_or (f_from_str s) (err "Cannot cast String to Currency") ;; Ok (VCurrency n)
  | VBoolean b => Ok (VCurrency (f_of_bool b))
  | VNull => Ok (VCurrency f_zero)
  | _ => Err (err "Cannot cast to Currency")
  end.

(** [type_casting.rs:81-89] *)
Definition cast_datetime (v : value) : res value :=
  match v with
  | VDateTime t => Ok (VDateTime t)
  | VNumber n => Ok (VDateTime (f_to_i64 n))
  | VString s => t <- ok_or (i64_from_str s) (err "Cannot cast String to DateTime") ;; Ok (VDateTime t)
  | _ => Err (err "Cannot cast to DateTime")
  end.

(** [type_casting.rs:90-118]; the text inside the resulting [Json] value *)
Fixpoint cast_json (v : value) : str :=
  match v with
  | VJson s | VString s => s
  | VNumber n | VCurrency n => f_display n
  | VBoolean b => if b then lit "true" else lit "false"
  | VNull => lit "null"
  | VDateTime t => Z_to_str t
  | VArray xs => lit "[" ++ join (lit ",") (map cast_json xs) ++ lit "]"
  end.

(** [type_casting.rs:5-120] *)
Definition cast_value {X : Ext} (v : value) (ty : type_name) : res value :=
  match ty with
  | TyFloat => cast_float v
  | TyInteger => cast_integer v
  | TyString => Ok (VString (cast_string v))
  | TyBoolean => Ok (VBoolean (cast_boolean v))
  | TyArray => Ok (match v with VArray xs => VArray xs | other => VArray [other] end)
  | TyCurrency => cast_currency v
  | TyDateTime => cast_datetime v
  | TyJson => Ok (VJson (cast_json v))
  end.
