(** Values, tokens and the expression tree. *)
From Coq Require Import String List ZArith NArith Bool.
From Verif Require Import Base F64.
Import ListNotations.

(** [types.rs:4-14] *)
Inductive value : Type :=
| VNumber (n : f64)
| VArray (xs : list value)
| VBoolean (b : bool)
| VString (s : str)
| VNull
| VCurrency (n : f64)
| VDateTime (t : Z)
| VJson (s : str).

(** [lexer.rs:3-44] *)
Inductive token : Type :=
| TNumber (n : f64)
| TIdentifier (s : str)
| TString (s : str)
| TTrue | TFalse | TNull
| TPlus | TMinus | TStar | TSlash | TPercent | TCaret | TBang | TDot
| TSafeNavigation | TEllipsis | TLParen | TRParen | TComma | TColon | TDoubleColon
| TLBracket | TRBracket | TLBrace | TRBrace
| TGreater | TLess | TGe | TLe | TEqEq | TNotEq | TAnd | TOr | TAndAnd | TOrOr
| TQMark | TSemicolon | TColonEquals | TEof.

(** [ast.rs:26-37] *)
Inductive type_name : Type :=
| TyInteger | TyFloat | TyString | TyBoolean | TyArray | TyCurrency | TyDateTime | TyJson.

(** [ast.rs:39-44] *)
Inductive unary_op : Type := UPlus | UMinus | UNot.

(** [ast.rs:46-62] *)
Inductive binary_op : Type :=
| BAdd | BSub | BMul | BDiv | BMod | BPow | BGt | BLt | BGe | BLe | BEq | BNe | BAnd | BOr.

(** [ast.rs:3-24] *)
Inductive expr : Type :=
| ENumber (n : f64)
| EStringLit (s : str)
| ENull
| EUnary (op : unary_op) (e : expr)
| EBinary (l : expr) (op : binary_op) (r : expr)
| EVariable (name : str)
| EPropertyAccess (target : expr) (property : str)
| ESafePropertyAccess (target : expr) (property : str)
| ESafeMethodCall (target : expr) (name : str) (args : list expr)
| EFunctionCall (name : str) (args : list expr)
| ESpread (e : expr)
| EArray (items : list expr)
| EObjectLiteral (pairs : list (str * expr))
| EMethodCall (target : expr) (name : str) (args : list expr) (predicate : bool)
| EIndex (target : expr) (index : expr)
| ESlice (target : expr) (start : option expr) (stop : option expr)
| ETypeCast (e : expr) (ty : type_name)
| EAssignment (variable : str) (value : expr)
| ESequence (es : list expr).

(** ** JSON documents ([serde_json::Value], an external crate)
    A number is one of serde_json's three representations. *)
Inductive jnum : Type :=
| JPos (n : N)    (* u64 *)
| JNeg (z : Z)    (* negative i64 *)
| JFlt (f : f64). (* finite f64 *)

(** Objects are [BTreeMap]s (serde_json without [preserve_order]): key/value
    pairs sorted by key. *)
Inductive json : Type :=
| JNull
| JBool (b : bool)
| JNum (n : jnum)
| JStr (s : str)
| JArr (xs : list json)
| JObj (kvs : list (str * json)).
