(** Property theorems about type casts. *)
From Coq Require Import String List ZArith NArith Bool Lia.
From Verif Require Import Base F64 Syntax Ext Cast Registry Core Evaluator Api Spec Spec_syntax Spec_text Cast_proofs.
Import ListNotations.
Local Open Scope Z_scope.

(** C31: a cast that succeeds gives a value of the type named *)
Theorem C31_type : forall (X : Ext) e ty c w, eval (ETypeCast e ty) c = Ok w -> of_type ty w.
Proof. exact @cast_type. Qed.
Print Assumptions C31_type.

(** it fails exactly on the sources listed in [uncastable], and never aborts *)
Theorem C31_fails : forall (X : Ext) e ty c v, eval e c = Ok v ->
  ((exists er, eval (ETypeCast e ty) c = Err er) <-> uncastable v ty) /\ (forall p, eval (ETypeCast e ty) c <> Panic p).
Proof. exact @cast_fails. Qed.
Print Assumptions C31_fails.

(** casting again changes nothing (every type but Integer) *)
Theorem C31_idempotent : forall (X : Ext) e ty c w, ty <> TyInteger -> eval (ETypeCast e ty) c = Ok w -> eval (ETypeCast (ETypeCast e ty) ty) c = Ok w.
Proof. exact @cast_twice. Qed.
Print Assumptions C31_idempotent.

(** nor for Integer, when the source was not a text *)
Theorem C31_integer_idempotent : forall (X : Ext) e c v w, eval e c = Ok v -> (forall s, v <> VString s) -> (forall n, v = VNumber n \/ v = VCurrency n -> representable n) ->
  eval (ETypeCast e TyInteger) c = Ok w -> eval (ETypeCast (ETypeCast e TyInteger) TyInteger) c = Ok w.
Proof. exact @cast_integer_twice. Qed.
Print Assumptions C31_integer_idempotent.

(** a text is read as a float and then truncated, without the 64-bit clamp that
    the second cast applies to the number *)
Theorem C31_integer_idempotent_refuted : forall X : Ext,
  ~ (forall e c w, eval (ETypeCast e TyInteger) c = Ok w -> eval (ETypeCast (ETypeCast e TyInteger) TyInteger) c = Ok w).
Proof. exact @integer_twice_refuted. Qed.
Print Assumptions C31_integer_idempotent_refuted.

(** what a text becomes: exactly the grammar of [Spec_text.v] *)
Theorem C31_text_to_float : forall (X : Ext) e c s x, eval e c = Ok (VString s) ->
  (eval (ETypeCast e TyFloat) c = Ok (VNumber x) <-> float_text s x) /\ (eval (ETypeCast e TyCurrency) c = Ok (VCurrency x) <-> float_text s x).
Proof. exact @cast_string_float. Qed.
Print Assumptions C31_text_to_float.

Theorem C31_text_to_datetime : forall (X : Ext) e c s t, eval e c = Ok (VString s) -> (eval (ETypeCast e TyDateTime) c = Ok (VDateTime t) <-> integer_text s t).
Proof. exact @cast_string_datetime. Qed.
Print Assumptions C31_text_to_datetime.

(** Integer reads the leading sign and digits of a text, and ignores the rest *)
Theorem C31_text_to_integer : forall (X : Ext) e c sg neg ds rest, sign_text sg neg -> digits ds -> match rest with ch :: _ => is_digit ch = false /\ ch <> 46%N | [] => True end ->
  eval e c = Ok (VString (sg ++ ds ++ rest)) -> Z.of_N (digits_value ds) < 2 ^ 53 -> (neg = true -> digits_value ds <> 0%N) ->
  eval (ETypeCast e TyInteger) c = Ok (num (signed_value neg (digits_value ds))).
Proof. exact @cast_string_integer. Qed.
Print Assumptions C31_text_to_integer.

Theorem C31_text_to_integer_zero : forall (X : Ext) e c s, match s with ch :: _ => is_digit ch = false /\ ch <> 46%N /\ ch <> 43%N /\ ch <> 45%N | [] => True end ->
  eval e c = Ok (VString s) -> eval (ETypeCast e TyInteger) c = Ok (num 0).
Proof. exact @cast_string_nonnumeric. Qed.
Print Assumptions C31_text_to_integer_zero.

(** whole numbers are kept; other numbers lose their fraction *)
Theorem C31_number_to_integer : forall (X : Ext) e c z v, Z.abs z < 2 ^ 53 -> v = num z \/ v = VCurrency (f_of_Z z) -> eval e c = Ok v ->
  eval (ETypeCast e TyInteger) c = Ok (num z).
Proof. exact @cast_number_integer. Qed.
Print Assumptions C31_number_to_integer.

Theorem C31_fraction_to_integer : forall (X : Ext) e c x v, representable x -> v = VNumber x \/ v = VCurrency x -> - 2 ^ 63 <= trunc_Z x < 2 ^ 63 -> is_finite x = true -> eval e c = Ok v ->
  eval (ETypeCast e TyInteger) c = Ok (num (trunc_Z x)).
Proof. exact @cast_fraction_integer. Qed.
Print Assumptions C31_fraction_to_integer.

(** exactly what casts to FALSE *)
Theorem C31_boolean : forall (X : Ext) e c v, eval e c = Ok v ->
  eval (ETypeCast e TyBoolean) c = Ok (VBoolean false) <->
  v = VBoolean false \/ v = VNull \/ v = VArray [] \/ v = VDateTime 0 \/ (exists n, (v = VNumber n \/ v = VCurrency n) /\ f_eqb n (f_of_Z 0) = true)
  \/ (exists s, (v = VString s \/ v = VJson s) /\ Forall (fun ch => is_whitespace ch = true) s).
Proof. exact @cast_booleans. Qed.
Print Assumptions C31_boolean.

Example C31_nonvacuous :
  let X := example_ext in
  evaluate (lit "'12abc'::Integer") = Ok (num 12) /\ evaluate (lit "'-7.9'::Integer") = Ok (num (-7))
  /\ evaluate (lit "'x'::Integer") = Ok (num 0) /\ evaluate (lit "((0 - 7.9)::Integer)::Integer") = Ok (num (-7))
  /\ evaluate (lit "'1e3'::Float") = Ok (num 1000) /\ (exists er, evaluate (lit "'1e'::Float") = Err er)
  /\ evaluate (lit "'-86400'::DateTime") = Ok (VDateTime (-86400)) /\ (exists er, evaluate (lit "'9223372036854775808'::DateTime") = Err er)
  /\ evaluate (lit "(3.5::Currency)::String") = Ok (VString (lit "3.5000"))
  /\ evaluate (lit "' '::Boolean") = Ok (VBoolean false) /\ evaluate (lit "'0'::Boolean") = Ok (VBoolean true)
  /\ evaluate (lit "(1::Array)::Array") = Ok (VArray [num 1])
  /\ (exists er, evaluate (lit "[1]::Float") = Err er)
  /\ representable (f_of_Z (2 ^ 62)) /\ float_text (lit "-1.5E+2") (f_of_Z (-150)) /\ integer_text (lit "+08") 8.
Proof.
  cbv zeta. do 5 (split; [vm_compute; reflexivity|]). split; [eexists; vm_compute; reflexivity|]. split; [vm_compute; reflexivity|].
  split; [eexists; vm_compute; reflexivity|]. do 4 (split; [vm_compute; reflexivity|]). split; [eexists; vm_compute; reflexivity|].
  split; [vm_compute; reflexivity|]. split.
  - apply Text_proofs.float_text_iff. vm_compute. reflexivity.
  - apply Text_proofs.i64_iff. vm_compute. reflexivity.
Qed.
