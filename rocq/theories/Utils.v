(** [runtime/utils.rs]: blankness, indexing, slicing, value equality. *)
From Coq Require Import String List ZArith NArith Bool.
From Verif Require Import Base F64 Syntax.
Import ListNotations.
Local Open Scope Z_scope.

(** [name == "LITERAL"] *)
Definition is (name : str) (s : string) : bool := str_eqb name (lit s).
Arguments is name s%string.

(** [types.rs:15-27] *)
Definition as_number (v : value) : option f64 := match v with VNumber n => Some n | _ => None end.
Definition as_bool (v : value) : option bool := match v with VBoolean b => Some b | _ => None end.

(** [utils.rs:4-11] *)
Definition is_blank (v : value) : bool :=
  match v with
  | VNull => true
  | VString s => match trim s with [] => true | _ => false end
  | VArray [] => true
  | _ => false
  end.

(** [utils.rs:13-29]; [-idx] overflows for [isize::MIN] *)
Definition clamp_index (len : Z) (idx : Z) : res (option Z) :=
  if 0 <=? idx then Ok (if idx <? len then Some idx else None)
  else if idx =? i64_min then Panic "attempt to negate with overflow"
  else let neg := - idx in
       Ok (if neg <=? len then Some (len - neg) else None).

Definition zlen {A} (xs : list A) : Z := Z.of_nat (length xs).
Definition znth {A} (xs : list A) (i : Z) : option A := nth_error xs (Z.to_nat i).

(** [utils.rs:31-36]; [items[i]] panics out of bounds (never: [i < len]) *)
Definition index_array (items : list value) (idx : Z) : res value :=
  o <- clamp_index (zlen items) idx ;;
  match o with
  | Some i => match znth items i with
              | Some v => Ok v
              | None => Panic "index out of bounds"
              end
  | None => Err (err "Index out of bounds")
  end.

(** a slice bound: [n as isize], a default, or an error *)
Definition slice_bound (v : option value) (default : Z) : res Z :=
  match v with
  | Some (VNumber n) => Ok (f_to_isize n)
  | None => Ok default
  | Some _ => Err (err "Slice bounds must be numbers")
  end.

(** [utils.rs:38-62] *)
Definition slice_array (items : list value) (start stop : option value) : res value :=
  let len := zlen items in
  s <- slice_bound start 0 ;;
  e <- slice_bound stop len ;;
  let s_norm := if s <? 0 then len + s else s in
  let e_norm := if e <? 0 then len + e else e in
  let s_idx := Z.min (Z.max s_norm 0) len in
  let e_idx := Z.min (Z.max e_norm 0) len in
  if e_idx <? s_idx then Ok (VArray [])
  else Ok (VArray (firstn (Z.to_nat (e_idx - s_idx)) (skipn (Z.to_nat s_idx) items))).

(** [utils.rs:64-79] *)
Fixpoint values_equal (a b : value) : bool :=
  match a, b with
  | VNumber x, VNumber y => f_eqb x y
  | VCurrency x, VCurrency y => f_eqb x y
  | VBoolean x, VBoolean y => Bool.eqb x y
  | VString x, VString y => str_eqb x y
  | VDateTime x, VDateTime y => x =? y
  | VJson x, VJson y => str_eqb x y
  | VNull, VNull => true
  | VArray ax, VArray ay =>
      (fix all2 (xs ys : list value) : bool :=
         match xs, ys with
         | [], [] => true
         | x :: xs', y :: ys' => values_equal x y && all2 xs' ys'
         | _, _ => false
         end) ax ay
  | _, _ => false
  end.
