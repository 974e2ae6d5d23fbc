(** [runtime/array.rs] *)
From Coq Require Import String List ZArith NArith Bool.
From Verif Require Import Base F64 Syntax F64Text Utils.
Import ListNotations.

(** [array.rs:10-15] *)
Fixpoint flatten (v : value) : list value :=
  match v with
  | VArray xs => flat_map flatten xs
  | other => [other]
  end.
(** [array.rs:9-19] *)
Definition fn_flatten (args : list value) : res value := Ok (VArray (flat_map flatten args)).

(** [array.rs:20] *)
Definition fn_first (args : list value) : res value :=
  match args with
  | VArray (x :: _) :: _ => Ok x
  | VArray [] :: _ => Err (err "FIRST on empty array")
  | _ => Err (err "FIRST expects array")
  end.
(** [slice::last] *)
Fixpoint last_opt {A} (xs : list A) : option A :=
  match xs with
  | [] => None
  | [x] => Some x
  | _ :: r => last_opt r
  end.
(** [array.rs:21] *)
Definition fn_last (args : list value) : res value :=
  match args with
  | VArray xs :: _ => ok_or (last_opt xs) (err "LAST on empty array")
  | _ => Err (err "LAST expects array")
  end.

Definition any_equal (xs : list value) (needle : value) : bool :=
  existsb (fun v => values_equal v needle) xs.
(** [array.rs:22-27] *)
Definition fn_contains (args : list value) : res value :=
  match args with
  | VArray xs :: r =>
      let needle := match r with v :: _ => v | [] => VNull end in
      Ok (VBoolean (any_equal xs needle))
  | _ => Err (err "CONTAINS expects array, value")
  end.
(** [array.rs:28-38] *)
Definition fn_in (args : list value) : res value :=
  match args with
  | [VArray xs; needle] => Ok (VBoolean (any_equal xs needle))
  | [_; _] => Err (err "IN expects array as first argument")
  | _ => Err (err "IN expects 2 arguments: array, value")
  end.
(** [array.rs:39-49] *)
Definition fn_count (args : list value) : res value :=
  match args with
  | [VArray xs] => Ok (VNumber (f_of_Z (zlen xs)))
  | [VNull] => Ok (VNumber f_zero)
  | [_] => Err (err "COUNT expects array")
  | _ => Err (err "COUNT expects 1 argument: array")
  end.

(** [array.rs:50-58]: numbers only, first occurrence of each bit pattern.
    Simplification: all NaNs are one bit pattern here. *)
Fixpoint unique_loop (seen : list f64) (items : list value) : list value :=
  match items with
  | [] => []
  | VNumber n :: r =>
      if existsb (f_bits_eqb n) seen then unique_loop seen r
      else VNumber n :: unique_loop (n :: seen) r
  | _ :: r => unique_loop seen r
  end.
Definition fn_unique (args : list value) : res value :=
  match args with
  | VArray xs :: _ => Ok (VArray (unique_loop [] xs))
  | _ => Err (err "UNIQUE expects array")
  end.

(** [nums.sort_by(|a,b| a.partial_cmp(b).unwrap())]: a stable sort.  The
    comparator panics on NaN; every element of a sequence of two or more takes
    part in some comparison, so the sort panics exactly when such a sequence
    has a NaN. *)
Fixpoint insert_num (x : f64) (xs : list f64) : list f64 :=
  match xs with
  | [] => [x]
  | y :: r => if f_leb x y then x :: xs else y :: insert_num x r
  end.
Definition insertion_sort (xs : list f64) : list f64 := fold_right insert_num [] xs.
Definition sort_nums (xs : list f64) : res (list f64) :=
  if (2 <=? length xs)%nat && existsb is_nan xs
  then Panic "called `Option::unwrap()` on a `None` value"
  else Ok (insertion_sort xs).

(** all elements as plain numbers *)
Definition numbers_of (items : list value) : res (list f64) :=
  mapM (fun v => match v with
                 | VNumber n => Ok n
                 | _ => Err (err "SORT expects numeric array")
                 end) items.
(** [array.rs:59-69] *)
Definition fn_sort (args : list value) : res value :=
  match args with
  | VArray xs :: r =>
      let desc := match r with
                  | VString s :: _ => eq_ignore_ascii_case s (lit "DESC")
                  | _ => false
                  end in
      nums <- numbers_of xs ;;
      sorted <- sort_nums nums ;;
      Ok (VArray (map VNumber (if desc then rev sorted else sorted)))
  | _ => Err (err "SORT expects array")
  end.

(** [array.rs:70-73] *)
Definition fn_reverse_array (args : list value) : res value :=
  match args with
  | VArray xs :: _ => Ok (VArray (rev xs))
  | _ => Err (err "REVERSE expects array")
  end.

(** [array.rs:78-89] *)
Definition join_part (v : value) : res str :=
  match v with
  | VString s => Ok s
  | VNumber n => Ok (f_display n)
  | VBoolean b => Ok (if b then lit "TRUE" else lit "FALSE")
  | VNull => Ok []
  | VCurrency n => Ok (f_fixed 4 n)
  | VDateTime t => Ok (Z_to_str t)
  | VJson s => Ok s
  | VArray _ => Err (err "JOIN does not flatten nested arrays")
  end.
(** [array.rs:74-92] *)
Definition fn_join (args : list value) : res value :=
  match args with
  | VArray xs :: r =>
      let sep := match r with VString s :: _ => s | _ => lit "," end in
      parts <- mapM join_part xs ;;
      Ok (VString (join sep parts))
  | _ => Err (err "JOIN expects array, [separator]")
  end.

(** [array.rs:6-95] *)
Definition exec_array (name : str) (args : list value) : res value :=
  if is name "ARRAY" then Ok (VArray args)
  else if is name "FLATTEN" then fn_flatten args
  else if is name "FIRST" then fn_first args
  else if is name "LAST" then fn_last args
  else if is name "CONTAINS" then fn_contains args
  else if is name "IN" then fn_in args
  else if is name "COUNT" then fn_count args
  else if is name "UNIQUE" then fn_unique args
  else if is name "SORT" then fn_sort args
  else if is name "REVERSE" then fn_reverse_array args
  else if is name "JOIN" then fn_join args
  else Err (mkErr (lit "Unknown array function: " ++ name) None).
