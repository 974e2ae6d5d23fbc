(** Public functions about the built-in functions and about results. *)
From Coq Require Import String List NArith Bool.
From Verif Require Import Base F64 Syntax Ext Dispatch.
Import ListNotations.

(** [function_dispatch.rs:169-179], through [has_builtin_function] (210-213) *)
Definition has_builtin_function (name : str) : bool :=
  one_of arithmetic_functions name || one_of logical_functions name || one_of string_functions name || one_of array_functions name
  || one_of datetime_functions name || one_of financial_functions name || one_of statistical_functions name || one_of json_functions name.
(** the size of a [HashSet] filled with these names *)
Definition set_size (names : list string) : nat := length (nodup string_dec names).
(** [function_dispatch.rs:181-191], through [builtin_function_count] (215-218) *)
Definition builtin_function_count : nat :=
  set_size arithmetic_functions + set_size logical_functions + set_size string_functions + set_size array_functions
  + set_size datetime_functions + set_size financial_functions + set_size statistical_functions + set_size json_functions.
(** [jsonpath.rs:101-120] *)
Fixpoint extract_numeric_values (v : value) : list f64 :=
  match v with
  | VNumber n | VCurrency n => [n]
  | VArray xs => (fix collect (l : list value) : list f64 := match l with [] => [] | x :: r => extract_numeric_values x ++ collect r end) xs
  | _ => []
  end.
