(** Names that are no built-in functions, although calls to them mean something. *)
From Coq Require Import String List.
Import ListNotations.
Definition special_forms : list string := ["FILTER"; "FIND"; "MAP"; "REDUCE"; "SUMIF"; "AVGIF"; "COUNTIF"; "JQ"; "__TERNARY__"; "__CONST_TRUE__"; "__CONST_FALSE__"]%string.
