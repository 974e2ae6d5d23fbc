(** Property theorems about which functions there are. *)
From Coq Require Import String List ZArith NArith Bool.
From Verif Require Import Base F64 Syntax Ext Registry Core Evaluator Api Inventory Spec Spec_inventory Inventory_proofs.
Import ListNotations.

(** * C98 Which functions there are *)

(** has_builtin_function tells whether some call of that name succeeds, special forms and custom functions aside *)
Theorem C98_has : forall (X : Ext) c name, match c_reg c with Some reg => has_custom_function reg name = false | None => True end -> ~ In name (map lit special_forms) ->
  (has_builtin_function name = true <-> exists es v, eval (EFunctionCall name es) c = Ok v).
Proof. exact @has_iff. Qed.
Print Assumptions C98_has.

(** and a call of any other name fails, saying so *)
Theorem C98_unknown : forall (X : Ext) c name es vs, match c_reg c with Some reg => has_custom_function reg name = false | None => True end -> ~ In name (map lit special_forms) -> has_builtin_function name = false -> evaluate_to c es vs ->
  eval (EFunctionCall name es) c = Err (mkErr (lit "Unknown function: " ++ name) None).
Proof. exact @unknown_message. Qed.
Print Assumptions C98_unknown.

(** builtin_function_count counts the names it accepts *)
Theorem C98_count : exists names, NoDup names /\ (forall name, has_builtin_function name = true <-> In name names) /\ length names = builtin_function_count.
Proof. exact @counted. Qed.
Print Assumptions C98_count.

(** the special forms work, but are not known to has_builtin_function *)
Theorem C98_special_refuted : let X := example_ext in
  evaluate (lit "FILTER([1, 2], :x > 1)") = Ok (VArray [num 2]) /\ has_builtin_function (lit "FILTER") = false /\ evaluate (lit "SUMIF([1, 2], :x > 1)") = Ok (num 2) /\ has_builtin_function (lit "SUMIF") = false.
Proof. vm_compute. repeat split. Qed.
Print Assumptions C98_special_refuted.

(** extract_numeric_values gives the numbers and amounts among the leaves, from left to right *)
Theorem C98_numbers : forall v ls, leaves_of v ls -> extract_numeric_values v = figures ls.
Proof. exact @extracts. Qed.
Print Assumptions C98_numbers.

Example C98_nonvacuous : let X := example_ext in
  has_builtin_function (lit "SUM") = true /\ evaluate (lit "SUM(1, 2)") = Ok (num 3) /\ has_builtin_function (lit "SUMS") = false /\ evaluate (lit "SUMS(1, 2)") = Err (mkErr (lit "Unknown function: SUMS") None)
  /\ builtin_function_count = 80%nat /\ extract_numeric_values (VArray [num 1; VArray [VString []; VCurrency (f_of_Z 2)]; VNull]) = [f_of_Z 1; f_of_Z 2].
Proof. vm_compute. repeat split. Qed.
