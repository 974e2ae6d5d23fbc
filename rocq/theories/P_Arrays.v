(** Property theorems about the array functions. *)
From Coq Require Import String List ZArith NArith Bool Sorting Permutation.
From Verif Require Import Base F64 Syntax Ext Evaluator Api Spec Array_proofs.
Import ListNotations.

(** C20: FLATTEN(e1,...,en) is the sequence of non-array leaves of its
    arguments, left to right. *)
Theorem C20_flatten : forall (X : Ext) c es vs,
  uncustomised c "FLATTEN" -> evaluate_to c es vs ->
  exists ls, eval (call "FLATTEN" es) c = Ok (VArray ls) /\ leaves_of (VArray vs) ls.
Proof. exact @flatten_call. Qed.
Print Assumptions C20_flatten.
(** the sequence of leaves is unique, so the previous theorem fixes the result *)
Theorem C20_leaves_unique : forall v l1 l2, leaves_of v l1 -> leaves_of v l2 -> l1 = l2.
Proof. exact leaves_functional. Qed.
Print Assumptions C20_leaves_unique.
Theorem C20_flatten_idempotent : forall (X : Ext) c es vs,
  uncustomised c "FLATTEN" -> evaluate_to c es vs ->
  eval (call "FLATTEN" [call "FLATTEN" es]) c = eval (call "FLATTEN" es) c.
Proof. exact @flatten_twice. Qed.
Print Assumptions C20_flatten_idempotent.
Example C20_example :
  let X := example_ext in
  let es := [EArray [ENumber (f_of_Z 1); EArray [ENumber (f_of_Z 2); EArray []]]; EStringLit (lit "a")] in
  uncustomised empty_ctx "FLATTEN"
  /\ evaluate_to empty_ctx es [VArray [num 1; VArray [num 2; VArray []]]; VString (lit "a")]
  /\ eval (call "FLATTEN" es) empty_ctx = Ok (VArray [num 1; num 2; VString (lit "a")]).
Proof. repeat split; repeat constructor. Qed.

(** C21: SORT(e) of NaN-free numbers is an ascending permutation of them, and
    numbers that compare equal (0 and -0) keep their order. *)
Theorem C21_sort_ascending : forall (X : Ext) c e ns,
  uncustomised c "SORT" -> eval e c = Ok (VArray (map VNumber ns)) -> Forall not_nan ns ->
  exists out, eval (call "SORT" [e]) c = Ok (VArray (map VNumber out))
    /\ Permutation ns out /\ StronglySorted f_le out
    /\ (forall x, filter (f_eqb x) out = filter (f_eqb x) ns).
Proof. exact @sort_asc. Qed.
Print Assumptions C21_sort_ascending.
(** a second argument reverses the result if it is the text "desc" in any
    case, and otherwise has no effect *)
Theorem C21_sort_order_argument : forall (X : Ext) c e d v ns,
  uncustomised c "SORT" ->
  eval e c = Ok (VArray (map VNumber ns)) -> Forall not_nan ns -> eval d c = Ok v ->
  exists up out, eval (call "SORT" [e]) c = Ok (VArray (map VNumber up))
    /\ eval (call "SORT" [e; d]) c = Ok (VArray (map VNumber out))
    /\ ((exists s, v = VString s /\ says_desc s) -> out = rev up)
    /\ (~ (exists s, v = VString s /\ says_desc s) -> out = up).
Proof. exact @sort_order_arg. Qed.
Print Assumptions C21_sort_order_argument.
(** the call aborts exactly on two or more numbers among which there is a NaN *)
Theorem C21_sort_panics : forall (X : Ext) c e xs,
  uncustomised c "SORT" -> eval e c = Ok (VArray xs) ->
  ((exists w, eval (call "SORT" [e]) c = Panic w) <->
   exists ns, xs = map VNumber ns /\ (2 <= length ns)%nat /\ In f_nan ns).
Proof. exact @sort_panics. Qed.
Print Assumptions C21_sort_panics.
Theorem C21_sort_rejects_non_numbers : forall (X : Ext) c e xs v,
  uncustomised c "SORT" -> eval e c = Ok (VArray xs) -> In v xs -> (forall n, v <> VNumber n) ->
  exists er, eval (call "SORT" [e]) c = Err er.
Proof. exact @sort_rejects. Qed.
Print Assumptions C21_sort_rejects_non_numbers.
Example C21_example :
  let X := example_ext in
  evaluate (lit "SORT([3, 1, -2, 1])") = Ok (VArray [num (-2); num 1; num 1; num 3])
  /\ evaluate (lit "SORT([3, 1, 2], 'Desc')") = Ok (VArray [num 3; num 2; num 1])
  /\ (exists w, evaluate (lit "SORT([3, 0/0*0])") = Panic w \/ evaluate (lit "SORT([3, SQRT(0-1)])") = Panic w)
  /\ (exists er, evaluate (lit "SORT([3, 'a'])") = Err er).
Proof. vm_compute. repeat split; eauto. Qed.

(** C22: UNIQUE(e) is the array's numbers without repetitions, each at its
    first position. *)
Theorem C22_unique : forall (X : Ext) c e xs,
  uncustomised c "UNIQUE" -> eval e c = Ok (VArray xs) ->
  exists out, eval (call "UNIQUE" [e]) c = Ok (VArray (map VNumber out)) /\ firsts (numbers_in xs) out.
Proof. exact @unique_call. Qed.
Print Assumptions C22_unique.
(** what [firsts] gives: no repetition, same members *)
Theorem C22_firsts_members : forall l (out : list f64),
  firsts l out -> NoDup out /\ (forall x, In x out <-> In x l).
Proof. exact firsts_facts. Qed.
Print Assumptions C22_firsts_members.
Example C22_example :
  let X := example_ext in
  evaluate (lit "UNIQUE([3, 'a', 1, 3, NULL, 2, 1])") = Ok (VArray [num 3; num 1; num 2]).
Proof. vm_compute. reflexivity. Qed.

(** C23 *)
Theorem C23_reverse : forall (X : Ext) c e xs,
  uncustomised c "REVERSE" -> eval e c = Ok (VArray xs) ->
  eval (call "REVERSE" [e]) c = Ok (VArray (rev xs)).
Proof. exact @reverse_call. Qed.
Print Assumptions C23_reverse.
Theorem C23_reverse_involutive : forall (X : Ext) c e xs,
  uncustomised c "REVERSE" -> eval e c = Ok (VArray xs) ->
  eval (call "REVERSE" [call "REVERSE" [e]]) c = Ok (VArray xs).
Proof. exact @reverse_twice. Qed.
Print Assumptions C23_reverse_involutive.
Theorem C23_contains : forall (X : Ext) name c e d xs v,
  name = "CONTAINS"%string \/ name = "IN"%string ->
  uncustomised c name -> eval e c = Ok (VArray xs) -> eval d c = Ok v ->
  exists b, eval (call name [e; d]) c = Ok (VBoolean b)
    /\ (b = true <-> exists x, In x xs /\ same x v).
Proof. exact @contains_call. Qed.
Print Assumptions C23_contains.
Theorem C23_first_last_count : forall (X : Ext) c e xs,
  uncustomised c "FIRST" -> uncustomised c "LAST" -> uncustomised c "COUNT" ->
  eval e c = Ok (VArray xs) ->
  eval (call "COUNT" [e]) c = Ok (VNumber (f_of_Z (Z.of_nat (length xs))))
  /\ (xs = [] -> (exists er, eval (call "FIRST" [e]) c = Err er)
              /\ (exists er, eval (call "LAST" [e]) c = Err er))
  /\ (forall x r, xs = x :: r -> eval (call "FIRST" [e]) c = Ok x)
  /\ (forall r x, xs = r ++ [x] -> eval (call "LAST" [e]) c = Ok x).
Proof. exact @first_last_count. Qed.
Print Assumptions C23_first_last_count.
Example C23_example :
  let X := example_ext in
  evaluate (lit "REVERSE([1, 'a', [2]])") = Ok (VArray [VArray [num 2]; VString (lit "a"); num 1])
  /\ evaluate (lit "CONTAINS([1, [2, 'b']], [2, 'b'])") = Ok (VBoolean true)
  /\ evaluate (lit "IN([1, [2, 'b']], [2, 'c'])") = Ok (VBoolean false)
  /\ evaluate (lit "LAST([1, 5])") = Ok (num 5) /\ evaluate (lit "COUNT([1, 5, 5])") = Ok (num 3).
Proof. vm_compute. repeat split. Qed.
