(** Property theorems about the logical functions and the aggregates. *)
From Coq Require Import String List ZArith NArith Bool.
From Coq Require Import Floats.SpecFloat.
From Verif Require Import Base F64 Syntax Ext Evaluator Api Spec Logic_proofs.
Import ListNotations.

(** C27: AND is TRUE iff all its arguments count as true (TRUE, or a number
    other than 0), whatever types they have. *)
Theorem C27_and : forall (X : Ext) c es vs,
  uncustomised c "AND" -> evaluate_to c es vs ->
  exists b, eval (call "AND" es) c = Ok (VBoolean b) /\ (b = true <-> Forall counts_as_true vs).
Proof. exact @and_call. Qed.
Print Assumptions C27_and.
Theorem C27_or : forall (X : Ext) c es vs,
  uncustomised c "OR" -> evaluate_to c es vs ->
  exists b, eval (call "OR" es) c = Ok (VBoolean b) /\ (b = true <-> Exists counts_as_true vs).
Proof. exact @or_call. Qed.
Print Assumptions C27_or.
Theorem C27_xor : forall (X : Ext) c e1 e2 v1 v2,
  uncustomised c "XOR" -> eval e1 c = Ok v1 -> eval e2 c = Ok v2 ->
  exists b, eval (call "XOR" [e1; e2]) c = Ok (VBoolean b)
    /\ (b = true <-> (counts_as_true v1 /\ ~ counts_as_true v2) \/ (~ counts_as_true v1 /\ counts_as_true v2)).
Proof. exact @xor_call. Qed.
Print Assumptions C27_xor.
(** XOR is binary only *)
Theorem C27_xor_arity : forall (X : Ext) c es vs,
  uncustomised c "XOR" -> evaluate_to c es vs -> length vs <> 2%nat -> fails (eval (call "XOR" es) c).
Proof. exact @xor_arity. Qed.
Print Assumptions C27_xor_arity.
Theorem C27_not : forall (X : Ext) c e v,
  uncustomised c "NOT" -> eval e c = Ok v ->
  exists b, eval (call "NOT" [e]) c = Ok (VBoolean b) /\ (b = true <-> ~ counts_as_true v).
Proof. exact @not_call. Qed.
Print Assumptions C27_not.
Theorem C27_if : forall (X : Ext) c e1 e2 e3 v1 v2 v3,
  uncustomised c "IF" -> eval e1 c = Ok v1 -> eval e2 c = Ok v2 -> eval e3 c = Ok v3 ->
  (counts_as_true v1 -> eval (call "IF" [e1; e2; e3]) c = Ok v2 /\ eval (call "IF" [e1; e2]) c = Ok v2)
  /\ (~ counts_as_true v1 -> eval (call "IF" [e1; e2; e3]) c = Ok v3
                             /\ eval (call "IF" [e1; e2]) c = Ok (VBoolean false)).
Proof. exact @if_call. Qed.
Print Assumptions C27_if.
(** IFS(c1, v1, c2, v2, ...): the arguments evaluate to the pairs [ps] *)
Theorem C27_ifs : forall (X : Ext) c es ps,
  uncustomised c "IFS" -> evaluate_to c es (flat_map (fun p => [fst p; snd p]) ps) ->
  (forall before cond v after, ps = before ++ (cond, v) :: after ->
      Forall (fun p => ~ counts_as_true (fst p)) before -> counts_as_true cond ->
      eval (call "IFS" es) c = Ok v)
  /\ (Forall (fun p => ~ counts_as_true (fst p)) ps -> eval (call "IFS" es) c = Ok (VBoolean false)).
Proof. exact @ifs_call. Qed.
Print Assumptions C27_ifs.
Theorem C27_ifs_arity : forall (X : Ext) c es vs,
  uncustomised c "IFS" -> evaluate_to c es vs -> Nat.even (length vs) = false ->
  fails (eval (call "IFS" es) c).
Proof. exact @ifs_odd. Qed.
Print Assumptions C27_ifs_arity.
Example C27_example :
  let X := example_ext in
  evaluate (lit "AND(1, TRUE, 0.5)") = Ok (VBoolean true)
  /\ evaluate (lit "AND(1, 'yes')") = Ok (VBoolean false)
  /\ evaluate (lit "OR(FALSE, '', -2)") = Ok (VBoolean true)
  /\ evaluate (lit "XOR(TRUE, NULL)") = Ok (VBoolean true)
  /\ evaluate (lit "NOT('x')") = Ok (VBoolean true)
  /\ evaluate (lit "IFS(1 > 2, 10, 7, 20, TRUE, 30)") = Ok (num 20)
  /\ evaluate (lit "IFS(1 > 2, 10)") = Ok (VBoolean false).
Proof. vm_compute. repeat split. Qed.
Example C27_hypotheses :
  let X := example_ext in
  uncustomised empty_ctx "IFS"
  /\ evaluate_to empty_ctx [EBinary (ENumber f_zero) BGt (ENumber f_zero); EStringLit (lit "a"); ENumber (f_of_Z 7); ENull]
       (flat_map (fun p => [fst p; snd p]) [(VBoolean false, VString (lit "a")); (num 7, VNull)])
  /\ counts_as_true (num 7) /\ ~ counts_as_true (VBoolean false) /\ ~ counts_as_true (VNumber (S754_zero true)).
Proof.
  split; [exact I|split; [repeat constructor|split; [right; eexists; split; [reflexivity|intros s; destruct s; discriminate]|split]]].
  - intros [H|(n & H & _)]; discriminate.
  - intros [H|(n & H & Hz)]; [discriminate|]. injection H as <-. now apply (Hz true).
Qed.

(** C28: the aggregates over any mixture of numbers, currency amounts and
    nested arrays are the aggregates of the flattened sequence of figures. *)
Theorem C28_sum : forall (X : Ext) c es vs,
  uncustomised c "SUM" -> evaluate_to c es vs ->
  exists ls, leaves_of (VArray vs) ls
    /\ eval (call "SUM" es) c = Ok (VNumber (fold_left f_add (figures ls) f_zero)).
Proof. exact @sum_call. Qed.
Print Assumptions C28_sum.
Theorem C28_product : forall (X : Ext) name c es vs,
  name = "PRODUCT"%string \/ name = "MULTIPLY"%string -> uncustomised c name -> evaluate_to c es vs ->
  exists ls, leaves_of (VArray vs) ls
    /\ eval (call name es) c = Ok (VNumber (fold_left f_mul (figures ls) (f_of_Z 1))).
Proof. exact @product_call. Qed.
Print Assumptions C28_product.
Theorem C28_average : forall (X : Ext) name c es vs,
  name = "AVG"%string \/ name = "AVERAGE"%string -> uncustomised c name -> evaluate_to c es vs ->
  exists ls, leaves_of (VArray vs) ls
    /\ eval (call name es) c =
         Ok (VNumber (match figures ls with
                      | [] => f_zero
                      | fs => f_div (fold_left f_add fs f_zero) (f_of_Z (Z.of_nat (length fs)))
                      end)).
Proof. exact @avg_call. Qed.
Print Assumptions C28_average.
Theorem C28_min : forall (X : Ext) c es vs,
  uncustomised c "MIN" -> evaluate_to c es vs ->
  exists ls m, leaves_of (VArray vs) ls /\ eval (call "MIN" es) c = Ok (VNumber m)
    /\ extreme f_le (figures ls) m.
Proof. exact @min_call. Qed.
Print Assumptions C28_min.
Theorem C28_max : forall (X : Ext) c es vs,
  uncustomised c "MAX" -> evaluate_to c es vs ->
  exists ls m, leaves_of (VArray vs) ls /\ eval (call "MAX" es) c = Ok (VNumber m)
    /\ extreme (fun a b => f_le b a) (figures ls) m.
Proof. exact @max_call. Qed.
Print Assumptions C28_max.
Example C28_example :
  let X := example_ext in
  evaluate (lit "SUM(1, [2, [3, 'x'], TRUE], 4)") = Ok (num 10)
  /\ evaluate (lit "PRODUCT([2, [3]], 4)") = Ok (num 24)
  /\ evaluate (lit "AVG([1, [2]], 'x', 3)") = Ok (num 2)
  /\ evaluate (lit "MIN(4, [2, [3]])") = Ok (num 2)
  /\ evaluate (lit "MAX(4, [2, [9]], NULL)") = Ok (num 9)
  /\ evaluate (lit "MAX()") = Ok (num 0).
Proof. vm_compute. repeat split. Qed.
