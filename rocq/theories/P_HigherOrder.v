(** Property theorems about the functions and methods that take a lambda. *)
From Coq Require Import String List ZArith NArith Bool.
From Coq Require Import Floats.SpecFloat.
From Verif Require Import Base F64 F64Text Syntax Ext Registry Methods Core Evaluator Parser Api Spec HigherOrder_proofs.
Import ListNotations.

(** C11: FILTER(a, body) and FILTER(a, body, 'p') succeed exactly when the body
    succeeds on every element, and then keep the elements on which it is TRUE.
    [body_values]: the body with the parameter bound to each element in turn. *)
Theorem C11_filter : forall (X : Ext) c a body op items out, uncustomised c "FILTER" -> eval a c = Ok (VArray items) ->
  (eval (call "FILTER" (a :: body :: tail_of op)) c = Ok out <->
   exists vs, body_values body (name_of op "x") c items vs /\ out = VArray (selected items vs)).
Proof. exact @filter_call. Qed.
Print Assumptions C11_filter.

(** the first element on which the body fails decides the failure *)
Theorem C11_filter_failure : forall (X : Ext) c a body op before it after vs, uncustomised c "FILTER" ->
  eval a c = Ok (VArray (before ++ it :: after)) -> body_values body (name_of op "x") c before vs ->
  (forall v, eval body (bound (name_of op "x") it c) <> Ok v) ->
  fails_like (eval body (bound (name_of op "x") it c)) (eval (call "FILTER" (a :: body :: tail_of op)) c).
Proof. exact @filter_call_fails. Qed.
Print Assumptions C11_filter_failure.

(** FIND returns the first element on which the body is TRUE, does not look at
    the following ones, and NULL if there is none *)
Theorem C11_find_none : forall (X : Ext) c a body op items vs, uncustomised c "FIND" -> eval a c = Ok (VArray items) ->
  body_values body (name_of op "x") c items vs -> ~ In (VBoolean true) vs ->
  eval (call "FIND" (a :: body :: tail_of op)) c = Ok VNull.
Proof. exact @find_call_none. Qed.
Print Assumptions C11_find_none.

Theorem C11_find : forall (X : Ext) c a body op before it after vs, uncustomised c "FIND" ->
  eval a c = Ok (VArray (before ++ it :: after)) ->
  body_values body (name_of op "x") c before vs -> ~ In (VBoolean true) vs ->
  (eval body (bound (name_of op "x") it c) = Ok (VBoolean true) -> eval (call "FIND" (a :: body :: tail_of op)) c = Ok it)
  /\ ((forall v, eval body (bound (name_of op "x") it c) <> Ok v) ->
      fails_like (eval body (bound (name_of op "x") it c)) (eval (call "FIND" (a :: body :: tail_of op)) c)).
Proof. exact @find_call_at. Qed.
Print Assumptions C11_find.

(** COUNTIF is the number of elements FILTER keeps *)
Theorem C11_countif : forall (X : Ext) c a body items out, uncustomised c "COUNTIF" -> eval a c = Ok (VArray items) ->
  (eval (call "COUNTIF" [a; body]) c = Ok out <->
   exists vs, body_values body (lit "x") c items vs /\ out = VNumber (f_of_Z (Z.of_nat (length (selected items vs))))).
Proof. exact @countif_call. Qed.
Print Assumptions C11_countif.

(** the methods [a.filter(body)], [a.find(body)] *)
Theorem C11_filter_method : forall (X : Ext) c t body op items out, eval t c = Ok (VArray items) ->
  (eval (EMethodCall t (lit "filter") (body :: tail_of op) false) c = Ok out <->
   exists vs, method_values body (name_of op "x") c items vs /\ out = VArray (selected items vs)).
Proof. exact @filter_method. Qed.
Print Assumptions C11_filter_method.

Theorem C11_find_method_none : forall (X : Ext) c t body op items vs, eval t c = Ok (VArray items) ->
  method_values body (name_of op "x") c items vs -> ~ In (VBoolean true) vs ->
  eval (EMethodCall t (lit "find") (body :: tail_of op) false) c = Ok VNull.
Proof. exact @find_method_none. Qed.
Print Assumptions C11_find_method_none.

Theorem C11_find_method : forall (X : Ext) c t body op before it after vs, eval t c = Ok (VArray (before ++ it :: after)) ->
  method_values body (name_of op "x") c before vs -> ~ In (VBoolean true) vs ->
  (method_body c body (name_of op "x") it = Ok (VBoolean true) ->
   eval (EMethodCall t (lit "find") (body :: tail_of op) false) c = Ok it)
  /\ ((forall v, method_body c body (name_of op "x") it <> Ok v) ->
      fails_like (method_body c body (name_of op "x") it) (eval (EMethodCall t (lit "find") (body :: tail_of op) false) c)).
Proof. exact @find_method_at. Qed.
Print Assumptions C11_find_method.

Theorem C11_method_failure : forall (X : Ext) name c t body op before it after vs, In name ["filter"; "map"]%string ->
  eval t c = Ok (VArray (before ++ it :: after)) -> method_values body (name_of op "x") c before vs ->
  (forall v, method_body c body (name_of op "x") it <> Ok v) ->
  fails_like (method_body c body (name_of op "x") it) (eval (EMethodCall t (lit name) (body :: tail_of op) false) c).
Proof. exact @lambda_method_fails. Qed.
Print Assumptions C11_method_failure.
Example C11_example :
  let X := example_ext in
  evaluate (lit "FILTER([1, 5, 2, 7], :n > :n - 1 && :n > 2, 'n')") = Ok (VArray [num 5; num 7])
  /\ evaluate (lit "FIND([1, 5, 2, 7], :x > 2)") = Ok (num 5) /\ evaluate (lit "FIND([1, 2], :x > 2)") = Ok VNull
  /\ evaluate (lit "FIND([1, 5, 'a'], :x > 2)") = Ok (num 5)
  /\ evaluate (lit "COUNTIF([1, 5, 2, 7], :x > 2)") = Ok (num 2)
  /\ evaluate (lit "[1, 5, 2, 7].filter(:x > 2)") = Ok (VArray [num 5; num 7])
  /\ evaluate (lit "FILTER([1, 'a'], :x > 0)") = Err (err "Comparison of incompatible types").
Proof. vm_compute. repeat split; try reflexivity. Qed.
Example C11_hypotheses :
  let X := example_ext in
  body_values (EBinary (EVariable (lit "x")) BGt (ENumber (f_of_Z 2))) (lit "x") empty_ctx [num 1; num 5]
              [VBoolean false; VBoolean true]
  /\ selected [num 1; num 5] [VBoolean false; VBoolean true] = [num 5].
Proof. split; [repeat constructor; vm_compute; reflexivity|reflexivity]. Qed.

(** C12: MAP applies the body to each element. *)
Theorem C12_map : forall (X : Ext) c a body op items out, uncustomised c "MAP" -> eval a c = Ok (VArray items) ->
  (eval (call "MAP" (a :: body :: tail_of op)) c = Ok out <->
   exists vs, body_values body (name_of op "x") c items vs /\ out = VArray vs).
Proof. exact @map_call. Qed.
Print Assumptions C12_map.

Theorem C12_map_failure : forall (X : Ext) c a body op before it after vs, uncustomised c "MAP" ->
  eval a c = Ok (VArray (before ++ it :: after)) -> body_values body (name_of op "x") c before vs ->
  (forall v, eval body (bound (name_of op "x") it c) <> Ok v) ->
  fails_like (eval body (bound (name_of op "x") it c)) (eval (call "MAP" (a :: body :: tail_of op)) c).
Proof. exact @map_call_fails. Qed.
Print Assumptions C12_map_failure.

Theorem C12_map_method : forall (X : Ext) c t body op items out, eval t c = Ok (VArray items) ->
  (eval (EMethodCall t (lit "map") (body :: tail_of op) false) c = Ok out <->
   exists vs, method_values body (name_of op "x") c items vs /\ out = VArray vs).
Proof. exact @map_method. Qed.
Print Assumptions C12_map_method.
Example C12_example :
  let X := example_ext in
  evaluate_with (lit "MAP([1, 2, 3], :x * :k)") [(lit "k", num 10)] = Ok (VArray [num 10; num 20; num 30])
  /\ evaluate (lit "MAP([1, 2], [:n, :n + 1], 'n')") = Ok (VArray [VArray [num 1; num 2]; VArray [num 2; num 3]])
  /\ evaluate (lit "[1, 2].map(:x * 2)") = Ok (VArray [num 2; num 4]).
Proof. vm_compute. repeat split; try reflexivity. Qed.

(** C13: REDUCE is a left fold. *)
Theorem C13_reduce : forall (X : Ext) c a body init p q items i r, uncustomised c "REDUCE" -> eval a c = Ok (VArray items) ->
  eval init c = Ok i ->
  (eval (call "REDUCE" [a; body; init; EStringLit p; EStringLit q]) c = Ok r <->
   folds (fun acc it => eval body (vars_ctx (minsert q acc (minsert p it (c_vars c))))) i items r).
Proof. exact @reduce_call. Qed.
Print Assumptions C13_reduce.

Theorem C13_reduce_default : forall (X : Ext) c a body init items i r, uncustomised c "REDUCE" -> eval a c = Ok (VArray items) ->
  eval init c = Ok i ->
  (eval (call "REDUCE" [a; body; init]) c = Ok r <->
   folds (fun acc it => eval body (vars_ctx (minsert (lit "acc") acc (minsert (lit "x") it (c_vars c))))) i items r).
Proof. exact @reduce_call_default. Qed.
Print Assumptions C13_reduce_default.

Theorem C13_reduce_failure : forall (X : Ext) c a body init p q before it after i acc, uncustomised c "REDUCE" ->
  eval a c = Ok (VArray (before ++ it :: after)) -> eval init c = Ok i ->
  folds (fun acc it => eval body (vars_ctx (minsert q acc (minsert p it (c_vars c))))) i before acc ->
  let step := eval body (vars_ctx (minsert q acc (minsert p it (c_vars c)))) in
  (forall v, step <> Ok v) ->
  fails_like step (eval (call "REDUCE" [a; body; init; EStringLit p; EStringLit q]) c).
Proof. exact @reduce_call_fails. Qed.
Print Assumptions C13_reduce_failure.

Theorem C13_reduce_initial_failure : forall (X : Ext) c a body init rest items, uncustomised c "REDUCE" ->
  eval a c = Ok (VArray items) -> (forall v, eval init c <> Ok v) ->
  fails_like (eval init c) (eval (call "REDUCE" (a :: body :: init :: rest)) c).
Proof. exact @reduce_init_fails. Qed.
Print Assumptions C13_reduce_initial_failure.

Theorem C13_reduce_method : forall (X : Ext) c t body init p q items i r, eval t c = Ok (VArray items) -> method_init c init = Ok i ->
  (eval (EMethodCall t (lit "reduce") [body; init; EStringLit p; EStringLit q] false) c = Ok r <->
   folds (method_step c body p q) i items r).
Proof. exact @reduce_method. Qed.
Print Assumptions C13_reduce_method.
Example C13_example :
  let X := example_ext in
  evaluate (lit "REDUCE([1, 2, 3], :acc * 10 + :x, 0)") = Ok (num 123)
  /\ evaluate (lit "REDUCE([1, 2, 3], :total - :v, 100, 'v', 'total')") = Ok (num 94)
  /\ evaluate (lit "[1, 2, 3].reduce(:acc * 10 + :x, 0)") = Ok (num 123).
Proof. vm_compute. repeat split; try reflexivity. Qed.

(** C14: SUMIF with a lambda, i.e. a criterion that is not a text or number in
    the caller's scope. *)
Theorem C14_sumif_lambda : forall (X : Ext) c a body items out, uncustomised c "SUMIF" -> eval a c = Ok (VArray items) ->
  (fails (eval body c) \/ exists v, eval body c = Ok v /\ (forall s, v <> VString s) /\ (forall n, v <> VNumber n)) ->
  (eval (call "SUMIF" [a; body]) c = Ok out <->
   exists vs, body_values body (lit "x") c items vs /\ out = VNumber (total (flat_map amount (selected items vs)))).
Proof. exact @sumif_lambda. Qed.
Print Assumptions C14_sumif_lambda.

Theorem C14_avgif : forall (X : Ext) c a body items out, uncustomised c "AVGIF" -> eval a c = Ok (VArray items) ->
  (eval (call "AVGIF" [a; body]) c = Ok out <->
   exists vs, body_values body (lit "x") c items vs /\ out = VNumber (mean (flat_map amount (selected items vs)))).
Proof. exact @avgif_call. Qed.
Print Assumptions C14_avgif.

Theorem C14_failure : forall (X : Ext) name c a body before it after vs, In name ["AVGIF"; "COUNTIF"]%string -> uncustomised c name ->
  eval a c = Ok (VArray (before ++ it :: after)) -> body_values body (lit "x") c before vs ->
  (forall v, eval body (bound (lit "x") it c) <> Ok v) ->
  fails_like (eval body (bound (lit "x") it c)) (eval (call name [a; body]) c).
Proof. exact @if_call_fails. Qed.
Print Assumptions C14_failure.

(** SUMIF with a text or number criterion; see [stands_for] and [picks]. *)
Theorem C14_criterion : forall (X : Ext) c a e rs crit P, uncustomised c "SUMIF" -> eval a c = Ok (VArray rs) ->
  eval e c = Ok crit -> stands_for crit P ->
  exists ns, picks P rs rs ns /\ eval (call "SUMIF" [a; e]) c = Ok (VNumber (total ns)).
Proof. exact @sumif_criterion. Qed.
Print Assumptions C14_criterion.

Theorem C14_criterion_sum_array : forall (X : Ext) c a e b rs ss crit P, uncustomised c "SUMIF" -> eval a c = Ok (VArray rs) ->
  eval e c = Ok crit -> eval b c = Ok (VArray ss) -> stands_for crit P ->
  exists ns, picks P rs ss ns /\ eval (call "SUMIF" [a; e; b]) c = Ok (VNumber (total ns)).
Proof. exact @sumif_criterion3. Qed.
Print Assumptions C14_criterion_sum_array.

Theorem C14_picks_unique : forall P rs ss ns ns', picks P rs ss ns -> picks P rs ss ns' -> ns = ns'.
Proof. exact @picks_fun. Qed.
Print Assumptions C14_picks_unique.
Example C14_example :
  let X := example_ext in
  evaluate (lit "SUMIF([10, 20, 30], :x > 15)") = Ok (num 50)
  /\ evaluate (lit "AVGIF([10, 20, 30], :x > 15)") = Ok (num 25) /\ evaluate (lit "AVGIF([1], :x > 15)") = Ok (num 0)
  /\ evaluate (lit "SUMIF([10, 20, 30], '>15')") = Ok (num 50)
  /\ evaluate (lit "SUMIF([10, 20, 30], '<>20', [1, 2, 4])") = Ok (num 5)
  /\ evaluate (lit "SUMIF(['a', 'b', 'a'], 'a', [1, 2, 4])") = Ok (num 5).
Proof. vm_compute. repeat split; try reflexivity. Qed.
Example C14_hypotheses : stands_for (VString (lit ">=15")) (compares BGe (f_of_Z 15)).
Proof. apply (crit_compare ">=" BGe (lit "15")); [left; reflexivity|vm_compute; reflexivity]. Qed.
