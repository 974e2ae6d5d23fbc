(** Property theorems about evaluation: scoping, laziness, failures, spread
    arguments, indexing, comparison, assignments, safe navigation. *)
From Coq Require Import String List ZArith NArith Bool.
From Coq Require Import Floats.SpecFloat.
From Verif Require Import Base F64 Utf8 Syntax Ext Json Registry Methods Core Evaluator Lexer Parser Api Spec
  Utf8_proofs Parse_proofs Eval_proofs.
Import ListNotations.

(** C07: the public evaluation functions see only the variables the source
    mentions: changing or adding any other variable changes nothing, failures
    included. *)
Theorem C07_evaluate_with : forall (X : Ext) src e m1 m2, parse src = Ok e -> agree_on (variables e) m1 m2 ->
  evaluate_with src m1 = evaluate_with src m2
  /\ (forall reg, evaluate_with_custom reg src m1 = evaluate_with_custom reg src m2)
  /\ evaluate_with_assignments src m1 = evaluate_with_assignments src m2.
Proof. exact @evaluate_with_agree. Qed.
Print Assumptions C07_evaluate_with.

Theorem C07_eval : forall (X : Ext) e c1 c2, c_reg c1 = c_reg c2 -> agree_on (variables e) (c_vars c1) (c_vars c2) ->
  eval e c1 = eval e c2.
Proof. exact @eval_agree. Qed.
Print Assumptions C07_eval.

(** the two evaluators used for method arguments *)
Theorem C07_lambda : forall (X : Ext) e v1 v2, agree_on (variables e) v1 v2 -> ev e (Some v1) = ev e (Some v2).
Proof. exact @ev_agree. Qed.
Print Assumptions C07_lambda.

Theorem C07_lambda_custom : forall (X : Ext) reg e v1 v2, agree_on (variables e) v1 v2 -> ev_custom reg e v1 = ev_custom reg e v2.
Proof. exact @ev_custom_agree. Qed.
Print Assumptions C07_lambda_custom.

(** ... and of these, a variable is the value given for it, also inside lambdas *)
Theorem C07_variable : forall (X : Ext) x v,
  (forall c, eval (EVariable x) c = Ok v <-> mget x (c_vars c) = Some v)
  /\ (forall vars, ev (EVariable x) (Some vars) = Ok v <-> mget x vars = Some v)
  /\ (forall reg vars, ev_custom reg (EVariable x) vars = Ok v <-> mget x vars = Some v).
Proof. exact @variable_value. Qed.
Print Assumptions C07_variable.
Example C07_example :
  let X := example_ext in
  evaluate_with (lit "[:a].map(:x + :b)") [(lit "a", num 1); (lit "b", num 2)] = Ok (VArray [num 3])
  /\ evaluate_with (lit "[:a].map(:x + :b)") [(lit "c", VNull); (lit "b", num 2); (lit "a", num 1)] = Ok (VArray [num 3]).
Proof. vm_compute. repeat split; try reflexivity. Qed.

(** C08: the caller's binding of a parameter name is invisible to the lambda:
    whatever value it has (or none), the call gives the same result... *)
Theorem C08_named_parameter : forall (X : Ext) name c a body p v, In name ["FILTER"; "FIND"; "MAP"]%string -> uncustomised c name ->
  ~ In p (variables a) ->
  eval (call name [a; body; EStringLit p]) (rebind p v c) = eval (call name [a; body; EStringLit p]) c.
Proof. exact @shadow3. Qed.
Print Assumptions C08_named_parameter.

Theorem C08_default_parameter : forall (X : Ext) name c a body v, In name ["FILTER"; "FIND"; "MAP"; "AVGIF"; "COUNTIF"]%string -> uncustomised c name ->
  ~ In (lit "x") (variables a) ->
  eval (call name [a; body]) (rebind (lit "x") v c) = eval (call name [a; body]) c.
Proof. exact @shadow2. Qed.
Print Assumptions C08_default_parameter.

Theorem C08_reduce : forall (X : Ext) c a body init p q r v, uncustomised c "REDUCE" -> r = p \/ r = q ->
  ~ In r (variables a) -> ~ In r (variables init) ->
  eval (call "REDUCE" [a; body; init; EStringLit p; EStringLit q]) (rebind r v c)
  = eval (call "REDUCE" [a; body; init; EStringLit p; EStringLit q]) c.
Proof. exact @shadow_reduce. Qed.
Print Assumptions C08_reduce.

Theorem C08_method : forall (X : Ext) name c t body p v, In name ["filter"; "map"; "find"]%string -> ~ In p (variables t) ->
  eval (EMethodCall t (lit name) [body; EStringLit p] false) (rebind p v c)
  = eval (EMethodCall t (lit name) [body; EStringLit p] false) c.
Proof. exact @shadow_method. Qed.
Print Assumptions C08_method.

(** ... and the caller sees its own binding before and after the call. *)
Theorem C08_restored : forall (X : Ext) name es p v r c, mget p (c_vars c) = Some v -> eval (EFunctionCall name es) c = Ok r ->
  eval (EArray [EVariable p; EFunctionCall name es; EVariable p]) c = Ok (VArray [v; r; v]).
Proof. exact @call_restores. Qed.
Print Assumptions C08_restored.
Example C08_example :
  let X := example_ext in
  evaluate_with (lit "[:x, MAP([1, 2], :x * 10), :x]") [(lit "x", num 7)]
    = Ok (VArray [num 7; VArray [num 10; num 20]; num 7]).
Proof. vm_compute. repeat split; try reflexivity. Qed.
(** SUMIF is the exception: it first evaluates its criterion as a static value
    in the caller's context, so the caller's [x] changes what it does. *)
Theorem C08_sumif_refuted : forall X : Ext, exists a body v1 v2,
  ~ In (lit "x") (variables a)
  /\ (exists r1 r2, eval (call "SUMIF" [a; body]) (vars_ctx [(lit "x", v1)]) = Ok r1
       /\ eval (call "SUMIF" [a; body]) (vars_ctx [(lit "x", v2)]) = Ok r2 /\ r1 <> r2).
Proof. exact @sumif_sees_caller. Qed.
Print Assumptions C08_sumif_refuted.

(** C09: the ternary operator (the parser turns [c ? a : b] into this call)
    runs the condition and then exactly one branch. *)
Theorem C09_ternary : forall (X : Ext) e a b c, eval (call "__TERNARY__" [e; a; b]) c =
  match eval e c with
  | Ok (VBoolean true) => eval a c
  | Ok (VBoolean false) => eval b c
  | Ok _ => Err (err "Ternary condition must be boolean")
  | Err x => Err x
  | Panic w => Panic w
  end.
Proof. exact @ternary_eval. Qed.
Print Assumptions C09_ternary.
(** IF evaluates all its arguments *)
Theorem C09_if_strict : forall (X : Ext) e1 e2 e3 v1 v2 c,
  eval e1 c = Ok v1 -> eval e2 c = Ok v2 -> (forall v, eval e3 c <> Ok v) -> (forall i, e3 <> ESpread i) ->
  fails_like (eval e3 c) (eval (call "IF" [e1; e2; e3]) c).
Proof. exact @if_strict. Qed.
Print Assumptions C09_if_strict.
Example C09_example :
  let X := example_ext in
  parse (lit "TRUE ? 1 : :missing") = Ok (call "__TERNARY__" [true_call; ENumber (f_of_Z 1); EVariable (lit "missing")])
  /\ evaluate (lit "TRUE ? 1 : :missing") = Ok (num 1)
  /\ evaluate (lit "IF(TRUE, 1, :missing)") = Err (mkErr (lit "Missing variable: :missing") None).
Proof. vm_compute. repeat split; try reflexivity. Qed.

(** C10: a failing operand makes the whole expression fail in the same way,
    whatever the other operands are. *)
Theorem C10_unary : forall (X : Ext) op e c, (forall v, eval e c <> Ok v) -> fails_like (eval e c) (eval (EUnary op e) c).
Proof. exact @unary_fails. Qed.
Print Assumptions C10_unary.

Theorem C10_binary_left : forall (X : Ext) l op r c, (forall v, eval l c <> Ok v) -> fails_like (eval l c) (eval (EBinary l op r) c).
Proof. exact @binary_fails_l. Qed.
Print Assumptions C10_binary_left.

Theorem C10_binary_right : forall (X : Ext) l op r c v, eval l c = Ok v -> (forall v, eval r c <> Ok v) ->
  fails_like (eval r c) (eval (EBinary l op r) c).
Proof. exact @binary_fails_r. Qed.
Print Assumptions C10_binary_right.

Theorem C10_array : forall (X : Ext) before e after vs c, evaluate_to c before vs -> (forall v, eval e c <> Ok v) ->
  fails_like (eval e c) (eval (EArray (before ++ e :: after)) c).
Proof. exact @array_fails. Qed.
Print Assumptions C10_array.

Theorem C10_object : forall (X : Ext) before k e after c, Forall (fun kv => exists v j, eval (snd kv) c = Ok v /\ value_to_json v = Ok j) before ->
  (forall v, eval e c <> Ok v) ->
  fails_like (eval e c) (eval (EObjectLiteral (before ++ (k, e) :: after)) c).
Proof. exact @object_fails. Qed.
Print Assumptions C10_object.

(** every call except those of the names listed in [lazy_names] *)
Theorem C10_call : forall (X : Ext) name before e after vs c, (forall n, In n lazy_names -> name <> lit n) ->
  evaluate_to c before vs -> (forall v, eval e c <> Ok v) -> (forall i, e <> ESpread i) ->
  fails_like (eval e c) (eval (EFunctionCall name (before ++ e :: after)) c).
Proof. exact @call_fails. Qed.
Print Assumptions C10_call.
(** SUMIF does mask a failing criterion *)
Theorem C10_sumif_refuted : forall X : Ext, exists a body c,
  fails (eval body c) /\ exists r, eval (call "SUMIF" [a; body]) c = Ok r.
Proof. exact @sumif_masks. Qed.
Print Assumptions C10_sumif_refuted.
(** a variable that is not given fails, and does not count as null *)
Theorem C10_missing_variable : forall (X : Ext) x,
  (forall c, mget x (c_vars c) = None -> eval (EVariable x) c = Err (mkErr (lit "Missing variable: :" ++ x) None))
  /\ (forall vars, mget x vars = None -> ev (EVariable x) (Some vars) = Err (mkErr (lit "Missing variable: :" ++ x) None))
  /\ (forall reg vars, mget x vars = None -> ev_custom reg (EVariable x) vars = Err (mkErr (lit "Undefined variable: " ++ x) None)).
Proof. exact @variable_missing. Qed.
Print Assumptions C10_missing_variable.
Example C10_example :
  let X := example_ext in
  evaluate (lit "FALSE && (1 + SUM(2, :missing))") = Err (mkErr (lit "Missing variable: :missing") None)
  /\ evaluate (lit "TRUE || (1 + SUM(2, :missing))") = Err (mkErr (lit "Missing variable: :missing") None).
Proof. vm_compute. repeat split; try reflexivity. Qed.

(** C15: a spread argument is its elements written out. *)
Theorem C15_spread : forall (X : Ext) name before s after vs es c, (forall n, In n lazy_names -> name <> lit n) ->
  eval s c = Ok (VArray vs) -> evaluate_to c es vs ->
  eval (EFunctionCall name (before ++ ESpread s :: after)) c = eval (EFunctionCall name (before ++ es ++ after)) c.
Proof. exact @spread_call. Qed.
Print Assumptions C15_spread.

(** the same for custom functions, even under the names of built-ins that do
    not accept a spread *)
Theorem C15_spread_custom : forall (X : Ext) name before s after vs es vars reg,
  (forall n, In n ["__TERNARY__"; "__CONST_TRUE__"; "__CONST_FALSE__"]%string -> name <> lit n) ->
  has_custom_function reg name = true ->
  eval s (custom_ctx vars reg) = Ok (VArray vs) -> evaluate_to (custom_ctx vars reg) es vs ->
  eval (EFunctionCall name (before ++ ESpread s :: after)) (custom_ctx vars reg)
  = eval (EFunctionCall name (before ++ es ++ after)) (custom_ctx vars reg).
Proof. exact @spread_custom. Qed.
Print Assumptions C15_spread_custom.

Theorem C15_spread_non_array : forall (X : Ext) name before s after v c, (forall n, In n lazy_names -> name <> lit n) ->
  eval s c = Ok v -> (forall xs, v <> VArray xs) ->
  forall r, eval (EFunctionCall name (before ++ ESpread s :: after)) c <> Ok r.
Proof. exact @spread_non_array. Qed.
Print Assumptions C15_spread_non_array.
Example C15_example :
  let X := example_ext in
  evaluate (lit "SUM(1, ...[2, 3], 4)") = Ok (num 10) /\ evaluate (lit "SUM(1, 2, 3, 4)") = Ok (num 10)
  /\ evaluate (lit "SUM(1, ...5)") = Err (err "Spread expects array").
Proof. vm_compute. repeat split; try reflexivity. Qed.

(** C16: positions count from the end when negative; fractional positions are
    truncated towards zero. *)
Theorem C16_index : forall (X : Ext) t i c xs n, eval t c = Ok (VArray xs) -> eval i c = Ok (VNumber n) -> finite n ->
  (- 2 ^ 63 < whole_part n < 2 ^ 63)%Z ->
  let z := whole_part n in let len := Z.of_nat (length xs) in
  ((0 <= z < len)%Z -> exists v, nth_error xs (Z.to_nat z) = Some v /\ eval (EIndex t i) c = Ok v)
  /\ ((- len <= z < 0)%Z -> exists v, nth_error xs (Z.to_nat (len + z)) = Some v /\ eval (EIndex t i) c = Ok v)
  /\ ((len <= z \/ z < - len)%Z -> fails (eval (EIndex t i) c)).
Proof. exact @index_cases. Qed.
Print Assumptions C16_index.

Theorem C16_index_huge : forall (X : Ext) t i c xs n, eval t c = Ok (VArray xs) -> eval i c = Ok (VNumber n) -> fits_list xs ->
  n = f_inf \/ (finite n /\ (2 ^ 63 <= whole_part n)%Z) -> fails (eval (EIndex t i) c).
Proof. exact @index_huge. Qed.
Print Assumptions C16_index_huge.

(** indexing can panic: the negation of a position of -2^63 or less (or
    -infinity) overflows *)
Theorem C16_index_overflow_refuted : forall (X : Ext) t i c xs n, eval t c = Ok (VArray xs) -> eval i c = Ok (VNumber n) ->
  n = S754_infinity true \/ (finite n /\ (whole_part n <= - 2 ^ 63)%Z) ->
  exists w, eval (EIndex t i) c = Panic w.
Proof. exact @index_overflow. Qed.
Print Assumptions C16_index_overflow_refuted.

(** NaN reads position 0 *)
Theorem C16_index_nan : forall (X : Ext) t i c xs, eval t c = Ok (VArray xs) -> eval i c = Ok (VNumber f_nan) ->
  match xs with x :: _ => eval (EIndex t i) c = Ok x | [] => fails (eval (EIndex t i) c) end.
Proof. exact @index_nan. Qed.
Print Assumptions C16_index_nan.

Theorem C16_index_type : forall (X : Ext) t i c v w, eval t c = Ok v -> eval i c = Ok w ->
  (forall xs, v <> VArray xs) \/ (forall n, w <> VNumber n) -> fails (eval (EIndex t i) c).
Proof. exact @index_type. Qed.
Print Assumptions C16_index_type.

Theorem C16_slice : forall (X : Ext) t i j c xs m n, eval t c = Ok (VArray xs) -> fits_list xs ->
  match i with Some e => eval e c = Ok (VNumber m) | None => m = S754_zero false end ->
  match j with Some e => eval e c = Ok (VNumber n) | None => True end ->
  finite m -> finite n ->
  let len := Z.of_nat (length xs) in
  let a := clamped len (whole_part m) in
  let b := match j with Some _ => clamped len (whole_part n) | None => len end in
  eval (ESlice t i j) c = Ok (VArray (firstn (Z.to_nat (b - a)) (skipn (Z.to_nat a) xs))).
Proof. exact @slice_cases. Qed.
Print Assumptions C16_slice.

Theorem C16_slice_type : forall (X : Ext) t i j c v, eval t c = Ok v -> (forall xs, v <> VArray xs) -> fails (eval (ESlice t i j) c).
Proof. exact @slice_type. Qed.
Print Assumptions C16_slice_type.
Example C16_example :
  let X := example_ext in
  evaluate (lit "[1, 2, 3][-1]") = Ok (num 3) /\ evaluate (lit "[1, 2, 3][3]") = Err (err "Index out of bounds")
  /\ evaluate (lit "[1, 2, 3, 4][1:-1]") = Ok (VArray [num 2; num 3])
  /\ evaluate (lit "[1, 2][0 - 1/0]") = Panic "attempt to negate with overflow".
Proof. vm_compute. repeat split; try reflexivity. Qed.

(** C17: comparison operators, by the types of the operands. *)
Theorem C17_numbers : forall (X : Ext) l op r c x y, eval l c = Ok (VNumber x) -> eval r c = Ok (VNumber y) ->
  In op comparisons -> decides (eval (EBinary l op r) c) (number_relation op x y).
Proof. exact @compare_numbers. Qed.
Print Assumptions C17_numbers.

Theorem C17_texts : forall (X : Ext) l op r c s t, eval l c = Ok (VString s) -> eval r c = Ok (VString t) ->
  In op comparisons -> decides (eval (EBinary l op r) c) (text_relation op s t).
Proof. exact @compare_texts. Qed.
Print Assumptions C17_texts.
(** [before] is a strict total order, and UTF-8 keeps it (Rust compares bytes) *)
Theorem C17_text_order : forall s t : str,
  (before s t /\ s <> t /\ ~ before t s)
  \/ (s = t /\ ~ before s t /\ ~ before t s)
  \/ (before t s /\ s <> t /\ ~ before s t).
Proof. exact @before_total. Qed.
Print Assumptions C17_text_order.
Theorem C17_text_bytes : forall s t, valid_str s -> valid_str t -> (before (encode s) (encode t) <-> before s t).
Proof. exact before_bytes. Qed.
Print Assumptions C17_text_bytes.

Theorem C17_booleans : forall (X : Ext) l op r c x y, eval l c = Ok (VBoolean x) -> eval r c = Ok (VBoolean y) ->
  In op comparisons ->
  decides (eval (EBinary l op r) c) (match op with BEq => x = y | BNe => x <> y | _ => False end).
Proof. exact @compare_booleans. Qed.
Print Assumptions C17_booleans.

(** all other pairs (different types, NULL, arrays, JSON, dates, currency) *)
Theorem C17_others : forall (X : Ext) l op r c a b, eval l c = Ok a -> eval r c = Ok b -> ~ comparable a b ->
  In op comparisons ->
  match op with
  | BEq => eval (EBinary l op r) c = Ok (VBoolean false)
  | BNe => eval (EBinary l op r) c = Ok (VBoolean true)
  | _ => fails (eval (EBinary l op r) c)
  end.
Proof. exact @compare_others. Qed.
Print Assumptions C17_others.
Example C17_example :
  let X := example_ext in
  evaluate (lit "[1 < 2, 'b' >= 'a', TRUE != FALSE, NULL == NULL, 1 == '1', 'e' < 'f']")
    = Ok (VArray [VBoolean true; VBoolean true; VBoolean true; VBoolean false; VBoolean false; VBoolean true])
  /\ evaluate (lit "1 < '2'") = Err (err "Comparison of incompatible types").
Proof. vm_compute. repeat split; try reflexivity. Qed.

(** C18: a ';' sequence runs its expressions in order; see [runs]. *)
Theorem C18_sequence : forall (X : Ext) src es vars v vars', parse src = Ok (ESequence es) ->
  (evaluate_with_assignments_and_context src vars = Ok (v, vars') <-> runs es vars v vars').
Proof. exact @sequence_runs. Qed.
Print Assumptions C18_sequence.
Theorem C18_value : forall (X : Ext) src es vars v, parse src = Ok (ESequence es) ->
  (evaluate_with_assignments src vars = Ok v <-> exists vars', runs es vars v vars').
Proof. exact @sequence_value. Qed.
Print Assumptions C18_value.
(** a source without ';' *)
Theorem C18_single : forall (X : Ext) src e vars v vars', parse src = Ok e -> (forall es, e <> ESequence es) ->
  (evaluate_with_assignments_and_context src vars = Ok (v, vars') <-> runs [e] vars v vars').
Proof. exact @single_runs. Qed.
Print Assumptions C18_single.
(** the first failing expression decides the failure; what follows it is
    never looked at *)
Theorem C18_first_failure : forall (X : Ext) src pre e post vars v vars0,
  parse src = Ok (ESequence (pre ++ e :: post)) ->
  (pre = [] /\ vars0 = vars \/ runs pre vars v vars0) ->
  (forall w, eval (body_of e) (vars_ctx vars0) <> Ok w) ->
  fails_like (eval (body_of e) (vars_ctx vars0)) (evaluate_with_assignments_and_context src vars).
Proof. exact @sequence_fails. Qed.
Print Assumptions C18_first_failure.

(** variables that no expression assigns keep their values *)
Theorem C18_untouched : forall (X : Ext) es vars v vars' x, runs es vars v vars' -> Forall (fun e => ~ assigns e x) es ->
  mget x vars' = mget x vars.
Proof. exact @runs_untouched. Qed.
Print Assumptions C18_untouched.

(** an assigned variable ends with the value of its last assignment *)
Theorem C18_last_assignment : forall (X : Ext) pre x e post vars v vars', runs (pre ++ EAssignment x e :: post) vars v vars' ->
  Forall (fun e => ~ assigns e x) post ->
  exists vars0 w, (pre = [] /\ vars0 = vars \/ exists u, runs pre vars u vars0)
    /\ eval e (vars_ctx vars0) = Ok w /\ mget x vars' = Some w.
Proof. exact @runs_last_wins. Qed.
Print Assumptions C18_last_assignment.
Example C18_example :
  let X := example_ext in
  evaluate_with_assignments_and_context (lit ":a := :n + 1; :b := :a * 2; :a := 0; :a + :b") [(lit "n", num 4)]
    = Ok (num 10, [(lit "a", num 0); (lit "b", num 10); (lit "n", num 4)])
  /\ evaluate_with_assignments (lit ":a := 1; :b := :missing; 3") [] = Err (mkErr (lit "Missing variable: :missing") None).
Proof. vm_compute. repeat split; try reflexivity. Qed.

(** C19: safe navigation. *)
Theorem C19_null : forall (X : Ext) e c p m args, eval e c = Ok VNull ->
  eval (ESafePropertyAccess e p) c = Ok VNull /\ eval (ESafeMethodCall e m args) c = Ok VNull.
Proof. exact @safe_null. Qed.
Print Assumptions C19_null.

Theorem C19_method : forall (X : Ext) e c v m args, eval e c = Ok v -> v <> VNull ->
  eval (ESafeMethodCall e m args) c = eval (EMethodCall e m args false) c.
Proof. exact @safe_method. Qed.
Print Assumptions C19_method.

(** a property that is present reads the same; one that is missing gives NULL
    where the plain access fails; everything else fails in the same way *)
Theorem C19_property : forall (X : Ext) e c v p, eval e c = Ok v -> v <> VNull ->
  eval (ESafePropertyAccess e p) c = eval (EPropertyAccess e p) c
  \/ ((exists text j, v = VJson text /\ parse_json text = Ok j /\ jget p j = None)
      /\ eval (ESafePropertyAccess e p) c = Ok VNull /\ fails (eval (EPropertyAccess e p) c)).
Proof. exact @safe_property. Qed.
Print Assumptions C19_property.

Theorem C19_failure : forall (X : Ext) e c p m args, (forall v, eval e c <> Ok v) ->
  fails_like (eval e c) (eval (ESafePropertyAccess e p) c) /\ fails_like (eval e c) (eval (ESafeMethodCall e m args) c).
Proof. exact @safe_fails. Qed.
Print Assumptions C19_failure.
Example C19_example :
  let X := example_ext in
  evaluate (lit "NULL&.name") = Ok VNull /\ evaluate (lit "NULL&.upper()") = Ok VNull
  /\ evaluate (lit "'abc'&.upper()") = Ok (VString (lit "ABC"))
  /\ evaluate (lit "{a: 1}&.a") = Ok (num 1) /\ evaluate (lit "{a: 1}&.b") = Ok VNull
  /\ evaluate (lit "(5)&.a") = Err (err "Property access requires JSON object")
  /\ evaluate (lit ":u&.a") = Err (mkErr (lit "Missing variable: :u") None).
Proof. vm_compute. repeat split; try reflexivity. Qed.
