(** Vocabulary of the property statements.  Nothing here is used by the model. *)
From Coq Require Import String List ZArith NArith Bool.
From Coq Require Import Floats.SpecFloat.
From Verif Require Import Base F64 F64Text Syntax Ext Json Registry Methods Core Evaluator Api.
Import ListNotations.

(** ** Calls *)

(** the expression NAME(e1, ..., en) *)
Definition call (name : string) (es : list expr) : expr := EFunctionCall (lit name) es.
Arguments call name%string es.

(** no custom function is registered under this name in the context *)
Definition uncustomised {X : Ext} (c : ctx) (name : string) : Prop :=
  match c_reg c with
  | Some reg => has_custom_function reg (lit name) = false
  | None => True
  end.
Arguments uncustomised {X} c name%string.

(** the expressions evaluate, in this context, to these values *)
Definition evaluate_to {X : Ext} (c : ctx) (es : list expr) (vs : list value) : Prop :=
  Forall2 (fun e v => eval e c = Ok v) es vs.

(** ** Arrays *)

(** the left-to-right sequence of non-array leaves of a nested array *)
Inductive leaves_of : value -> list value -> Prop :=
| leaf : forall v, (forall xs, v <> VArray xs) -> leaves_of v [v]
| node : forall xs parts, Forall2 leaves_of xs parts -> leaves_of (VArray xs) (concat parts).

(** IEEE order: total on numbers that are not NaN *)
Definition not_nan (x : f64) : Prop := x <> f_nan.
Definition f_le (x y : f64) : Prop := f_leb x y = true.

(** equality of values as the library understands it: payload equality, IEEE
    equality on numbers (NaN differs from itself, 0 equals -0), structurally
    on arrays *)
Inductive same : value -> value -> Prop :=
| same_number : forall x y, f_eqb x y = true -> same (VNumber x) (VNumber y)
| same_currency : forall x y, f_eqb x y = true -> same (VCurrency x) (VCurrency y)
| same_boolean : forall b, same (VBoolean b) (VBoolean b)
| same_string : forall s, same (VString s) (VString s)
| same_null : same VNull VNull
| same_datetime : forall t, same (VDateTime t) (VDateTime t)
| same_json : forall s, same (VJson s) (VJson s)
| same_array : forall xs ys, Forall2 same xs ys -> same (VArray xs) (VArray ys).

(** the numbers among the elements of an array, in order *)
Definition numbers_in (xs : list value) : list f64 :=
  flat_map (fun v => match v with VNumber n => [n] | _ => [] end) xs.

(** [firsts l out]: [out] is [l] with every repetition after the first dropped *)
Inductive firsts {A} : list A -> list A -> Prop :=
| firsts_nil : firsts [] []
| firsts_new : forall l out x, firsts l out -> ~ In x l -> firsts (l ++ [x]) (out ++ [x])
| firsts_old : forall l out x, firsts l out -> In x l -> firsts (l ++ [x]) out.

(** the text is "desc", in any mixture of ASCII cases *)
Definition says_desc (s : str) : Prop := map lower_ascii s = lit "desc".

(** ** Numbers used as counts and positions *)

(** [x] is one of the values of the binary64 format *)
Definition representable (x : f64) : Prop := valid_binary prec emax x = true.
(** whole part of a positive finite number; 0 for every other number *)
Definition whole (x : f64) : Z :=
  match x with
  | S754_finite false m e => if (0 <=? e)%Z then (Zpos m * 2 ^ e)%Z else (Zpos m / 2 ^ (- e))%Z
  | _ => 0%Z
  end.
(** the first [n] characters, and what is left after them *)
Definition first_chars (n : Z) (s : str) : str := firstn (Z.to_nat n) s.
Definition after_chars (n : Z) (s : str) : str := skipn (Z.to_nat n) s.
Definition size (s : str) : Z := Z.of_nat (length s).
(** a text that fits in memory ([isize::MAX] bytes) *)
Definition fits (s : str) : Prop := (size s < 2 ^ 63)%Z.

(** ** Texts *)
(** [old] occurs in [s] *)
Definition occurs (old s : str) : Prop := exists a b, s = a ++ old ++ b.
(** [s] with every leftmost non-overlapping occurrence of [old] replaced *)
Inductive substituted (old new : str) : str -> str -> Prop :=
| no_occurrence : forall s, ~ occurs old s -> substituted old new s s
| first_occurrence : forall a b out,
    (forall a' b', a ++ old ++ b = a' ++ old ++ b' -> (length a <= length a')%nat) ->
    substituted old new b out ->
    substituted old new (a ++ old ++ b) (a ++ new ++ out).
(** the parts of [s] between the leftmost non-overlapping occurrences of [sep] *)
Inductive cut_at (sep : str) : str -> list str -> Prop :=
| no_cut : forall s, ~ occurs sep s -> cut_at sep s [s]
| first_cut : forall a b parts,
    (forall a' b', a ++ sep ++ b = a' ++ sep ++ b' -> (length a <= length a')%nat) ->
    cut_at sep b parts ->
    cut_at sep (a ++ sep ++ b) (a :: parts).
(** the parts put next to each other with [sep] between them *)
Inductive joined (sep : str) : list str -> str -> Prop :=
| joined_none : joined sep [] []
| joined_one : forall p, joined sep [p] p
| joined_more : forall p q ps s, joined sep (q :: ps) s -> joined sep (p :: q :: ps) (p ++ sep ++ s).

(** ** Truth and aggregation *)
(** what the logical functions take for true: TRUE and every number but 0 *)
Definition counts_as_true (v : value) : Prop :=
  v = VBoolean true \/ exists n, v = VNumber n /\ forall sign, n <> S754_zero sign.
(** the numeric payloads (numbers and currency amounts) among some values *)
Definition figures (vs : list value) : list f64 :=
  flat_map (fun v => match v with VNumber n | VCurrency n => [n] | _ => [] end) vs.
(** [m] is the smallest (w.r.t. [le]) of the figures that are not NaN, NaN if
    there are only NaNs and 0 if there are no figures *)
Definition extreme (le : f64 -> f64 -> Prop) (fs : list f64) (m : f64) : Prop :=
  (fs = [] /\ m = f_zero)
  \/ (fs <> [] /\ Forall (fun x => x = f_nan) fs /\ m = f_nan)
  \/ (In m fs /\ not_nan m /\ Forall (fun x => not_nan x -> le m x) fs).

(** ** Names of the built-in functions *)
(** built-ins known to both dispatchers *)
Definition shared_names : list string :=
  ["ARRAY"; "FLATTEN"; "FIRST"; "LAST"; "CONTAINS"; "IN"; "COUNT"; "UNIQUE"; "SORT"; "JOIN";
   "SUM"; "AVG"; "AVERAGE"; "MIN"; "MAX"; "ROUND"; "CEIL"; "CEILING"; "FLOOR"; "ABS"; "SQRT";
   "POW"; "POWER"; "MOD"; "INT"; "PRODUCT"; "MULTIPLY"; "AND"; "OR"; "NOT"; "XOR"; "IF"; "IFS";
   "LENGTH"; "CONCAT"; "UPPER"; "LOWER"; "TRIM"; "SUBSTRING"; "SPLIT"; "REPLACE"; "SUBSTITUTE";
   "SUBSTITUTEM"; "ISBLANK"; "ISNUMBER"; "ISTEXT"; "INCLUDES"; "LEFT"; "RIGHT"; "MID";
   "NOW"; "DATE"; "TIME"; "YEAR"; "MONTH"; "DAY"; "DATEADD"; "DATEDIFF"; "PMT"; "DB"; "FV"; "IPMT";
   "MEDIAN"; "MODE.SNGL"; "MODESNGL"; "MODE_SNGL"; "STDEV.P"; "STDEVP"; "STDEV_P"; "VAR.P"; "VARP";
   "VAR_P"; "PERCENTILE.INC"; "PERCENTILEINC"; "PERCENTILE_INC"; "QUARTILE.INC"; "QUARTILEINC";
   "QUARTILE_INC"]%string.
(** all names one of the evaluators has a meaning for *)
Definition known_names : list string :=
  (shared_names ++ ["REVERSE"; "DIG"; "JQ"; "BETWEEN"; "FILTER"; "FIND"; "MAP"; "REDUCE"; "SUMIF"; "AVGIF";
    "COUNTIF"; "__CONST_TRUE__"; "__CONST_FALSE__"; "__TERNARY__"])%list%string.

(** two outcomes agree up to the wording of an error *)
Definition agree {A} (r1 r2 : res A) : Prop :=
  match r1, r2 with
  | Ok a, Ok b => a = b
  | Err _, Err _ => True
  | Panic a, Panic b => a = b
  | _, _ => False
  end.
Definition fails {A} (r : res A) : Prop := exists er, r = Err er.

(** ** Variables *)
(** the variables an expression reads *)
Fixpoint variables (e : expr) : list str :=
  match e with
  | ENumber _ | EStringLit _ | ENull => []
  | EVariable x => [x]
  | EUnary _ e1 | EPropertyAccess e1 _ | ESafePropertyAccess e1 _ | ESpread e1 | ETypeCast e1 _
  | EAssignment _ e1 => variables e1
  | EBinary l _ r => variables l ++ variables r
  | EIndex l r => variables l ++ variables r
  | ESafeMethodCall t _ es => variables t ++ flat_map variables es
  | EMethodCall t _ es _ => variables t ++ flat_map variables es
  | EFunctionCall _ es | EArray es | ESequence es => flat_map variables es
  | EObjectLiteral kvs => flat_map (fun kv => variables (snd kv)) kvs
  | ESlice t a b =>
      variables t ++ match a with Some x => variables x | None => [] end
                  ++ match b with Some x => variables x | None => [] end
  end.
(** the two variable maps give the same values to these variables *)
Definition agree_on (xs : list str) (m1 m2 : env) : Prop := forall x, In x xs -> mget x m1 = mget x m2.

(** the context with [p] bound to [v] (other variables and custom functions kept) *)
Definition rebind (p : str) (v : value) (c : ctx) : ctx := mkCtx (minsert p v (c_vars c)) (c_reg c).
(** what a function lambda runs in: the caller's variables and its parameter,
    and no custom functions *)
Definition bound (p : str) (v : value) (c : ctx) : ctx := vars_ctx (minsert p v (c_vars c)).

(** ** Failures *)
(** [r'] fails exactly as [r] does *)
Definition fails_like {A B} (r : res A) (r' : res B) : Prop :=
  match r, r' with
  | Err a, Err b => a = b
  | Panic a, Panic b => a = b
  | _, _ => False
  end.
(** names under which a call does something else than evaluate its arguments
    from left to right and pass the values on *)
Definition lazy_names : list string :=
  ["__TERNARY__"; "__CONST_TRUE__"; "__CONST_FALSE__"; "FILTER"; "FIND"; "MAP"; "REDUCE"; "SUMIF"; "AVGIF";
   "COUNTIF"; "JQ"]%string.

(** ** Elements selected by a lambda *)
(** the elements whose outcome is TRUE *)
Fixpoint selected (items outcomes : list value) : list value :=
  match items, outcomes with
  | it :: items', v :: outcomes' =>
      match v with VBoolean true => it :: selected items' outcomes' | _ => selected items' outcomes' end
  | _, _ => []
  end.

(** the optional argument that names the parameter, and the name *)
Definition tail_of (op : option str) : list expr := match op with Some p => [EStringLit p] | None => [] end.
Definition name_of (op : option str) (d : string) : str := match op with Some p => p | None => lit d end.
Arguments name_of op d%string.
(** the values a lambda body takes on each element, the parameter [p] being
    bound to it: in a function call, and in a method call (whose arguments
    are run by the second evaluator) *)
Definition body_values {X : Ext} (body : expr) (p : str) (c : ctx) (items outcomes : list value) : Prop :=
  Forall2 (fun it v => eval body (bound p it c) = Ok v) items outcomes.
Definition method_body {X : Ext} (c : ctx) (body : expr) (p : str) (it : value) : res value :=
  match c_reg c with
  | Some reg => ev_custom reg body (minsert p it (c_vars c))
  | None => ev body (Some (minsert p it (c_vars c)))
  end.
Definition method_values {X : Ext} (body : expr) (p : str) (c : ctx) (items outcomes : list value) : Prop :=
  Forall2 (fun it v => method_body c body p it = Ok v) items outcomes.
(** the body of a reduce method sees both parameters *)
Definition method_step {X : Ext} (c : ctx) (body : expr) (p q : str) (acc it : value) : res value :=
  match c_reg c with
  | Some reg => ev_custom reg body (minsert q acc (minsert p it (c_vars c)))
  | None => ev body (Some (minsert q acc (minsert p it (c_vars c))))
  end.
Definition method_init {X : Ext} (c : ctx) (e : expr) : res value :=
  match c_reg c with Some reg => ev_custom reg e (c_vars c) | None => ev e (Some (c_vars c)) end.
(** [r] is the left fold of a partial step function *)
Inductive folds (step : value -> value -> res value) : value -> list value -> value -> Prop :=
| folds_end : forall acc, folds step acc [] acc
| folds_step : forall acc it acc' items r, step acc it = Ok acc' -> folds step acc' items r ->
    folds step acc (it :: items) r.

(** ** Conditional sums *)
(** the amount a value contributes to a conditional sum *)
Definition amount (v : value) : list f64 := match v with VNumber n | VCurrency n => [n] | _ => [] end.
(** floating-point sum from left to right *)
Definition total (ns : list f64) : f64 := fold_left f_add ns f_zero.
Definition mean (ns : list f64) : f64 :=
  match ns with [] => f_zero | _ => f_div (total ns) (f_of_Z (Z.of_nat (length ns))) end.

(** ** Positions *)
(** integer part (towards zero) of a finite number *)
Definition whole_part (x : f64) : Z :=
  match x with
  | S754_finite true m e => (- whole (S754_finite false m e))%Z
  | _ => whole x
  end.
Definition finite (x : f64) : Prop := is_finite x = true.
(** a list that fits in memory *)
Definition fits_list {A} (xs : list A) : Prop := (Z.of_nat (length xs) < 2 ^ 63)%Z.
(** a slice bound counted from the end when negative, clamped into [0, len] *)
Definition clamped (len z : Z) : Z := Z.max 0 (Z.min len (if (z <? 0)%Z then len + z else z))%Z.

(** ** Assignment sequences *)
(** the ';'-separated expressions run one after the other from the variables
    [vars]; the value of the last one and the final variables *)
Inductive runs {X : Ext} : list expr -> env -> value -> env -> Prop :=
| runs_last : forall e vars v, (forall x e', e <> EAssignment x e') -> eval e (vars_ctx vars) = Ok v ->
    runs [e] vars v vars
| runs_last_assign : forall x e vars v, eval e (vars_ctx vars) = Ok v ->
    runs [EAssignment x e] vars v (minsert x v vars)
| runs_next : forall e e2 es vars v0 v vars', (forall x e', e <> EAssignment x e') ->
    eval e (vars_ctx vars) = Ok v0 -> runs (e2 :: es) vars v vars' ->
    runs (e :: e2 :: es) vars v vars'
| runs_next_assign : forall x e e2 es vars v0 v vars', eval e (vars_ctx vars) = Ok v0 ->
    runs (e2 :: es) (minsert x v0 vars) v vars' ->
    runs (EAssignment x e :: e2 :: es) vars v vars'.
(** no expression of the sequence is itself a sequence (the parser never
    produces one inside another) *)
Definition flat (es : list expr) : Prop := Forall (fun e => forall es', e <> ESequence es') es.

(** the variable an expression of a sequence assigns, if any, and the
    expression whose value it is *)
Definition assigns (e : expr) (x : str) : Prop := exists e', e = EAssignment x e'.
Definition body_of (e : expr) : expr := match e with EAssignment _ e' => e' | _ => e end.

(** ** Comparison *)
Definition comparisons : list binary_op := [BEq; BNe; BLt; BLe; BGt; BGe].
(** what an operator says about two numbers, from their IEEE comparison
    ([None] when one of them is NaN) *)
Definition number_relation (op : binary_op) (x y : f64) : Prop :=
  match op with
  | BEq => SFcompare x y = Some Eq
  | BNe => SFcompare x y <> Some Eq
  | BLt => SFcompare x y = Some Lt
  | BLe => SFcompare x y = Some Lt \/ SFcompare x y = Some Eq
  | BGt => SFcompare x y = Some Gt
  | BGe => SFcompare x y = Some Gt \/ SFcompare x y = Some Eq
  | _ => False
  end.
(** dictionary order of texts by code point *)
Inductive before : str -> str -> Prop :=
| before_end : forall y t, before [] (y :: t)
| before_head : forall x y s t, (x < y)%N -> before (x :: s) (y :: t)
| before_tail : forall x s t, before s t -> before (x :: s) (x :: t).
Definition text_relation (op : binary_op) (s t : str) : Prop :=
  match op with
  | BEq => s = t
  | BNe => s <> t
  | BLt => before s t
  | BLe => before s t \/ s = t
  | BGt => before t s
  | BGe => before t s \/ s = t
  | _ => False
  end.
(** both numbers, both texts or both booleans *)
Definition comparable (a b : value) : Prop :=
  match a, b with
  | VNumber _, VNumber _ | VString _, VString _ | VBoolean _, VBoolean _ => True
  | _, _ => False
  end.
(** the evaluation succeeds with a boolean that tells whether [P] holds *)
Definition decides (r : res value) (P : Prop) : Prop := exists b, r = Ok (VBoolean b) /\ (b = true <-> P).

(** ** Criteria of conditional sums *)
Definition criterion_operators : list (string * binary_op) :=
  [(">=", BGe); ("<=", BLe); ("<>", BNe); (">", BGt); ("<", BLt); ("=", BEq)]%string.
(** an amount is compared with the threshold; "<>" also holds of every value
    that is not an amount *)
Definition compares (op : binary_op) (t : f64) (v : value) : Prop :=
  match v with
  | VNumber n | VCurrency n => number_relation op n t
  | _ => op = BNe
  end.
(** the condition a criterion stands for *)
Inductive stands_for : value -> (value -> Prop) -> Prop :=
| crit_number : forall t, stands_for (VNumber t) (compares BEq t)
| crit_plain_number : forall r t, f_from_str r = Some t -> stands_for (VString r) (compares BEq t)
| crit_compare : forall o op r t, In (o, op) criterion_operators -> f_from_str r = Some t ->
    stands_for (VString (lit o ++ r)) (compares op t)
| crit_text : forall r, f_from_str r = None -> (forall o op q, In (o, op) criterion_operators -> r <> lit o ++ q) ->
    stands_for (VString r) (fun v => v = VString r)
| crit_equal_text : forall r, f_from_str r = None -> stands_for (VString (lit "=" ++ r)) (fun v => v = VString r)
| crit_other_text : forall r, f_from_str r = None -> stands_for (VString (lit "<>" ++ r)) (fun v => v <> VString r)
| crit_nothing : forall o op r, In (o, op) [(">=", BGe); ("<=", BLe); (">", BGt); ("<", BLt)]%string -> f_from_str r = None ->
    (forall q, (r = lit "=" ++ q -> o = ">="%string \/ o = "<="%string) /\ (r = lit ">" ++ q -> o <> "<"%string)) ->
    stands_for (VString (lit o ++ r)) (fun _ => False).
(** the amounts of the second list at the positions where the first one meets
    the condition *)
Inductive picks (P : value -> Prop) : list value -> list value -> list f64 -> Prop :=
| picks_end1 : forall ss, picks P [] ss []
| picks_end2 : forall rs, picks P rs [] []
| picks_yes : forall x rs s ss ns, P x -> picks P rs ss ns -> picks P (x :: rs) (s :: ss) (amount s ++ ns)
| picks_no : forall x rs s ss ns, ~ P x -> picks P rs ss ns -> picks P (x :: rs) (s :: ss) ns.

(** ** Abbreviations for the examples *)
Definition num (k : Z) : value := VNumber (f_of_Z k).
(** an instance of the external calls, only used to exhibit examples *)
Definition example_ext : Ext :=
  Build_Ext (fun c => [c]) (fun c => if (c =? 304)%N then [105; 775]%N else if (c =? 8490)%N then [107]%N else [c]) (fun _ _ => true) (fun _ => true) (fun x _ => x) (fun x => x) (fun x => x)
            (fun x => x) (fun _ => true) 0 0 0 (fun _ => lit "e") false (fun _ _ => inl [])
            (fun _ x => Ok x).
