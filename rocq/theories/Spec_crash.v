(** Vocabulary for crashes: what an evaluation can crash on. *)
From Coq Require Import String List ZArith NArith Bool.
From Coq Require Import Floats.SpecFloat.
From Verif Require Import Base F64 Utf8 Syntax Parser Ext Json Registry Methods Core Evaluator Spec Spec_numbers Spec_dates Spec_stats Spec_eval Spec_http.
Import ListNotations.

(** [inside a e]: [a] is an immediate part of [e] *)
Inductive inside : expr -> expr -> Prop :=
| in_unary : forall op a, inside a (EUnary op a)
| in_left : forall a op b, inside a (EBinary a op b)
| in_right : forall a op b, inside b (EBinary a op b)
| in_property : forall a p, inside a (EPropertyAccess a p)
| in_safe_property : forall a p, inside a (ESafePropertyAccess a p)
| in_safe_target : forall a n args, inside a (ESafeMethodCall a n args)
| in_safe_argument : forall a n args x, In x args -> inside x (ESafeMethodCall a n args)
| in_argument : forall n args x, In x args -> inside x (EFunctionCall n args)
| in_spread : forall a, inside a (ESpread a)
| in_array : forall es x, In x es -> inside x (EArray es)
| in_object : forall kvs k x, In (k, x) kvs -> inside x (EObjectLiteral kvs)
| in_target : forall a n args p, inside a (EMethodCall a n args p)
| in_method_argument : forall a n args p x, In x args -> inside x (EMethodCall a n args p)
| in_indexed : forall a i, inside a (EIndex a i)
| in_index : forall a i, inside i (EIndex a i)
| in_sliced : forall a s t, inside a (ESlice a s t)
| in_start : forall a s t, inside s (ESlice a (Some s) t)
| in_stop : forall a s t, inside t (ESlice a s (Some t))
| in_cast : forall a ty, inside a (ETypeCast a ty)
| in_assigned : forall x a, inside a (EAssignment x a)
| in_sequence : forall es x, In x es -> inside x (ESequence es).
(** [part a e]: [a] is [e] or occurs in it at any depth *)
Inductive part : expr -> expr -> Prop :=
| part_self : forall e, part e e
| part_inside : forall a b e, part a b -> inside b e -> part a e.

(** two or more figures, one of them not a number *)
Definition unsortable (fs : list f64) : Prop := (2 <= length fs)%nat /\ In f_nan fs.
(** a position of -2^63 or less *)
Definition too_negative (n : f64) : Prop :=
  n = S754_infinity true \/ (finite n /\ (whole_part n <= - 2 ^ 63)%Z).

Section Crashes.
  Context {X : Ext}.

  (** adding [n] of the unit [u] to the time [t] leaves the calendar; the number
      of units is the whole part of [n] in 64 bits, and for months and years its
      lowest 32 bits *)
  Inductive leaves_calendar (t : Z) (n : f64) (u : str) : Prop :=
  | by_time : forall name len, In (name, len) fixed_units -> to_lowercase u = lit name ->
      ~ on_calendar (t + len * f_to_i64 n) -> leaves_calendar t n u
  | by_months : forall name mult k x s y m d, In (name, mult) month_units -> to_lowercase u = lit name ->
      (- 2 ^ 31 <= k < 2 ^ 31)%Z -> (k mod 2 ^ 32 = f_to_i64 n mod 2 ^ 32)%Z ->
      instant t x s -> months_later x (y, m, d) (mult * k) -> ~ year_in_range y -> leaves_calendar t n u.

  (** a built-in function called with these values crashes *)
  Inductive crashing_call : str -> list value -> Prop :=
  | sort_crashes : forall ns rest, unsortable ns -> crashing_call (lit "SORT") (VArray (map VNumber ns) :: rest)
  | median_crashes : forall vs fs, collects vs fs -> unsortable fs -> crashing_call (lit "MEDIAN") vs
  | percentile_crashes : forall name vs fs p, In name (percentile_names ++ quartile_names) -> vs <> [] ->
      collects vs fs -> unsortable fs -> crashing_call (lit name) (vs ++ [VNumber p])
  | date_crashes : forall t n u rest, on_calendar t -> leaves_calendar t n u ->
      crashing_call (lit "DATEADD") (VDateTime t :: VNumber n :: VString u :: rest).

  (** [e] has the value [v] for some variables, by one of the three evaluators
      (of whole expressions; of arguments of methods; of lambdas of methods,
      when functions are registered) *)
  Inductive may_give (e : expr) (v : value) : Prop :=
  | gives_whole : forall c, eval e c = Ok v -> may_give e v
  | gives_argument : forall c, ev e c = Ok v -> may_give e v
  | gives_lambda : forall reg vars, ev_custom reg e vars = Ok v -> may_give e v.
  (** the arguments written as [args] have the values [vs], spreads written out *)
  Inductive may_be_given : list expr -> list value -> Prop :=
  | given_none : may_be_given [] []
  | given_one : forall a v args vs, may_give a v -> may_be_given args vs -> may_be_given (a :: args) (v :: vs)
  | given_spread : forall a items args vs, may_give a (VArray items) -> may_be_given args vs -> may_be_given (ESpread a :: args) (items ++ vs).

  (** the expressions that crash by themselves, for some variables *)
  Inductive faulty (reg : registry) : expr -> Prop :=
  | faulty_position : forall a i n, may_give i (VNumber n) -> too_negative n -> faulty reg (EIndex a i)
  | faulty_call : forall name args vs, may_be_given args vs -> crashing_call name vs -> faulty reg (EFunctionCall name args)
  | faulty_function : forall name args vs f w, may_be_given args vs -> reg_get reg name = Some f -> cf_exec f vs = Panic w ->
      faulty reg (EFunctionCall name args)
  | faulty_sort : forall a name args p ns desc w, may_give a (VArray (map VNumber ns)) -> to_lowercase name = lit "sort" -> unsortable ns ->
      x_sort_nan desc ns = Panic w -> faulty reg (EMethodCall a name args p)
  | faulty_safe_sort : forall a name args ns desc w, may_give a (VArray (map VNumber ns)) -> to_lowercase name = lit "sort" -> unsortable ns ->
      x_sort_nan desc ns = Panic w -> faulty reg (ESafeMethodCall a name args).

  (** after white space the text starts with two '=' and not three *)
  Definition two_equals (s : str) : Prop :=
    exists ws rest, s = ws ++ lit "==" ++ rest /\ Forall (fun c => is_whitespace c = true) ws /\ hd 0%N rest <> 61%N.
  (** the text can crash: by how it starts, or by a part of what it means *)
  Definition can_crash (reg : registry) (input : str) : Prop :=
    two_equals input \/ exists e s, parse input = Ok e /\ part s e /\ faulty reg s.

  (** [e] crashes for no variables: it is not a position, not a call of a
      registered function or of one of the built-in functions that can crash,
      and not a call of the method [sort] *)
  Definition crashing_names : list string :=
    ["SORT"; "MEDIAN"; "DATEADD"]%string ++ percentile_names ++ quartile_names.
  Definition harmless (reg : registry) (e : expr) : Prop :=
    match e with
    | EIndex _ _ => False
    | EFunctionCall name _ => reg_get reg name = None /\ forall s, In s crashing_names -> name <> lit s
    | EMethodCall _ name _ _ | ESafeMethodCall _ name _ => to_lowercase name <> lit "sort"
    | _ => True
    end.
End Crashes.

(** every number of a JSON document satisfies [N], as a double *)
Inductive json_made (N : f64 -> Prop) : json -> Prop :=
| made_jnull : json_made N JNull
| made_jbool b : json_made N (JBool b)
| made_jnum n : N (f_of_jnum n) -> json_made N (JNum n)
| made_jstr s : json_made N (JStr s)
| made_jarr xs : Forall (json_made N) xs -> json_made N (JArr xs)
| made_jobj kvs : Forall (fun kv => json_made N (snd kv)) kvs -> json_made N (JObj kvs).

(** the functions of the platform that the evaluator calls give doubles when
    they are given doubles *)
Record platform_doubles (X : Ext) : Prop := mkPlatform {
  powers_double : forall x y, representable x -> representable y -> representable (x_powf x y);
  sines_double : forall x, representable x -> representable (x_sin x);
  cosines_double : forall x, representable x -> representable (x_cos x);
  tangents_double : forall x, representable x -> representable (x_tan x);
  queries_double : forall j p rs, x_jsonpath j p = inl rs -> json_made representable j -> Forall (json_made representable) rs;
  sorting_double : forall d l l', x_sort_nan d l = Ok l' -> Forall representable l -> Forall representable l'
}.
Definition functions_double {X : Ext} (reg : registry) : Prop :=
  forall name f vs v, reg_get reg name = Some f -> Forall doubles vs -> cf_exec f vs = Ok v -> doubles v.
Definition variables_double (vars : env) : Prop := forall k v, mget k vars = Some v -> doubles v.
