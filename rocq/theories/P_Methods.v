(** Property theorems about method calls ([value.name(arguments)] and [value.name?]). *)
From Coq Require Import String List ZArith NArith Bool QArith Qabs Sorting Permutation.
From Coq Require Import Floats.SpecFloat.
From Verif Require Import Base F64 Syntax Ext Json Registry Core Evaluator Api Spec_http Spec_registry Spec_syntax Spec_text Spec_json Spec_numbers Spec_stats Spec Spec_methods Method_proofs Method_array_proofs Method_value_proofs Method_object_proofs.
Import ListNotations.
Local Open Scope Z_scope.

(** * C67 Predicates *)
(** the method name is in any letter case; arguments are not looked at *)
Theorem C67_predicate : forall (X : Ext) c t v n name P args, In (name, P) predicates -> spelled name n -> eval t c = Ok v ->
  decides (eval (asks t n args) c) (P v).
Proof. exact @predicate_call. Qed.
Print Assumptions C67_predicate.
Theorem C67_even : forall (X : Ext) c t x n args, spelled "even" n -> eval t c = Ok (VNumber x) -> finite x -> - 2 ^ 63 <= whole_part x < 2 ^ 63 ->
  decides (eval (asks t n args) c) (Z.Even (whole_part x)).
Proof. exact @even_call. Qed.
Print Assumptions C67_even.
Theorem C67_odd : forall (X : Ext) c t x n args, spelled "odd" n -> eval t c = Ok (VNumber x) -> finite x -> - 2 ^ 63 <= whole_part x < 2 ^ 63 ->
  decides (eval (asks t n args) c) (Z.Odd (whole_part x)).
Proof. exact @odd_call. Qed.
Print Assumptions C67_odd.
Theorem C67_parity_of_others : forall (X : Ext) c t v n args, any_of ["even"; "odd"]%string n -> eval t c = Ok v -> (forall x, v <> VNumber x) ->
  eval (asks t n args) c = Ok (VBoolean false).
Proof. exact @parity_other. Qed.
Print Assumptions C67_parity_of_others.
Theorem C67_unknown : forall (X : Ext) c t v n args, ascii n -> ~ any_of predicate_names n -> eval t c = Ok v -> fails (eval (asks t n args) c).
Proof. exact @predicate_unknown. Qed.
Print Assumptions C67_unknown.
Example C67_nonvacuous :
  let X := example_ext in
  evaluate (lit "(0-3).negative?()") = Ok (VBoolean true) /\ evaluate (lit "'  '.BLANK?()") = Ok (VBoolean true) /\ evaluate (lit "[].present?()") = Ok (VBoolean false)
  /\ evaluate (lit "7.odd?()") = Ok (VBoolean true) /\ evaluate (lit "'7'.odd?()") = Ok (VBoolean false) /\ evaluate (lit "7.5.even?()") = Ok (VBoolean false)
  /\ evaluate (lit "null.nil?()") = Ok (VBoolean true) /\ fails (evaluate (lit "7.prime?()")).
Proof. vm_compute. repeat split; try reflexivity. eexists; reflexivity. Qed.
(** from 2^63 on every number counts as odd *)
Theorem C67_large_numbers_refuted :
  let X := example_ext in
  evaluate (lit "9223372036854775808.even?()") = Ok (VBoolean false) /\ evaluate (lit "9223372036854775808.odd?()") = Ok (VBoolean true)
  /\ evaluate (lit "9223372036854775808 % 2") = Ok (num 0).
Proof. vm_compute. repeat split. Qed.
(** amounts of money are neither positive nor negative nor zero *)
Theorem C67_currency_refuted :
  let X := example_ext in
  evaluate (lit "MAX(5::Currency, 0)") = Ok (num 5) /\ evaluate (lit "(5::Currency).positive?()") = Ok (VBoolean false).
Proof. vm_compute. repeat split. Qed.

(** * C68 Conversions *)
Theorem C68_to_s : forall (X : Ext) c t v n args, any_of ["to_s"; "to_string"]%string n -> eval t c = Ok v -> doubles v ->
  exists s, eval (method t n args) c = Ok (VString s) /\ shown v s.
Proof. exact @to_s_call. Qed.
Print Assumptions C68_to_s.
Theorem C68_to_f : forall (X : Ext) c t v x n args, any_of ["to_f"; "to_float"]%string n -> eval t c = Ok v -> number_of v x ->
  eval (method t n args) c = Ok (VNumber x).
Proof. exact @to_f_call. Qed.
Print Assumptions C68_to_f.
(** every value converts to a number *)
Theorem C68_number_exists : forall v, exists x, number_of v x.
Proof. exact number_exists. Qed.
Print Assumptions C68_number_exists.
Theorem C68_to_i : forall (X : Ext) c t v x n args, any_of ["to_i"; "to_int"]%string n -> eval t c = Ok v -> number_of v x -> representable x ->
  (forall xs, v = VArray xs -> Z.of_nat (length xs) <= 2 ^ 53) ->
  exists y, eval (method t n args) c = Ok (VNumber y)
    /\ (is_finite x = true -> is_exactly y (inject_Z (truncated (exact x)))) /\ (is_finite x = false -> y = x).
Proof. exact @to_i_call. Qed.
Print Assumptions C68_to_i.
Theorem C68_to_a : forall (X : Ext) c t v n args, any_of ["to_a"; "to_array"]%string n -> eval t c = Ok v ->
  eval (method t n args) c = Ok (VArray (elements v)).
Proof. exact @to_a_call. Qed.
Print Assumptions C68_to_a.
Theorem C68_to_bool : forall (X : Ext) c t v n args, any_of ["to_bool"; "to_boolean"]%string n -> eval t c = Ok v ->
  decides (eval (method t n args) c) (~ empty_value v).
Proof. exact @to_bool_call. Qed.
Print Assumptions C68_to_bool.
(** the JSON text reads back as the value *)
Theorem C68_to_json : forall (X : Ext) c t v n args, spelled "to_json" n -> eval t c = Ok v -> storable v -> (depth v <= 127)%nat -> v <> VNull ->
  exists s j, eval (method t n args) c = Ok (VJson s) /\ json_parse s = Some j /\ Spec_json.stands_for j v.
Proof. exact @to_json_call. Qed.
Print Assumptions C68_to_json.
Theorem C68_to_json_infinite : forall (X : Ext) c t x n args, spelled "to_json" n -> eval t c = Ok (VNumber x) -> is_finite x = false ->
  fails (eval (method t n args) c).
Proof. exact @to_json_infinite. Qed.
Print Assumptions C68_to_json_infinite.
Example C68_nonvacuous :
  let X := example_ext in
  evaluate (lit "[1, 2.5, 'a', [TRUE]].to_s()") = Ok (VString (lit "[1, 2.5, a, [true]]")) /\ evaluate (lit "' 4.5 '.TO_I()") = Ok (num 4) /\ evaluate (lit "'x'.to_f()") = Ok (num 0)
  /\ evaluate (lit "(2.675::Currency).to_s()") = Ok (VString (lit "2.67")) /\ evaluate (lit "'ab'.to_a()") = Ok (VArray [VString (lit "a"); VString (lit "b")])
  /\ evaluate (lit "'no'.to_bool()") = Ok (VBoolean true) /\ evaluate (lit "[].to_bool()") = Ok (VBoolean false)
  /\ evaluate (lit "[1, 'a'].to_json()") = Ok (VJson (lit "[1.0,""a""]")).
Proof. vm_compute. repeat split. Qed.
(** null converts to an empty object, not to null *)
Theorem C68_null_to_json_refuted : forall (X : Ext) c t n args, spelled "to_json" n -> eval t c = Ok VNull ->
  eval (method t n args) c = Ok (VJson (lit "{}")).
Proof. exact @to_json_null. Qed.
Print Assumptions C68_null_to_json_refuted.

(** * C69 Text methods *)
(** the length is the size in UTF-8 *)
Theorem C69_length : forall (X : Ext) c t s n args, any_of ["length"; "len"]%string n -> eval t c = Ok (VString s) ->
  eval (method t n args) c = Ok (num (utf8_length s)).
Proof. exact @text_length. Qed.
Print Assumptions C69_length.
Theorem C69_letter_case : forall (X : Ext) c t s n args (up : bool), any_of (if up then ["upper"; "upcase"] else ["lower"; "downcase"])%string n ->
  eval t c = Ok (VString s) -> ascii s -> eval (method t n args) c = Ok (VString (map (if up then upper_ascii else lower_ascii) s)).
Proof. exact @text_case. Qed.
Print Assumptions C69_letter_case.
(** these methods do what the functions do, whatever the text *)
Theorem C69_same_as_functions : forall (X : Ext) c t s n f,
  In (f, n) [("UPPER", "upper"); ("UPPER", "upcase"); ("LOWER", "lower"); ("LOWER", "downcase"); ("TRIM", "trim")]%string ->
  uncustomised c f -> eval t c = Ok (VString s) -> eval (method t (lit n) []) c = eval (call f [t]) c.
Proof. exact @text_case_call. Qed.
Print Assumptions C69_same_as_functions.
Theorem C69_trim : forall (X : Ext) c t s n args, spelled "trim" n -> eval t c = Ok (VString s) ->
  exists core, eval (method t n args) c = Ok (VString core) /\ trimmed s core.
Proof. exact @text_trim. Qed.
Print Assumptions C69_trim.
Theorem C69_reverse : forall (X : Ext) c t s n args, spelled "reverse" n -> eval t c = Ok (VString s) -> eval (method t n args) c = Ok (VString (rev s)).
Proof. exact @text_reverse. Qed.
Print Assumptions C69_reverse.
Theorem C69_contains : forall (X : Ext) c t s n a p more, any_of ["includes"; "contains"]%string n -> eval t c = Ok (VString s) -> argument c a (VString p) ->
  decides (eval (method t n (a :: more)) c) (occurs p s).
Proof. exact @text_contains. Qed.
Print Assumptions C69_contains.
Theorem C69_starts_with : forall (X : Ext) c t s n a p more, any_of ["startswith"; "starts_with"]%string n -> eval t c = Ok (VString s) -> argument c a (VString p) ->
  decides (eval (method t n (a :: more)) c) (exists r, s = (p ++ r)%list).
Proof. exact @text_starts. Qed.
Print Assumptions C69_starts_with.
Theorem C69_ends_with : forall (X : Ext) c t s n a p more, any_of ["endswith"; "ends_with"]%string n -> eval t c = Ok (VString s) -> argument c a (VString p) ->
  decides (eval (method t n (a :: more)) c) (exists r, s = (r ++ p)%list).
Proof. exact @text_ends. Qed.
Print Assumptions C69_ends_with.
Theorem C69_split : forall (X : Ext) c t s n a p more, spelled "split" n -> eval t c = Ok (VString s) -> argument c a (VString p) -> p <> [] ->
  exists parts, eval (method t n (a :: more)) c = Ok (VArray (map VString parts)) /\ cut_at p s parts.
Proof. exact @text_split. Qed.
Print Assumptions C69_split.
(** an empty separator gives the characters, and an empty text at either end *)
Theorem C69_split_characters : forall (X : Ext) c t s n a more, spelled "split" n -> eval t c = Ok (VString s) -> argument c a (VString []) ->
  eval (method t n (a :: more)) c = Ok (VArray (VString [] :: map (fun ch => VString [ch]) s ++ [VString []])).
Proof. exact @text_split_characters. Qed.
Print Assumptions C69_split_characters.
Theorem C69_replace : forall (X : Ext) c t s n a b old new more, spelled "replace" n -> eval t c = Ok (VString s) ->
  argument c a (VString old) -> argument c b (VString new) -> old <> [] ->
  exists out, eval (method t n (a :: b :: more)) c = Ok (VString out) /\ substituted old new s out.
Proof. exact @text_replace. Qed.
Print Assumptions C69_replace.
(** positions count from 0, in characters; a negative number or NaN counts as 0 *)
Theorem C69_substring_from : forall (X : Ext) c t s n a x, any_of ["substring"; "substr"]%string n -> eval t c = Ok (VString s) -> fits s ->
  argument c a (VNumber x) -> x <> f_inf -> eval (method t n [a]) c = Ok (VString (after_chars (whole x) s)).
Proof. exact @text_substring_from. Qed.
Print Assumptions C69_substring_from.
Theorem C69_substring : forall (X : Ext) c t s n a b x y more, any_of ["substring"; "substr"]%string n -> eval t c = Ok (VString s) -> fits s ->
  argument c a (VNumber x) -> argument c b (VNumber y) -> x <> f_inf -> y <> f_inf ->
  eval (method t n (a :: b :: more)) c = Ok (VString (first_chars (whole y) (after_chars (whole x) s))).
Proof. exact @text_substring. Qed.
Print Assumptions C69_substring.
Example C69_nonvacuous :
  let X := example_ext in
  evaluate (lit "'Abc'.UPCASE()") = Ok (VString (lit "ABC")) /\ evaluate (lit "' a b '.trim().length()") = Ok (num 3) /\ evaluate (lit "'hello'.contains('ell')") = Ok (VBoolean true)
  /\ evaluate (lit "'hello'.starts_with('lo')") = Ok (VBoolean false) /\ evaluate (lit "'hello'.endsWith('lo')") = Ok (VBoolean true)
  /\ evaluate (lit "'a,b,,c'.split(',').length()") = Ok (num 4) /\ evaluate (lit "'aXbX'.replace('X', 'yz')") = Ok (VString (lit "ayzbyz"))
  /\ evaluate (lit "'hello'.substring(1, 3)") = Ok (VString (lit "ell")) /\ evaluate (lit "'hello'.substr(9)") = Ok (VString []).
Proof. vm_compute. repeat split. Qed.
(** LENGTH counts characters instead *)
Theorem C69_length_differs_refuted :
  let X := example_ext in
  let s := [233; 116; 233]%N in
  eval (method (EStringLit s) (lit "length") []) empty_ctx = Ok (num 5) /\ eval (call "LENGTH" [EStringLit s]) empty_ctx = Ok (num 3).
Proof. vm_compute. repeat split. Qed.

(** * C70 Array methods *)
Theorem C70_length : forall (X : Ext) c t xs n args, any_of ["length"; "len"; "count"]%string n -> eval t c = Ok (VArray xs) ->
  eval (method t n args) c = Ok (num (Z.of_nat (length xs))).
Proof. exact @array_length. Qed.
Print Assumptions C70_length.
(** null when there is none *)
Theorem C70_first : forall (X : Ext) c t xs n args, spelled "first" n -> eval t c = Ok (VArray xs) -> eval (method t n args) c = Ok (hd VNull xs).
Proof. exact @array_first. Qed.
Print Assumptions C70_first.
Theorem C70_last : forall (X : Ext) c t xs n args, spelled "last" n -> eval t c = Ok (VArray xs) -> eval (method t n args) c = Ok (last xs VNull).
Proof. exact @array_last. Qed.
Print Assumptions C70_last.
Theorem C70_reverse : forall (X : Ext) c t xs n args, spelled "reverse" n -> eval t c = Ok (VArray xs) -> eval (method t n args) c = Ok (VArray (rev xs)).
Proof. exact @array_reverse. Qed.
Print Assumptions C70_reverse.
(** unlike UNIQUE, the method keeps values of every kind *)
Theorem C70_unique : forall (X : Ext) c t xs n args, spelled "unique" n -> eval t c = Ok (VArray xs) -> Forall doubles xs ->
  exists out, eval (method t n args) c = Ok (VArray out) /\ firsts xs out.
Proof. exact @array_unique. Qed.
Print Assumptions C70_unique.
Theorem C70_sort : forall (X : Ext) c t ns n, spelled "sort" n -> eval t c = Ok (VArray (map VNumber ns)) -> Forall not_nan ns ->
  exists out, eval (method t n []) c = Ok (VArray (map VNumber out)) /\ Permutation ns out /\ StronglySorted f_le out
    /\ (forall x, filter (f_eqb x) out = filter (f_eqb x) ns).
Proof. exact @array_sort. Qed.
Print Assumptions C70_sort.
(** equal numbers keep their order in both directions *)
Theorem C70_sort_order : forall (X : Ext) c t ns n a s more, spelled "sort" n -> eval t c = Ok (VArray (map VNumber ns)) -> Forall not_nan ns ->
  argument c a (VString s) -> ascii s ->
  exists out, eval (method t n (a :: more)) c = Ok (VArray (map VNumber out)) /\ Permutation ns out /\ (forall x, filter (f_eqb x) out = filter (f_eqb x) ns)
    /\ (says_desc s -> StronglySorted (fun x y => f_le y x) out) /\ (~ says_desc s -> StronglySorted f_le out).
Proof. exact @array_sort_order. Qed.
Print Assumptions C70_sort_order.
Theorem C70_sort_rejects : forall (X : Ext) c t xs n v, spelled "sort" n -> eval t c = Ok (VArray xs) -> In v xs -> (forall x, v <> VNumber x) ->
  fails (eval (method t n []) c).
Proof. exact @array_sort_rejects. Qed.
Print Assumptions C70_sort_rejects.
Theorem C70_sum : forall (X : Ext) c t xs fs n args, spelled "sum" n -> eval t c = Ok (VArray xs) -> all_figures xs fs ->
  eval (method t n args) c = Ok (VNumber (total fs)).
Proof. exact @array_sum. Qed.
Print Assumptions C70_sum.
Theorem C70_average : forall (X : Ext) c t xs fs n args, any_of ["avg"; "average"]%string n -> eval t c = Ok (VArray xs) -> all_figures xs fs ->
  eval (method t n args) c = Ok (VNumber (mean fs)).
Proof. exact @array_avg. Qed.
Print Assumptions C70_average.
Theorem C70_min : forall (X : Ext) c t xs fs n args, spelled "min" n -> eval t c = Ok (VArray xs) -> all_figures xs fs -> fs <> [] ->
  exists m, eval (method t n args) c = Ok (VNumber m) /\ extreme f_le fs m.
Proof. exact @array_min. Qed.
Print Assumptions C70_min.
Theorem C70_max : forall (X : Ext) c t xs fs n args, spelled "max" n -> eval t c = Ok (VArray xs) -> all_figures xs fs -> fs <> [] ->
  exists m, eval (method t n args) c = Ok (VNumber m) /\ extreme (fun x y => f_le y x) fs m.
Proof. exact @array_max. Qed.
Print Assumptions C70_max.
Theorem C70_extreme_of_nothing : forall (X : Ext) c t n args, any_of ["min"; "max"]%string n -> eval t c = Ok (VArray []) -> eval (method t n args) c = Ok VNull.
Proof. exact @array_min_empty. Qed.
Print Assumptions C70_extreme_of_nothing.
Theorem C70_figures_only : forall (X : Ext) c t xs n args v, any_of ["sum"; "avg"; "average"; "min"; "max"]%string n -> eval t c = Ok (VArray xs) ->
  In v xs -> (forall x, v <> VNumber x /\ v <> VCurrency x) -> fails (eval (method t n args) c).
Proof. exact @array_figures_only. Qed.
Print Assumptions C70_figures_only.
(** without an argument the separator is a comma *)
Theorem C70_join : forall (X : Ext) c t xs n args sep, spelled "join" n -> eval t c = Ok (VArray xs) -> Forall doubles xs ->
  Forall (fun v => (exists s, v = VString s) \/ (exists x, v = VNumber x) \/ exists b, v = VBoolean b) xs ->
  (args = [] /\ sep = lit "," \/ exists a more, args = a :: more /\ argument c a (VString sep)) ->
  exists ss s, eval (method t n args) c = Ok (VString s) /\ Forall2 join_writes xs ss /\ joined sep ss s.
Proof. exact @array_join. Qed.
Print Assumptions C70_join.
Theorem C70_contains : forall (X : Ext) c t xs n a v more, any_of ["contains"; "includes"]%string n -> eval t c = Ok (VArray xs) -> argument c a v ->
  decides (eval (method t n (a :: more)) c) (exists x, In x xs /\ same x v).
Proof. exact @array_contains. Qed.
Print Assumptions C70_contains.
Theorem C70_flatten : forall (X : Ext) c t xs n args, spelled "flatten" n -> eval t c = Ok (VArray xs) ->
  exists ls, eval (method t n args) c = Ok (VArray ls) /\ leaves_of (VArray xs) ls.
Proof. exact @array_flatten. Qed.
Print Assumptions C70_flatten.
Theorem C70_compact : forall (X : Ext) c t xs n args, spelled "compact" n -> eval t c = Ok (VArray xs) ->
  exists out, eval (method t n args) c = Ok (VArray out) /\ without_nulls xs out.
Proof. exact @array_compact. Qed.
Print Assumptions C70_compact.
Example C70_nonvacuous :
  let X := example_ext in
  evaluate (lit "[1, 'a', 1, [2], [2], null, null].unique()") = Ok (VArray [num 1; VString (lit "a"); VArray [num 2]; VNull])
  /\ evaluate (lit "[2, 3, 1].sort('Desc')") = Ok (VArray [num 3; num 2; num 1]) /\ evaluate (lit "[1, 2, 3].avg()") = Ok (num 2) /\ evaluate (lit "[2, 0-5].min()") = Ok (num (-5))
  /\ evaluate (lit "[1, 'a', TRUE].join('-')") = Ok (VString (lit "1-a-true")) /\ evaluate (lit "[1, [2, [3]]].flatten().last()") = Ok (num 3)
  /\ evaluate (lit "[null, 1, null].compact()") = Ok (VArray [num 1]) /\ evaluate (lit "[].first()") = Ok VNull /\ evaluate (lit "[1, [2]].contains([2])") = Ok (VBoolean true).
Proof. vm_compute. repeat split. Qed.
(** FIRST of an empty array is an error *)
Theorem C70_first_differs_refuted :
  let X := example_ext in evaluate (lit "[].first()") = Ok VNull /\ fails (evaluate (lit "FIRST([])")).
Proof. vm_compute. split; [reflexivity|]. eexists; reflexivity. Qed.

(** * C71 Number methods *)
Theorem C71_whole : forall (X : Ext) c t x n args name f, In (name, f) whole_methods -> spelled name n -> (name = "round"%string -> args = []) ->
  eval t c = Ok (VNumber x) -> representable x -> is_finite x = true ->
  exists y, eval (method t n args) c = Ok (VNumber y) /\ is_exactly y (inject_Z (f (exact x))).
Proof. exact @number_whole. Qed.
Print Assumptions C71_whole.
Theorem C71_not_finite : forall (X : Ext) c t x n args name, In name ["floor"; "ceil"; "ceiling"; "int"]%string -> spelled name n ->
  eval t c = Ok (VNumber x) -> is_finite x = false -> eval (method t n args) c = Ok (VNumber x).
Proof. exact @number_not_finite. Qed.
Print Assumptions C71_not_finite.
Theorem C71_abs : forall (X : Ext) c t x n args, spelled "abs" n -> eval t c = Ok (VNumber x) -> representable x -> is_finite x = true ->
  exists y, eval (method t n args) c = Ok (VNumber y) /\ is_exactly y (Qabs (exact x)).
Proof. exact @number_abs. Qed.
Print Assumptions C71_abs.
Theorem C71_sqrt : forall (X : Ext) c t x n args, spelled "sqrt" n -> eval t c = Ok (VNumber x) -> representable x -> is_finite x = true ->
  ((exact x < 0)%Q -> fails (eval (method t n args) c)) /\
  ((0 < exact x)%Q -> exists r, eval (method t n args) c = Ok (VNumber r) /\ nearest_root r (exact x)) /\
  ((exact x == 0)%Q -> eval (method t n args) c = Ok (VNumber x)).
Proof. exact @number_sqrt. Qed.
Print Assumptions C71_sqrt.
Theorem C71_between : forall (X : Ext) c t x n a b va vb lo hi, spelled "between" n -> eval t c = Ok (VNumber x) -> argument c a va -> argument c b vb ->
  va = VNumber lo \/ va = VCurrency lo -> vb = VNumber hi \/ vb = VCurrency hi ->
  decides (eval (method t n [a; b]) c) (number_relation BLe lo x /\ number_relation BLe x hi).
Proof. exact @number_between. Qed.
Print Assumptions C71_between.
Theorem C71_between_arguments : forall (X : Ext) c t x n args, spelled "between" n -> eval t c = Ok (VNumber x) -> length args <> 2%nat ->
  fails (eval (method t n args) c).
Proof. exact @number_between_arguments. Qed.
Print Assumptions C71_between_arguments.
Example C71_nonvacuous :
  let X := example_ext in
  evaluate (lit "(0-2.5).floor()") = Ok (num (-3)) /\ evaluate (lit "2.1.ceil()") = Ok (num 3) /\ evaluate (lit "2.5.round()") = Ok (num 3) /\ evaluate (lit "(0-2.5).round()") = Ok (num (-3))
  /\ evaluate (lit "9.sqrt()") = Ok (num 3) /\ fails (evaluate (lit "(0-9).sqrt()")) /\ evaluate (lit "5.between(1, 5)") = Ok (VBoolean true).
Proof. vm_compute. repeat split; try reflexivity. eexists; reflexivity. Qed.
(** [int] truncates where INT rounds down; [round] takes negative precisions
    where ROUND takes them for 0; [sqrt] of a negative number is an error where
    SQRT gives NaN *)
Theorem C71_functions_differ_refuted :
  let X := example_ext in
  evaluate (lit "(0-2.5).int()") = Ok (num (-2)) /\ evaluate (lit "INT(0-2.5)") = Ok (num (-3))
  /\ evaluate (lit "1234.round(0-2)") = Ok (num 1200) /\ evaluate (lit "ROUND(1234, 0-2)") = Ok (num 1234)
  /\ fails (evaluate (lit "(0-1).sqrt()")) /\ evaluate (lit "SQRT(0-1)") = Ok (VNumber f_nan).
Proof. vm_compute. repeat split; try reflexivity. eexists; reflexivity. Qed.

(** * C72 Methods of JSON objects *)
Theorem C72_keys : forall (X : Ext) c t s kvs n args, spelled "keys" n -> eval t c = Ok (VJson s) -> json_parse s = Some (JObj kvs) ->
  eval (method t n args) c = Ok (VArray (map (fun kv => VString (fst kv)) kvs)) /\ in_key_order (map fst kvs).
Proof. exact @object_keys. Qed.
Print Assumptions C72_keys.
Theorem C72_values : forall (X : Ext) c t s kvs n args, spelled "values" n -> eval t c = Ok (VJson s) -> json_parse s = Some (JObj kvs) ->
  exists vs, eval (method t n args) c = Ok (VArray vs) /\ Forall2 Spec_json.stands_for (map snd kvs) vs.
Proof. exact @object_values. Qed.
Print Assumptions C72_values.
Theorem C72_has_key : forall (X : Ext) c t s j n a k more, any_of ["has_key"; "has"]%string n -> eval t c = Ok (VJson s) -> json_parse s = Some j ->
  argument c a (VString k) -> decides (eval (method t n (a :: more)) c) (exists kvs v, j = JObj kvs /\ In (k, v) kvs).
Proof. exact @object_has. Qed.
Print Assumptions C72_has_key.
Theorem C72_dig : forall (X : Ext) c t s j path j' v n a more, spelled "dig" n -> eval t c = Ok (VJson s) -> json_parse s = Some j ->
  argument c a (VArray path) -> (more = [] \/ exists b w r, more = b :: r /\ argument c b w) ->
  Forall good_segment path -> path_to j path j' -> Spec_json.stands_for j' v -> eval (method t n (a :: more)) c = Ok v.
Proof. exact @object_dig_found. Qed.
Print Assumptions C72_dig.
Theorem C72_dig_missing : forall (X : Ext) c t s j path n a more d, spelled "dig" n -> eval t c = Ok (VJson s) -> json_parse s = Some j ->
  argument c a (VArray path) -> (more = [] /\ d = VNull \/ exists b r, more = b :: r /\ argument c b d) ->
  Forall good_segment path -> (forall j', ~ path_to j path j') -> eval (method t n (a :: more)) c = Ok d.
Proof. exact @object_dig_missing. Qed.
Print Assumptions C72_dig_missing.
Theorem C72_objects_only : forall (X : Ext) c t s j n args, any_of ["keys"; "values"]%string n -> eval t c = Ok (VJson s) -> json_parse s = Some j ->
  (forall kvs, j <> JObj kvs) -> fails (eval (method t n args) c).
Proof. exact @object_only. Qed.
Print Assumptions C72_objects_only.
Example C72_nonvacuous :
  let X := example_ext in
  evaluate (lit "{b: 1, a: [2, 'x']}.keys()") = Ok (VArray [VString (lit "a"); VString (lit "b")])
  /\ evaluate (lit "{b: 1, a: [2, 'x']}.values()") = Ok (VArray [VArray [num 2; VString (lit "x")]; num 1])
  /\ evaluate (lit "{b: 1}.has_key('b')") = Ok (VBoolean true) /\ evaluate (lit "{b: 1}.has('c')") = Ok (VBoolean false)
  /\ evaluate (lit "{a: [2, 'x']}.dig(['a', 1])") = Ok (VString (lit "x")) /\ evaluate (lit "{a: [2, 'x']}.dig(['a', 7], 'none')") = Ok (VString (lit "none")).
Proof. vm_compute. repeat split. Qed.

(** * C73 Which methods a value has *)
Theorem C73_unknown : forall (X : Ext) c t v n args, ascii n -> ~ any_of (methods_of v) n -> eval t c = Ok v -> fails (eval (method t n args) c).
Proof. exact @method_unknown. Qed.
Print Assumptions C73_unknown.
Theorem C73_missing_arguments : forall (X : Ext) c t v n args name k, In (name, k) needs_arguments -> spelled name n -> eval t c = Ok v ->
  (length args < k v)%nat -> fails (eval (method t n args) c).
Proof. exact @argument_needed. Qed.
Print Assumptions C73_missing_arguments.
Example C73_nonvacuous :
  let X := example_ext in
  ascii (lit "first") /\ ~ any_of (methods_of (VString (lit "a"))) (lit "first") /\ fails (evaluate (lit "'a'.first()")) /\ fails (evaluate (lit "null.length()"))
  /\ fails (evaluate (lit "'a'.split()")) /\ fails (evaluate (lit "'a'.replace('b')")).
Proof.
  vm_compute. split; [repeat constructor|]. split; [|repeat split; eexists; reflexivity].
  intros (name & I & E). repeat (destruct I as [<-|I]; [discriminate E|]). contradiction.
Qed.
(** custom functions are not seen in the arguments of methods other than filter, map, find and reduce *)
Theorem C73_custom_functions_refuted :
  let X := example_ext in
  let f := mkFn (lit "comma") 0 (Some 0%N) (fun vs => Ok (VString (lit ","))) in
  let r := after [Register f] in
  evaluate_with_custom r (lit "SPLIT('a,b', COMMA())") [] = Ok (VArray [VString (lit "a"); VString (lit "b")])
  /\ fails (evaluate_with_custom r (lit "'a,b'.split(COMMA())") []).
Proof. vm_compute. split; [reflexivity|]. eexists; reflexivity. Qed.
