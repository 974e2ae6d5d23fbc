(** Vocabulary for requests to evaluate an expression over HTTP. *)
From Coq Require Import String List ZArith NArith Bool Permutation.
From Verif Require Import Base F64 F64Text Utf8 Syntax Ext Json Struct Lines Registry Dispatch Methods Core Evaluator Api Host HttpServer Spec Spec_syntax Spec_text Spec_json Spec_http Spec_command Spec_js.
Import ListNotations.
Local Open Scope N_scope.

(** ** What is asked for *)
(** the variables the answer is to have *)
Inductive included := everything | nothing | only (names : list str).
Record task := mkTask { t_expression : str; t_arguments : option (list (str * json)); t_structured : bool; t_included : included }.

(** [s] cut at every [c] *)
Definition pieces_at (c : N) (s : str) (ps : list str) : Prop := ps <> [] /\ s = join [c] ps /\ Forall (fun p => ~ In c p) ps.
(** names: white space around them and a colon in front do not count, empty ones are left out *)
Inductive names_in : list str -> list str -> Prop :=
| no_names : names_in [] []
| blank_name : forall p ps ns, trimmed p [] -> names_in ps ns -> names_in (p :: ps) ns
| colon_name : forall p n ps ns, trimmed p (58 :: n) -> names_in ps ns -> names_in (p :: ps) (n :: ns)
| plain_name : forall p c n ps ns, trimmed p (c :: n) -> c <> 58 -> names_in ps ns -> names_in (p :: ps) ((c :: n) :: ns).
Definition listed (s : str) (i : included) : Prop :=
  exists ps ns, pieces_at 44 s ps /\ names_in ps ns /\ i = match ns with [] => nothing | _ => only ns end.

(** ** By POST: a JSON object *)
(** the text after the first empty line *)
Definition body_of (text body : str) : Prop :=
  exists head, text = head ++ (crlf ++ crlf) ++ body /\ forall a b, text = a ++ (crlf ++ crlf) ++ b -> (length head <= length a)%nat.
(** a text, or texts to be joined *)
Inductive expression_json : json -> str -> Prop :=
| one_text : forall e, expression_json (JStr e) e
| many_texts : forall es, expression_json (JArr (map JStr es)) (concat es).
Definition absent (o : option json) : Prop := o = None \/ o = Some JNull.
Definition arguments_json (o : option json) (a : option (list (str * json))) : Prop :=
  absent o /\ a = None \/ exists kvs, o = Some (JObj kvs) /\ a = Some kvs.
Definition structured_json (o : option json) (b : bool) : Prop := absent o /\ b = false \/ o = Some (JBool b).
Definition included_json (o : option json) (i : included) : Prop :=
  absent o /\ i = nothing \/ o = Some (JBool true) /\ i = everything \/ o = Some (JBool false) /\ i = nothing \/ exists s, o = Some (JStr s) /\ listed s i.
(** the four fields, by name or in this order *)
Definition fields_of (j : json) (e a o i : option json) : Prop :=
  (exists kvs, j = JObj kvs /\ e = mget (lit "expression") kvs /\ a = mget (lit "arguments") kvs /\ o = mget (lit "output_json") kvs /\ i = mget (lit "include_variables") kvs)
  \/ exists je ja jo ji, j = JArr [je; ja; jo; ji] /\ e = Some je /\ a = Some ja /\ o = Some jo /\ i = Some ji.

(** ** By GET: a query *)
Inductive hex_digit : N -> N -> Prop :=
| decimal_digit : forall d, d < 10 -> hex_digit (48 + d) d
| small_digit : forall d, d < 6 -> hex_digit (97 + d) (10 + d)
| large_digit : forall d, d < 6 -> hex_digit (65 + d) (10 + d).
(** "%" and two hexadecimal digits are one byte, everything else is itself *)
Inductive unescaped : list N -> list N -> Prop :=
| nothing_escaped : unescaped [] []
| one_escaped : forall a b x y r bs, hex_digit a x -> hex_digit b y -> unescaped r bs -> unescaped (37 :: a :: b :: r) (x * 16 + y :: bs)
| one_plain : forall c r bs, (c = 37 -> forall a b r' x y, r = a :: b :: r' -> hex_digit a x -> hex_digit b y -> False) -> unescaped r bs -> unescaped (c :: r) (c :: bs).
(** what is not UTF-8 is read as nothing *)
Definition decoded (raw v : str) : Prop :=
  exists bs, unescaped (encode raw) bs /\ (valid_str v /\ encode v = bs \/ (forall u, valid_str u -> encode u <> bs) /\ v = []).
(** the parameters of a query; parts without "=" are left out *)
Inductive params_in : list str -> list (str * str) -> Prop :=
| no_params : params_in [] []
| no_param : forall p ps kvs, ~ In 61 p -> params_in ps kvs -> params_in (p :: ps) kvs
| a_param : forall k raw v ps kvs, ~ In 61 k -> decoded raw v -> params_in ps kvs -> params_in ((k ++ [61] ++ raw) :: ps) ((k, v) :: kvs).
Definition expression_keys : list str := [lit "expr"; lit "expression"].
Definition reserved : list str := expression_keys ++ [lit "output_json"; lit "include_variables"].
(** the value of the last parameter with one of these keys *)
Definition last_of (keys : list str) (kvs : list (str * str)) (v : str) : Prop :=
  exists before k after, kvs = before ++ (k, v) :: after /\ In k keys /\ Forall (fun kv => ~ In (fst kv) keys) after.
Inductive query_json : str -> json -> Prop :=
| query_number : forall s x, float_text s x -> is_finite x = true -> query_json s (JNum (JFlt x))
| query_infinite : forall s x, float_text s x -> is_finite x = false -> query_json s JNull
| query_true : query_json (lit "true") (JBool true)
| query_false : query_json (lit "false") (JBool false)
| query_text : forall s, (forall x, ~ float_text s x) -> s <> lit "true" -> s <> lit "false" -> query_json s (JStr s).
Definition query_arguments (kvs : list (str * str)) (a : option (list (str * json))) : Prop :=
  match a with
  | None => Forall (fun kv => In (fst kv) reserved) kvs
  | Some js => js <> [] /\ NoDup (map fst js) /\ forall k j, In (k, j) js <-> ~ In k reserved /\ exists v, last_value kvs k v /\ query_json v j
  end.
Definition query_included (kvs : list (str * str)) (i : included) : Prop :=
  ~ In (lit "include_variables") (map fst kvs) /\ i = nothing
  \/ exists v, last_value kvs (lit "include_variables") v /\ (v = lit "true" /\ i = everything \/ v = lit "false" /\ i = nothing \/ v <> lit "true" /\ v <> lit "false" /\ listed v i).

(** [wants text t]: the request asks for [t] *)
Inductive wants (text : str) (t : task) : Prop :=
| wants_post : forall q v more body j e a o i, first_words text (lit "POST" :: (lit "/eval" ++ q) :: v :: more) -> q = [] \/ hd 0 q = 63 ->
    body_of text body -> struct_parse eval_names body = Some j -> fields_of j (Some e) a o i -> expression_json e (t_expression t) -> arguments_json a (t_arguments t) ->
    structured_json o (t_structured t) -> included_json i (t_included t) -> wants text t
| wants_get : forall q v more ps kvs, first_words text (lit "GET" :: (lit "/eval" ++ 63 :: q) :: v :: more) -> pieces_at 38 q ps -> params_in ps kvs ->
    last_of expression_keys kvs (t_expression t) -> t_expression t <> [] -> query_arguments kvs (t_arguments t) ->
    (t_structured t = true <-> last_value kvs (lit "output_json") (lit "true")) -> query_included kvs (t_included t) -> wants text t.

(** the same is asked for; the order of arguments does not count *)
Definition alike (t t' : task) : Prop :=
  t_expression t = t_expression t' /\ t_structured t = t_structured t' /\ t_included t = t_included t'
  /\ match t_arguments t, t_arguments t' with None, None => True | Some a, Some b => Permutation a b | _, _ => False end.

(** *** What clients write *)
(** bytes in a query: visible characters other than "%" and "&" may stay as they are, any byte may be "%" and two hexadecimal digits *)
Inductive escaped : list N -> str -> Prop :=
| escaped_end : escaped [] []
| escaped_kept : forall c bs r, 33 <= c <= 126 -> c <> 37 -> c <> 38 -> escaped bs r -> escaped (c :: bs) (c :: r)
| escaped_byte : forall a b x y bs r, hex_digit a x -> hex_digit b y -> escaped bs r -> escaped (x * 16 + y :: bs) (37 :: a :: b :: r).
(** a parameter with its value in UTF-8 and escaped *)
Definition parameter (kv : str * str) (p : str) : Prop :=
  exists raw, p = fst kv ++ lit "=" ++ raw /\ ~ In 61 (fst kv) /\ ~ In 38 (fst kv) /\ valid_str (snd kv) /\ escaped (encode (snd kv)) raw.
(** the way forms are sent: spaces become "+" *)
Definition as_form (s : str) : str := map (fun c => if c =? 32 then 43 else c) s.

(** ** What is answered *)
(** values that compare as equal *)
Inductive equal_value : value -> value -> Prop :=
| equal_number : forall x y, number_relation BEq x y -> equal_value (VNumber x) (VNumber y)
| equal_currency : forall x y, number_relation BEq x y -> equal_value (VCurrency x) (VCurrency y)
| equal_text : forall s, equal_value (VString s) (VString s)
| equal_json : forall s, equal_value (VJson s) (VJson s)
| equal_truth : forall b, equal_value (VBoolean b) (VBoolean b)
| equal_time : forall t, equal_value (VDateTime t) (VDateTime t)
| equal_null : equal_value VNull VNull
| equal_array : forall xs ys, Forall2 equal_value xs ys -> equal_value (VArray xs) (VArray ys).
(** how a value is written as JSON *)
Inductive simple_as : value -> json -> Prop :=
| simple_number : forall x, is_finite x = true -> simple_as (VNumber x) (JNum (JFlt x))
| simple_infinite : forall x, is_finite x = false -> simple_as (VNumber x) JNull
| simple_currency : forall x, is_finite x = true -> simple_as (VCurrency x) (JNum (JFlt x))
| simple_infinite_currency : forall x, is_finite x = false -> simple_as (VCurrency x) JNull
| simple_text : forall s, simple_as (VString s) (JStr s)
| simple_truth : forall b, simple_as (VBoolean b) (JBool b)
| simple_null : simple_as VNull JNull
| simple_time : forall t s, integer_written t s -> simple_as (VDateTime t) (JStr s)
| simple_array : forall vs js, Forall2 simple_as vs js -> simple_as (VArray vs) (JArr js)
| simple_object : forall s j, json_parse s = Some j -> simple_as (VJson s) j
| simple_unread : forall s, json_parse s = None -> simple_as (VJson s) (JStr s).

Section Replies.
  Context {X : Ext} {H : Host}.
  (** the result alone, or with its type and the time it took; there a date is a number *)
  Definition result_as (t : task) (v : value) (j : json) : Prop :=
    if t_structured t
    then exists time r, j = JObj [(lit "execution_time", JStr (time ++ lit " ms")); (lit "result", r); (lit "type", JStr (lit (kind_name v)))]
         /\ ((forall d, v <> VDateTime d) /\ simple_as v r \/ exists d, v = VDateTime d /\ stored_as v r)
    else simple_as v j.
  (** the variables made of the arguments; of arguments that become the same name, any may be the last *)
  Definition variables_from (a : option (list (str * json))) (vars : env) : Prop :=
    match a with
    | None => forall k, mget k vars = None
    | Some kvs => exists kvs', Permutation kvs kvs' /\ object_bound (json_print (JObj kvs')) kvs' vars
    end.
  (** variable [k], with the value [x] after the evaluation, is to be in the answer *)
  Definition to_show (t : task) (vars : env) (k : str) (x : value) : Prop :=
    match t_included t with everything => True | nothing => False | only names => In k names end /\ forall x0, mget k vars = Some x0 -> ~ equal_value x0 x.
  (** the variables of the answer: those that are new or changed, if any; none with [unasked] *)
  Definition variables_entry (unasked : Prop) (t : task) (vars : env) (o : option json) : Prop :=
    match o with
    | None => unasked \/ ~ has_statements (t_expression t) \/ exists v ctx, evaluate_with_assignments_and_context (t_expression t) vars = Ok (v, ctx) /\ forall k x, mget k ctx = Some x -> ~ to_show t vars k x
    | Some j => exists kvs, j = JObj kvs /\ kvs <> [] /\ NoDup (map fst kvs) /\ has_statements (t_expression t) /\ exists v ctx, evaluate_with_assignments_and_context (t_expression t) vars = Ok (v, ctx)
        /\ forall k jx, In (k, jx) kvs <-> exists x, mget k ctx = Some x /\ to_show t vars k x /\ simple_as x jx
    end.
  (** the answers [t] may get when the functions are [reg] *)
  Inductive reply_to (unasked : Prop) (reg : registry) (t : task) (answer : str) : Prop :=
  | computed : forall vars v kvs j, variables_from (t_arguments t) vars -> gives reg (t_expression t) vars (Ok v) -> answers "200" answer kvs ->
      has_entry kvs "success" (JBool true) -> has_entry kvs "result" j -> result_as t v j -> has_entry kvs "error" JNull -> variables_entry unasked t vars (mget (lit "variables") kvs) ->
      reply_to unasked reg t answer
  | failed : forall vars e kvs, variables_from (t_arguments t) vars -> gives reg (t_expression t) vars (Err e) -> answers "400" answer kvs ->
      has_entry kvs "success" (JBool false) -> has_entry kvs "result" JNull -> has_entry kvs "error" (JStr (show_error e)) -> mget (lit "variables") kvs = None ->
      reply_to unasked reg t answer.
  (** some request asks for the same expression without its variables *)
  Definition asked_without (evs : list HttpThreads.event) (t : task) : Prop :=
    exists text t', In (HttpThreads.Arrive (inl text)) evs /\ wants text t' /\ t_expression t' = t_expression t /\ t_included t' = nothing.
End Replies.
