(** Vocabulary for the commands. *)
From Coq Require Import String List ZArith NArith Bool.
From Verif Require Import Base F64 F64Text Syntax Ext Json Registry Core Methods Api Lines Host HttpServer Pretty Command Spec Spec_syntax Spec_text Spec_json Spec_http.
Import ListNotations.
Local Open Scope N_scope.

(** ** The command line of [sk], after the expression *)
Inductive part := UseJson (text : str) | AsJson | Bind (name text : str).
Definition words (p : part) : list str :=
  match p with UseJson text => [lit "--json"; text] | AsJson => [lit "--output-json"] | Bind name text => [name ++ lit "=" ++ text] end.
(** the first "=" ends the name *)
Definition proper (p : part) : Prop := match p with Bind name _ => ~ In 61 name | _ => True end.
Definition command_line (ps : list part) (args : list str) : Prop := Forall proper ps /\ args = concat (map words ps).

(** ** The value of the text after "=" *)
Definition in_quotes (s inner : str) : Prop := s = lit """" ++ inner ++ lit """" \/ s = lit "'" ++ inner ++ lit "'".
Definition lone_quote (s : str) : Prop := s = lit """" \/ s = lit "'".
Definition in_brackets (s inner : str) : Prop := s = lit "[" ++ inner ++ lit "]".
Inductive argument_value : str -> value -> Prop :=
| quoted_argument : forall s inner, in_quotes s inner -> argument_value s (VString inner)
| true_argument : forall s, same_word s (lit "true") -> argument_value s (VBoolean true)
| false_argument : forall s, same_word s (lit "false") -> argument_value s (VBoolean false)
| null_argument : forall s, same_word s (lit "null") -> argument_value s VNull
| empty_argument : forall s inner, in_brackets s inner -> white inner -> argument_value s (VArray [])
| array_argument : forall s inner items cores vs, in_brackets s inner -> ~ white inner ->
    (* the items between the commas, without the white space around them *)
    inner = join (lit ",") items -> Forall (fun item => ~ In 44 item) items -> Forall2 trimmed items cores ->
    Forall2 argument_value cores vs -> argument_value s (VArray vs)
| number_argument : forall s x, float_text s x -> argument_value s (VNumber x)
| text_argument : forall s, ~ lone_quote s -> (forall inner, ~ in_quotes s inner) -> (forall w, In w ["true"; "false"; "null"]%string -> ~ same_word s (lit w)) ->
    (forall inner, ~ in_brackets s inner) -> (forall x, ~ float_text s x) -> argument_value s (VString s).

Section Commands.
  Context {X : Ext} {H : Host}.
  (** ** What is asked for *)
  (** the JSON text given last, if any *)
  Definition json_given (ps : list part) : option str :=
    fold_left (fun o p => match p with UseJson text => Some text | _ => o end) ps None.
  (** is the result wanted as JSON? *)
  Definition as_json (ps : list part) : Prop := In AsJson ps.
  (** the variables: each name has the value of its last text *)
  Definition bindings (ps : list part) : list (str * str) := flat_map (fun p => match p with Bind name text => [(name, text)] | _ => [] end) ps.
  Definition bound (ps : list part) (vars : env) : Prop :=
    Forall (fun b => exists v, argument_value (snd b) v) (bindings ps) /\
    forall name v, mget name vars = Some v <-> exists text, last_value (bindings ps) name text /\ argument_value text v.

  (** ** What the command does with a result *)
  (** how an element of an array is written: an array within an array becomes text *)
  Inductive element_as : value -> json -> Prop :=
  | plain_element : forall v j, (forall xs, v <> VArray xs) -> stored_as v j -> element_as v j
  | nested_element : forall xs, element_as (VArray xs) (JStr (value_debug (VArray xs)))
  | unread_element : forall s, json_parse s = None -> element_as (VJson s) (JStr s).
  Inductive result_as : value -> json -> Prop :=
  | plain_result : forall v j, (forall xs, v <> VArray xs) -> element_as v j -> result_as v j
  | array_result : forall xs js, Forall2 element_as xs js -> result_as (VArray xs) (JArr js).
  Definition kind_name (v : value) : string :=
    match v with
    | VNumber _ => "Number" | VArray _ => "Array" | VBoolean _ => "Boolean" | VString _ => "String"
    | VNull => "Null" | VCurrency _ => "Currency" | VDateTime _ => "DateTime" | VJson _ => "Json"
    end.
  (** the JSON description of a result: its time, the result, its type *)
  Definition described (v : value) (d : json) : Prop :=
    exists time j, result_as v j /\ d = JObj [(lit "execution_time", JStr (time ++ lit " ms")); (lit "result", j); (lit "type", JStr (lit (kind_name v)))].
  (** what the command leaves behind for a result; with [described], some layout of a description *)
  Definition leaves (ps : list part) (r : res value) (o : outcome) : Prop :=
    match r with
    | Ok v => exists out, o = Exited 0 (out ++ [10]) [] /\ (~ as_json ps -> out = value_debug v) /\ (as_json ps -> exists d, described v d /\ json_text d out)
    | Err e => o = Exited 2 [] (lit "Error: " ++ show_error e ++ [10])
    | Panic _ => o = Crashed
    end.
  (** the variables made of a JSON object for an expression with statements *)
  Definition object_bound (text : str) (kvs : list (str * json)) (vars : env) : Prop :=
    (forall name before k j after v, kvs = before ++ (k, j) :: after -> sanitised k name -> (forall k', In k' (map fst after) -> ~ sanitised k' name) -> Spec_json.stands_for j v -> mget name vars = Some v)
    /\ (forall name, (forall k, In k (map fst kvs) -> ~ sanitised k name) -> name <> lit "arguments" -> mget name vars = None)
    /\ ((forall k, In k (map fst kvs) -> ~ sanitised k (lit "arguments")) -> mget (lit "arguments") vars = Some (VJson text)).
End Commands.
