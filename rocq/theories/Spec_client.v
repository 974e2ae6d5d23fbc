(** Vocabulary for the client of the server of JSON lines. *)
From Coq Require Import String List ZArith NArith Bool.
From Verif Require Import Base F64 F64Text Syntax Utf8 Ext Json Registry Core Methods Api Lines Host HttpServer Pretty Command LineServer Client Spec Spec_syntax Spec_text Spec_json Spec_http Spec_command Spec_lines.
Import ListNotations.
Local Open Scope N_scope.

(** ** The command line of [sk_client], after the address and the expression *)
Inductive client_part := SendJson (text : str) | WantJson | SendToken (token : str) | Send (name text : str).
Definition client_words (p : client_part) : list str :=
  match p with SendJson text => [lit "--json"; text] | WantJson => [lit "--output-json"] | SendToken t => [lit "--token"; t] | Send name text => [name ++ lit "=" ++ text] end.
Definition client_proper (p : client_part) : Prop := match p with Send name _ => ~ In 61 name | _ => True end.
Definition client_line (ps : list client_part) (args : list str) : Prop := Forall client_proper ps /\ args = concat (map client_words ps).

Section ClientSpec.
  Context {X : Ext} {H : Host}.
  (** the JSON value of the text after "=" *)
  Inductive argument_json : str -> json -> Prop :=
  | quoted_json : forall s inner, in_quotes s inner -> argument_json s (JStr inner)
  | true_json : argument_json (lit "true") (JBool true)
  | false_json : argument_json (lit "false") (JBool false)
  | null_json : argument_json (lit "null") JNull
  | array_json : forall s inner j, in_brackets s inner -> json_parse s = Some j -> argument_json s j
  | bad_array_json : forall s inner, in_brackets s inner -> json_parse s = None -> argument_json s (JStr s)
  | number_json : forall s x, float_text s x -> is_finite x = true -> argument_json s (JNum (JFlt x))
  | infinite_json : forall s x, float_text s x -> is_finite x = false -> argument_json s (JNum (JPos 0))
  | text_json : forall s, ~ lone_quote s -> (forall inner, ~ in_quotes s inner) -> ~ In s [lit "true"; lit "false"; lit "null"] ->
      (forall inner, ~ in_brackets s inner) -> (forall x, ~ float_text s x) -> argument_json s (JStr s).

  (** the JSON text given last, the token given last, the variables *)
  Definition sent_json (ps : list client_part) : option str := fold_left (fun o p => match p with SendJson text => Some text | _ => o end) ps None.
  Definition sent_token (default : option str) (ps : list client_part) : option str := fold_left (fun o p => match p with SendToken t => Some t | _ => o end) ps default.
  Definition sent_bindings (ps : list client_part) : list (str * str) := flat_map (fun p => match p with Send name text => [(name, text)] | _ => [] end) ps.
  (** the members of the object of variables that is sent, if one is *)
  Definition sent_variables (ps : list client_part) (vs : option (list (str * json))) : Prop :=
    Forall (fun b => exists j, argument_json (snd b) j) (sent_bindings ps) /\
    match sent_json ps with
    | Some text => exists kvs, json_parse text = Some (JObj kvs) /\ vs = Some kvs
    | None => (vs = None <-> sent_bindings ps = []) /\
        forall kvs, vs = Some kvs -> in_key_order (map fst kvs) /\ forall name j, mget name kvs = Some j <-> exists text, last_value (sent_bindings ps) name text /\ argument_json text j
    end.
  (** JSON carries them without loss *)
  Definition carried (vs : option (list (str * json))) : Prop := forall kvs, vs = Some kvs -> document (JObj kvs) /\ (nesting (JObj kvs) <= 126)%nat.
  (** the request the command line stands for *)
  Definition client_asks (default : option str) (expression : str) (ps : list client_part) (r : line_request) : Prop :=
    l_expression r = expression /\ sent_variables ps (l_variables r) /\ (exists b, l_output_json r = Some b /\ (b = true <-> In WantJson ps)) /\ l_token r = sent_token default ps.
  (** an answer, all of whose numbers JSON carries without loss *)
  Definition clean_answer (success : bool) (result error : json) (text : str) : Prop :=
    exists time id, plain_number time /\ id < 2 ^ 64 /\ document result /\ (nesting result <= 126)%nat /\ text = json_print (answer_json success result error (JNum time) id).
  (** JSON carries what is written for a result without loss *)
  Definition clean_result (v : value) : Prop := forall j, described v j \/ simple_result v j -> document j /\ (nesting j <= 126)%nat.
  (** [exchange] behaves as the server with these functions and this token *)
  Definition served_by (reg : registry) (token : option str) (exchange : str -> str) : Prop :=
    forall line, ~ crashes reg token line -> exists id success result error time, let d := answer_json success result error (JNum time) id in
      answers reg token id line d /\ exchange line = json_print d /\ plain_number time /\ id < 2 ^ 64.
  (** the values of the variables sent *)
  Definition given_env (vs : option (list (str * json))) (vars : env) : Prop :=
    forall name v, mget name vars = Some v <-> exists kvs j, vs = Some kvs /\ mget name kvs = Some j /\ Spec_json.stands_for j v.
  (** the token sent is the server's; an empty one need not be sent *)
  Definition welcome (token sent : option str) : Prop := match token with None => True | Some t => sent = Some t \/ (t = [] /\ sent = None) end.
End ClientSpec.
