(** Vocabulary for the server of JSON lines and its client. *)
From Coq Require Import String List ZArith NArith Bool.
From Verif Require Import Base F64 F64Text Syntax Utf8 Ext Json Struct Registry Core Methods Api Lines Host HttpServer Command LineServer Spec Spec_syntax Spec_text Spec_json Spec_http Spec_command.
Import ListNotations.
Local Open Scope N_scope.

Section LineSpec.
  Context {X : Ext} {H : Host}.
  (** ** What a client sends *)
  (** a line of text, without its ending *)
  Definition plain_line (l : str) : Prop := valid_str l /\ ~ In 10 l /\ forall r, l <> r ++ [13].
  (** the lines, each ended by a line feed, perhaps after a carriage return *)
  Inductive written : list str -> list N -> Prop :=
  | nothing_written : written [] []
  | line_written : forall l ls bs, plain_line l -> written ls bs -> written (l :: ls) (encode l ++ [10] ++ bs)
  | crlf_written : forall l ls bs, plain_line l -> written ls bs -> written (l :: ls) (encode l ++ [13; 10] ++ bs).
  (** the lines that are not blank *)
  Definition asked (ls : list str) : list str := filter (fun l => negb (forallb is_whitespace l)) ls.

  (** ** Requests *)
  (** an optional field: missing, null, or made from a value *)
  Definition field {A} (j : option json) (mk : A -> json) (x : option A) : Prop :=
    match x with Some a => j = Some (mk a) | None => j = None \/ j = Some JNull end.
  Definition fields (e v o t : option json) (r : line_request) : Prop :=
    e = Some (JStr (l_expression r)) /\ field v JObj (l_variables r) /\ field o JBool (l_output_json r) /\ field t JStr (l_token r).
  Inductive asks_for : json -> line_request -> Prop :=
  | as_object : forall kvs r, fields (mget (lit "expression") kvs) (mget (lit "variables") kvs) (mget (lit "output_json") kvs) (mget (lit "token") kvs) r -> asks_for (JObj kvs) r
  | as_array : forall e v o t r, fields (Some e) (Some v) (Some o) (Some t) r -> asks_for (JArr [e; v; o; t]) r.
  Definition requested (line : str) (r : line_request) : Prop := exists j, struct_parse line_names line = Some j /\ asks_for j r.
  (** the token is right, or none is needed; an empty one need not be given *)
  Definition let_in (token : option str) (r : line_request) : Prop :=
    match token with None => True | Some t => l_token r = Some t \/ (t = [] /\ l_token r = None) end.
  (** the variables of a request *)
  Definition request_env (r : line_request) (vars : env) : Prop :=
    forall name v, mget name vars = Some v <-> exists kvs j, l_variables r = Some kvs /\ mget name kvs = Some j /\ Spec_json.stands_for j v.

  (** ** Answers *)
  (** a result without its type: as in a description, but dates are written as text *)
  Inductive simple_element : value -> json -> Prop :=
  | date_element : forall t, simple_element (VDateTime t) (JStr (Z_to_str t))
  | other_element : forall v j, (forall t, v <> VDateTime t) -> element_as v j -> simple_element v j.
  Inductive simple_result : value -> json -> Prop :=
  | one_result : forall v j, (forall xs, v <> VArray xs) -> simple_element v j -> simple_result v j
  | many_results : forall xs js, Forall2 simple_element xs js -> simple_result (VArray xs) (JArr js).
  Definition wanted (r : line_request) (v : value) (j : json) : Prop :=
    if match l_output_json r with Some b => b | None => false end then described v j else simple_result v j.
  Definition answer_json (success : bool) (result error time : json) (id : N) : json :=
    JObj [(lit "success", JBool success); (lit "result", result); (lit "error", error); (lit "execution_time_ms", time); (lit "request_id", JNum (JPos id))].
  (** the answers request number [id], on this line, may get *)
  Inductive answers (reg : registry) (token : option str) (id : N) (line : str) : json -> Prop :=
  | not_understood : forall why time, (forall r, ~ requested line r) -> answers reg token id line (answer_json false JNull (JStr (lit "Invalid JSON request: " ++ why)) time id)
  | not_let_in : forall r time, requested line r -> ~ let_in token r -> answers reg token id line (answer_json false JNull (JStr (lit "Unauthorized: invalid token")) time id)
  | evaluated_to : forall r vars v j time, requested line r -> let_in token r -> request_env r vars -> Spec_http.gives reg (l_expression r) vars (Ok v) -> wanted r v j ->
      answers reg token id line (answer_json true j JNull time id)
  | evaluation_failed : forall r vars e time, requested line r -> let_in token r -> request_env r vars -> Spec_http.gives reg (l_expression r) vars (Err e) ->
      answers reg token id line (answer_json false JNull (JStr (show_error e)) time id).
  (** evaluating the expression on this line would crash *)
  Definition crashes (reg : registry) (token : option str) (line : str) : Prop :=
    exists r vars p, requested line r /\ let_in token r /\ request_env r vars /\ Spec_http.gives reg (l_expression r) vars (Panic p).

  (** ** Runs *)
  Definition connected (s : line_server) (i : nat) (c : line_conn) (sent : list str) (p : line_prog) : Prop := nth_error (ls_jobs s) i = Some (mkLJob c sent p).
  (** [answer] is what connection [i] got for the line at position [k] *)
  Definition got (s : line_server) (i k : nat) (answer : str) : Prop := exists c sent p, connected s i c sent p /\ nth_error sent k = Some answer.
  Definition finished (s : line_server) : Prop := forall i c sent p, connected s i c sent p -> p = LDone.
  (** fewer events than request numbers *)
  Definition numbers_left (evs : list line_event) : Prop := N.of_nat (length evs) < 2 ^ 64.
  (** how many steps connection [i] makes *)
  Definition steps_of (i : nat) (evs : list line_event) : nat := length (filter (fun e => match e with Step j => Nat.eqb j i | _ => false end) evs).
  Definition no_hang_up (i : nat) (evs : list line_event) : Prop := ~ In (HangUp i) evs.
  (** all answers given so far *)
  Definition all_answers (s : line_server) : list str := flat_map lj_sent (ls_jobs s).
End LineSpec.
