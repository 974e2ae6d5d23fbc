(** Property theorems about the commands [sk], [sk_server] and [sk_client]. *)
From Coq Require Import String List ZArith NArith Bool Lia.
From Verif Require Import Base F64 F64Text Syntax Utf8 Ext Json Registry Core Methods Api Lines Host HttpServer Pretty Command Spec Spec_syntax Spec_text Spec_json Spec_http Spec_command
  Base_proofs Layout_proofs HttpRead_proofs HttpAuth_proofs HttpServer_proofs HttpRoutes_proofs HttpCache_proofs Pretty_proofs Command_proofs.
Import ListNotations.
Local Open Scope N_scope.

(** * C78 The command [sk] *)

(** without "--json", the expression is evaluated with the variables of the command line, each name with the value of its last text; options may come in any order and number *)
Theorem C78_variables : forall (X : Ext) (H : Host), unicode X -> forall reg ms expr ps args vars r, command_line ps args -> json_given ps = None -> bound ps vars -> Spec_http.gives reg expr vars r ->
  leaves ps r (sk_main reg ms (expr :: args)).
Proof. exact @command_variables. Qed.
Print Assumptions C78_variables.

(** with "--json", the last JSON text counts, and the other variables are ignored *)
Theorem C78_json : forall (X : Ext) (H : Host), unicode X -> forall reg ms expr ps args text, command_line ps args -> Forall (fun b => exists v, argument_value (snd b) v) (bindings ps) -> json_given ps = Some text -> ~ has_statements expr ->
  leaves ps (evaluate_with_json_custom reg expr text) (sk_main reg ms (expr :: args)).
Proof. exact @command_json. Qed.
Print Assumptions C78_json.

(** the same when the expression has statements *)
Theorem C78_json_statements : forall (X : Ext) (H : Host), unicode X -> forall reg ms expr ps args text kvs vars, command_line ps args -> Forall (fun b => exists v, argument_value (snd b) v) (bindings ps) -> json_given ps = Some text -> has_statements expr ->
  json_parse text = Some (JObj kvs) -> object_bound text kvs vars -> leaves ps (evaluate_with_assignments expr vars) (sk_main reg ms (expr :: args)).
Proof. exact @command_statements. Qed.
Print Assumptions C78_json_statements.

(** a text that is not a JSON object is an error: status 1 if the expression has statements, otherwise 2 *)
Theorem C78_bad_json : forall (X : Ext) (H : Host), unicode X -> forall reg ms expr ps args text, command_line ps args -> Forall (fun b => exists v, argument_value (snd b) v) (bindings ps) -> json_given ps = Some text ->
  (forall kvs, json_parse text <> Some (JObj kvs)) -> exists status msg, sk_main reg ms (expr :: args) = Exited status [] msg /\ (status = 1 /\ has_statements expr \/ status = 2 /\ ~ has_statements expr).
Proof. exact @command_bad_json. Qed.
Print Assumptions C78_bad_json.

(** any other command line is refused with status 1 and a message, before anything is evaluated; unless a value in it crashes the command *)
Theorem C78_rejected : forall (X : Ext) (H : Host), unicode X -> forall reg ms expr args, (forall ps, ~ command_line ps args) ->
  (exists msg, msg <> [] /\ sk_main reg ms (expr :: args) = Exited 1 [] msg)
  \/ (sk_main reg ms (expr :: args) = Crashed /\ exists name text, In (name ++ lit "=" ++ text) args /\ ~ In 61 name /\ forall v, ~ argument_value text v).
Proof. exact @command_rejected. Qed.
Print Assumptions C78_rejected.

(** something is written to standard output exactly when the status is 0, and to standard error exactly when it is not *)
Theorem C78_streams : forall (X : Ext) (H : Host) reg ms args status out errors, sk_main reg ms args = Exited status out errors ->
  (status = 0 \/ status = 1 \/ status = 2) /\ (status = 0 <-> out <> []) /\ (args <> [] -> (status = 0 <-> errors = [])).
Proof. exact @command_streams. Qed.
Print Assumptions C78_streams.

(** the JSON written for a result reads back as its description *)
Theorem C78_description_read : forall (X : Ext) v d out w, described v d -> json_text d out -> blank w -> (forall j, result_as v j -> document j /\ (nesting j <= 126)%nat) -> json_parse (out ++ w) = Some d.
Proof. exact @description_read. Qed.
Print Assumptions C78_description_read.

(** no more than one value can be read from a text *)
Theorem C78_one_value : forall (X : Ext), unicode X -> forall s v v', argument_value s v -> argument_value s v' -> v = v'.
Proof. exact @one_value. Qed.
Print Assumptions C78_one_value.

(** but some texts have none, and crash the command *)
Theorem C78_crash_refuted : forall (X : Ext) (H : Host), unicode X -> forall reg ms expr ps args, command_line ps args -> ~ Forall (fun b => exists v, argument_value (snd b) v) (bindings ps) -> sk_main reg ms (expr :: args) = Crashed.
Proof. exact @command_unread. Qed.
Print Assumptions C78_crash_refuted.

Example C78_nonvacuous :
  let X := example_ext in let H := example_host in
  let run := fun args => sk_main reg_new f_zero (map lit args) in
  unicode X
  /\ command_line [Bind (lit "x") (lit "2"); AsJson; UseJson (lit "{}"); Bind (lit "x") (lit "a=b")] (map lit ["x=2"; "--output-json"; "--json"; "{}"; "x=a=b"])%string
  /\ run [":x + :y"; "x=2"; "y=3.5"; "x=4"]%string = Exited 0 (lit "Number(7.5)" ++ [10]) []
  /\ run [":a.length()"; "a=[1, TRUE, 'q']"]%string = Exited 0 (lit "Number(3.0)" ++ [10]) []
  /\ run [":x := 2; :x * :n"; "n=4"]%string = Exited 0 (lit "Number(8.0)" ++ [10]) []
  /\ run [":x"; "x=1"; "--json"; "{""x"": 5}"]%string = Exited 0 (lit "Number(5.0)" ++ [10]) []
  /\ run ["1 +"]%string = Exited 2 [] (lit "Error: Unexpected token: Eof at position 2" ++ [10])
  /\ run ["1"; "x"]%string = Exited 1 [] (lit "Invalid variable assignment: 'x'. Use format: var=value" ++ [10])
  /\ argument_value (lit "[1, TRUE, 'q']") (VArray [num 1; VBoolean true; VString (lit "q")])
  /\ run [":x"; "x='"]%string = Crashed
  /\ match run ["'a'"; "--output-json"]%string with Exited 0 out [] => json_parse out | _ => None end = Some (JObj [(lit "execution_time", JStr (lit "0.00 ms")); (lit "result", JStr (lit "a")); (lit "type", JStr (lit "String"))]).
Proof. intros X H run. split; [apply example_unicode|]. split.
  { split; [|reflexivity]. repeat (constructor; cbn; try tauto); intros [K|[]]; discriminate. }
  do 6 (split; [vm_compute; reflexivity|]). split.
  { apply (value_iff (example_unicode)). vm_compute. reflexivity. }
  split; [vm_compute; reflexivity|]. vm_compute. reflexivity. Qed.

(** arrays cannot be nested, quotes do not protect commas, and some words are numbers *)
Theorem C78_nested_refuted :
  let X := example_ext in let H := example_host in
  let run := fun args => sk_main reg_new f_zero (map lit args) in
  run [":x"; "x=[[1,2],[3]]"]%string = Exited 0 (lit "Array([String(""[1""), String(""2]""), Array([Number(3.0)])])" ++ [10]) []
  /\ run [":x"; "x=['a,b']"]%string = Exited 0 (lit "Array([String(""'a""), String(""b'"")])" ++ [10]) []
  /\ run [":name"; "name=Nan"]%string = Exited 0 (lit "Number(NaN)" ++ [10]) [].
Proof. vm_compute. repeat split; reflexivity. Qed.
Print Assumptions C78_nested_refuted.
