(** Property theorems about the same question put to the command [sk] and to the client of the server. *)
From Coq Require Import String List ZArith NArith Bool Lia.
From Verif Require Import Base F64 F64Text Syntax Lexer Parser Utf8 Ext Json Registry Core Methods Api Lines Host HttpServer Pretty Command LineServer Client ClientBench Spec Spec_syntax Spec_text Spec_json Spec_http Spec_command
  Base_proofs Text_proofs Object_proofs HttpRoutes_proofs HttpCache_proofs Command_proofs Lines_proofs Client_proofs ClientBench_proofs Agree_proofs.
From Verif Require Import Spec_json Spec_command Spec_lines Spec_client Spec_agree.
Import ListNotations.
Local Open Scope N_scope.

(** * C90 The command and the client tell the same *)

(** with variables on the command line, each of whose texts both programs read as the same value *)
Theorem C90_variables : forall (X : Ext) (H : Host), unicode X -> forall reg ms token exchange took default address expression ps args vars vs, expression <> lit "--benchmark" \/ args = [] -> orders -> command_line ps args -> json_given ps = None ->
  Forall (fun b => read_alike (snd b)) (bindings ps) -> bound ps vars -> sent_variables (map for_client ps) vs -> carried vs -> served_by reg token (exchange 0%nat) -> welcome token default ->
  (forall v, Spec_http.gives reg expression vars (Ok v) -> clean_result v) -> sk_main reg ms (expression :: args) <> Crashed ->
  exists o, client_program exchange took default (address :: expression :: args) = Asked o /\ tell_the_same (as_json ps) (sk_main reg ms (expression :: args)) o.
Proof. exact @agree_variables. Qed.
Print Assumptions C90_variables.

(** with a JSON object whose keys are names already, and an expression that does not use the variable ":arguments" *)
Theorem C90_json : forall (X : Ext) (H : Host), unicode X -> forall reg ms token exchange took default address expression ps args text kvs vars, expression <> lit "--benchmark" \/ args = [] -> orders -> command_line ps args -> json_given ps = Some text ->
  Forall (fun b => (exists v, argument_value (snd b) v) /\ exists j, argument_json (snd b) j) (bindings ps) -> json_parse text = Some (JObj kvs) -> (forall k, In k (map fst kvs) -> sanitised k k) ->
  (forall e, parse expression = Ok e -> ~ In (lit "arguments") (variables e)) -> given_env (Some kvs) vars -> carried (Some kvs) -> served_by reg token (exchange 0%nat) -> welcome token default ->
  (forall v, Spec_http.gives reg expression vars (Ok v) -> clean_result v) -> sk_main reg ms (expression :: args) <> Crashed ->
  exists o, client_program exchange took default (address :: expression :: args) = Asked o /\ tell_the_same (as_json ps) (sk_main reg ms (expression :: args)) o.
Proof. exact @agree_json. Qed.
Print Assumptions C90_json.

(** the description of a result is one: two programs that describe the same value write the same result *)
Theorem C90_one_description : forall (X : Ext) v j j', Spec_command.result_as v j -> Spec_command.result_as v j' -> j = j'.
Proof. exact @result_once. Qed.
Print Assumptions C90_one_description.

Example C90_nonvacuous :
  let X := example_ext in let H := example_host in
  let exchange := fun line => match answer_line reg_new None 7 line with Ok a => a | _ => [] end in
  let client := fun args => client_program (fun _ => exchange) (fun _ => 3) None (lit "localhost:80" :: map lit args) in let sk := fun args => sk_main reg_new f_zero (map lit args) in
  let ps := [Bind (lit "x") (lit "4.5")] in let number := f_of_dec false 45 (-1) in
  let vars := [(lit "x", VNumber number)] in let kvs := [(lit "x", JNum (JFlt number))] in
  unicode X /\ orders /\ command_line ps [lit "x=4.5"] /\ Forall (fun b => read_alike (snd b)) (bindings ps) /\ bound ps vars /\ sent_variables (map for_client ps) (Some kvs) /\ carried (Some kvs) /\ served_by reg_new None exchange
  /\ (forall v, Spec_http.gives reg_new (lit ":x + 1") vars (Ok v) -> clean_result v)
  /\ json_parse (lit "{""x"": 4.5}") = Some (JObj kvs) /\ (forall k, In k (map fst kvs) -> sanitised k k) /\ given_env (Some kvs) vars
  /\ (forall e, parse (lit ":x + 1") = Ok e -> ~ In (lit "arguments") (variables e))
  /\ sk [":x + 1"; "x=4.5"]%string = Exited 0 (lit "Number(5.5)" ++ [10]) [] /\ client [":x + 1"; "x=4.5"]%string = Asked (Exited 0 (lit "5.5" ++ [10]) [])
  /\ sk [":x + 1"; "--json"; "{""x"": 4.5}"]%string = Exited 0 (lit "Number(5.5)" ++ [10]) [] /\ client [":x + 1"; "--json"; "{""x"": 4.5}"]%string = Asked (Exited 0 (lit "5.5" ++ [10]) [])
  /\ sk [":y + 1"; "x=4.5"]%string = Exited 2 [] (lit "Error: Missing variable: :y" ++ [10]) /\ client [":y + 1"; "x=4.5"]%string = Asked (Exited 2 [] (lit "Error: Missing variable: :y" ++ [10])).
Proof. intros X H exchange client sk ps number vars kvs.
  assert (Av : forall s v, parse_value s = Ok v -> argument_value s v) by (intros; now apply (value_iff example_unicode)). assert (Aj : forall s j, parse_value_to_json s = Ok j -> argument_json s j) by (intros; now apply json_value_iff).
  assert (V : argument_value (lit "4.5") (VNumber number)) by (apply Av; vm_compute; reflexivity). assert (J : argument_json (lit "4.5") (JNum (JFlt number))) by (apply Aj; vm_compute; reflexivity).
  assert (Fl : float_text (lit "4.5") number) by (apply float_text_iff; vm_compute; reflexivity).
  assert (La : last_value [(lit "x", lit "4.5")] (lit "x") (lit "4.5")) by (exists [], []; split; [reflexivity|auto]).
  assert (Lo : forall name text, last_value [(lit "x", lit "4.5")] name text -> name = lit "x" /\ text = lit "4.5").
  { intros name text (b & a & E & _). destruct b as [|? [|? b]]; try discriminate. injection E as <- <- _. auto. }
  assert (Mx : forall A name (u v : A), mget name [(lit "x", u)] = Some v -> name = lit "x" /\ v = u). { intros A name u v K. apply mget_found in K as [K|[]]. now injection K as <- <-. }
  split; [apply example_unicode|]. split; [apply example_orders|]. split; [split; [repeat constructor; cbn; intros [K|[]]; discriminate|reflexivity]|].
  split; [constructor; [apply (alike_number _ number); [exact Fl|reflexivity]|constructor]|].
  split. { split; [constructor; [eexists; exact V|constructor]|]. intros name v. split; [intros K; apply Mx in K as [-> ->]; eauto|]. intros (text & L & K). apply Lo in L as [-> ->]. now rewrite (one_value example_unicode _ _ _ K V). }
  split. { split; [constructor; [eexists; exact J|constructor]|]. cbn [sent_json fold_left map for_client ps]. split; [split; discriminate|]. intros kvs0 K. injection K as <-. split; [repeat constructor|].
    intros name j. split; [intros K; apply Mx in K as [-> ->]; eauto|]. intros (text & L & K). apply Lo in L as [-> ->]. now rewrite (json_unique _ _ _ K J). }
  split. { intros kvs0 K. injection K as <-. split; [|cbn; lia]. apply object_document; [repeat constructor|]. constructor; [|constructor]. constructor. constructor; [reflexivity|vm_compute; reflexivity|]. exists [], false, (lit "4"), (lit "5"). split; [now left|]. repeat split; try discriminate; vm_compute; try reflexivity; lia. }
  split; [apply server_serves; [reflexivity|reflexivity|apply zero_plain]|].
  split. { intros v [[[a [b [K|K]]] _]|[_ K]]; [exfalso; assert (In 59 (lit ":x + 1")) as I0 by (rewrite K; apply in_or_app; right; left; reflexivity); cbn in I0; intuition discriminate|exfalso; assert (In 61 (lit ":x + 1")) as I0 by (rewrite K; apply in_or_app; right; right; left; reflexivity); cbn in I0; intuition discriminate|].
    assert (v = asked_value) as -> by (vm_compute in K; injection K as ->; vm_compute; reflexivity). apply asked_clean. }
  split; [vm_compute; reflexivity|]. split; [intros k [<-|[]]; apply sanitised_iff; vm_compute; reflexivity|].
  split. { intros name v. split; [intros K; apply Mx in K as [-> ->]; exists kvs, (JNum (JFlt number)); split; [reflexivity|]; split; [reflexivity|constructor]|]. intros (kvs0 & j & K & M & St). injection K as <-. apply Mx in M as [-> ->]. inversion St; subst. reflexivity. }
  split; [intros e K; vm_compute in K; injection K as <-; cbn; intuition discriminate|]. vm_compute. repeat split; reflexivity.
Qed.

(** brackets around something that is not JSON make an array for the command and a text for the client; only the command offers the JSON text itself as ":arguments" *)
Theorem C90_array_refuted :
  let X := example_ext in let H := example_host in
  let exchange := fun line => match answer_line reg_new None 7 line with Ok a => a | _ => [] end in
  let client := fun args => match client_program (fun _ => exchange) (fun _ => 3) None (lit "localhost:80" :: map lit args) with Asked o => o | _ => Crashed end in let sk := fun args => sk_main reg_new f_zero (map lit args) in
  sk ["ISTEXT(:x)"; "x=[1,b]"]%string = Exited 0 (lit "Boolean(false)" ++ [10]) [] /\ client ["ISTEXT(:x)"; "x=[1,b]"]%string = Exited 0 (lit "true" ++ [10]) []
  /\ sk ["ISTEXT(:arguments)"; "--json"; "{}"]%string = Exited 0 (lit "Boolean(false)" ++ [10]) [] /\ client ["ISTEXT(:arguments)"; "--json"; "{}"]%string = Exited 2 [] (lit "Error: Missing variable: :arguments" ++ [10]).
Proof. vm_compute. repeat split; reflexivity. Qed.
Print Assumptions C90_array_refuted.
