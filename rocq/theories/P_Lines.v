(** Property theorems about the server of JSON lines and its client. *)
From Coq Require Import String List ZArith NArith Bool Lia.
From Verif Require Import Base F64 F64Text Syntax Utf8 Ext Json Registry Core Methods Api Lines Host HttpServer Pretty Command LineServer Client ClientBench Spec Spec_syntax Spec_text Spec_json Spec_http Spec_command
  Base_proofs Layout_proofs HttpRead_proofs HttpAuth_proofs HttpServer_proofs HttpRoutes_proofs HttpCache_proofs Pretty_proofs Command_proofs Lines_proofs Client_proofs ClientBench_proofs.
From Verif Require Import Spec_lines Spec_client.
Import ListNotations.
Local Open Scope N_scope.

(** * C79 The server of JSON lines *)

(** the server gets the lines a client writes, whichever way they end; a last line without an ending counts unless the connection breaks *)
Theorem C79_received : forall ls bs rest, written ls bs -> ~ In 10 rest -> valid_str rest -> (forall broken, received (mkConn bs broken) = ls) /\ received (mkConn (bs ++ encode rest) true) = ls
  /\ (rest <> [] -> received (mkConn (bs ++ encode rest) false) = ls ++ [rest]).
Proof. exact @all_received. Qed.
Print Assumptions C79_received.

(** a line that is not UTF-8 ends what is received *)
Theorem C79_not_text : forall ls bs junk rest, written ls bs -> ~ In 10 junk -> (forall u, valid_str u -> encode u <> junk) ->
  (forall broken, received (mkConn (bs ++ junk ++ [10] ++ rest) broken) = ls) /\ received (mkConn (bs ++ junk) false) = ls.
Proof. exact @received_junk. Qed.
Print Assumptions C79_not_text.
Example C79_not_text_nonvacuous : written [lit "a"] [97; 13; 10] /\ ~ In 10 [98; 255] /\ (forall u, valid_str u -> encode u <> [98; 255]).
Proof. exact junk_example. Qed.

(** in every run, whatever the other connections do, the answers on a connection are the answers to its lines that are not blank, in their order *)
Theorem C79_answers : forall (X : Ext) (H : Host) reg token evs i c sent p k a, numbers_left evs -> connected (line_run reg token evs) i c sent p -> nth_error sent k = Some a ->
  exists id l d, nth_error (asked (received c)) k = Some l /\ answers reg token id l d /\ a = json_print d.
Proof. exact @lines_answered. Qed.
Print Assumptions C79_answers.

(** each answer is one line *)
Theorem C79_one_line : forall (X : Ext) (H : Host) reg token evs i k a, numbers_left evs -> got (line_run reg token evs) i k a -> ~ In 10 a.
Proof. exact @no_newline. Qed.
Print Assumptions C79_one_line.

(** no two answers carry the same number, on whatever connections *)
Theorem C79_distinct : forall (X : Ext) (H : Host) reg token evs i k a j m b n, numbers_left evs -> got (line_run reg token evs) i k a -> got (line_run reg token evs) j m b ->
  ends_with_id n a -> ends_with_id n b -> i = j /\ k = m.
Proof. exact @numbers_distinct. Qed.
Print Assumptions C79_distinct.

(** on a connection, the numbers increase *)
Theorem C79_increasing : forall (X : Ext) (H : Host) reg token evs i k a m b n n', numbers_left evs -> got (line_run reg token evs) i k a -> got (line_run reg token evs) i m b ->
  ends_with_id n a -> ends_with_id n' b -> (k < m)%nat -> n < n'.
Proof. exact @numbers_increase. Qed.
Print Assumptions C79_increasing.

(** a connection that is allowed four steps for each line that is not blank has been served to its end, whatever happens in between *)
Theorem C79_served : forall (X : Ext) (H : Host) reg token evs more i c sent p, connected (line_run reg token evs) i c sent p -> (4 * length (asked (received c)) <= steps_of i more)%nat ->
  exists sent', connected (line_run reg token (evs ++ more)) i c sent' LDone.
Proof. exact @served. Qed.
Print Assumptions C79_served.

(** and then every line has its answer, unless the client hung up or one of its own lines crashes *)
Theorem C79_complete : forall (X : Ext) (H : Host) reg token evs i c sent, numbers_left evs -> connected (line_run reg token evs) i c sent LDone -> no_hang_up i evs -> (forall l, In l (asked (received c)) -> ~ crashes reg token l) ->
  length sent = length (asked (received c)).
Proof. exact @every_line. Qed.
Print Assumptions C79_complete.

(** with a token, a line that does not carry it is refused *)
Theorem C79_token : forall (X : Ext) (H : Host) reg token evs i c sent p k l r t a, numbers_left evs -> connected (line_run reg token evs) i c sent p -> token = Some t -> t <> [] ->
  nth_error (asked (received c)) k = Some l -> requested l r -> l_token r <> Some t -> nth_error sent k = Some a ->
  exists time id, a = json_print (answer_json false JNull (JStr (lit "Unauthorized: invalid token")) time id).
Proof. exact @kept_out. Qed.
Print Assumptions C79_token.

(** a line that crashes is never answered, nor is any line after it *)
Theorem C79_crash_refuted : forall (X : Ext) (H : Host) reg token evs i c sent p k l, numbers_left evs -> connected (line_run reg token evs) i c sent p -> nth_error (asked (received c)) k = Some l -> crashes reg token l -> (length sent <= k)%nat.
Proof. exact @crash_silences. Qed.
Print Assumptions C79_crash_refuted.

Example C79_nonvacuous :
  let X := example_ext in let H := example_host in
  let q1 := lit "{""expression"":""1+1"",""token"":""t""}" in let q2 := lit "{""expression"":"":x*2"",""variables"":{""x"":4},""token"":""t""}" in let q3 := lit "{""expression"":""1""}" in let bad := lit "hello" in
  let bs1 := encode q1 ++ [13; 10] ++ encode (lit "  ") ++ [10] ++ encode q2 ++ [10] ++ [] in let bs2 := encode q3 ++ [10] ++ encode bad ++ [10] ++ [] in
  let evs := [Connect (mkConn bs1 false); Connect (mkConn bs2 true); Step 0; Step 1; Step 1; Step 0; Step 0; Step 1; Step 1; Step 0; Step 0; Step 1; Step 1; Step 0; Step 0; Step 1; Step 1; Step 0]%nat in
  written [q1; lit "  "; q2] bs1 /\ written [q3; bad] bs2 /\ numbers_left evs /\ no_hang_up 0 evs
  /\ map lj_sent (ls_jobs (line_run reg_new (Some (lit "t")) evs)) =
    [[lit "{""success"":true,""result"":2.0,""error"":null,""execution_time_ms"":0.0,""request_id"":0}"; lit "{""success"":true,""result"":8.0,""error"":null,""execution_time_ms"":0.0,""request_id"":2}"];
     [lit "{""success"":false,""result"":null,""error"":""Unauthorized: invalid token"",""execution_time_ms"":0.0,""request_id"":1}"; lit "{""success"":false,""result"":null,""error"":""Invalid JSON request: bad"",""execution_time_ms"":0.0,""request_id"":3}"]].
Proof. intros X H q1 q2 q3 bad bs1 bs2 evs.
  assert (Pl : forall l, forallb (fun c => (32 <=? c) && (c <? 128)) l = true -> plain_line l).
  { intros l K. rewrite forallb_forall in K. split; [|split].
    - apply Forall_forall. intros c I0. specialize (K c I0). apply andb_true_iff in K as [_ K]. apply N.ltb_lt in K. unfold is_scalar. apply orb_true_iff. left. apply N.ltb_lt. lia.
    - intros I0. specialize (K 10 I0). discriminate.
    - intros r ->. assert (I0 : In 13 (r ++ [13])) by (apply in_or_app; right; now left). specialize (K 13 I0). discriminate. }
  split; [apply crlf_written; [apply Pl; reflexivity|]; apply line_written; [apply Pl; reflexivity|]; apply line_written; [apply Pl; reflexivity|]; constructor|].
  split; [apply line_written; [apply Pl; reflexivity|]; apply line_written; [apply Pl; reflexivity|]; constructor|].
  split; [reflexivity|]. split; [unfold no_hang_up, evs; cbn; intuition discriminate|]. vm_compute. reflexivity. Qed.
Example C79_crash :
  let X := example_ext in let H := example_host in
  let boom := lit "{""expression"":""[1, 2][0 - 1/0]""}" in let fine := lit "{""expression"":""1""}" in
  let evs := Connect (mkConn (encode boom ++ [10] ++ encode fine ++ [10]) false) :: repeat (Step 0) 20 in
  crashes reg_new None boom /\ match ls_jobs (line_run reg_new None evs) with [mkLJob c [] LDone] => received c | _ => [] end = [boom; fine].
Proof. intros X H boom fine evs. split; [|vm_compute; reflexivity].
  exists (mkLine (lit "[1, 2][0 - 1/0]") None None None), [], "attempt to negate with overflow"%string. split; [|split; [exact I|split]].
  - apply requested_iff. vm_compute. reflexivity.
  - intros name v. cbn. split; [discriminate|]. intros (? & ? & K & _). discriminate.
  - right. split; [|vm_compute; reflexivity]. intros K. apply statements_bool in K. discriminate. Qed.

(** * C80 The client of the server of JSON lines *)

(** the command line becomes one line, which the server reads as that request *)
Theorem C80_request : forall (X : Ext) (H : Host) exchange took default address expression ps args vs, expression <> lit "--benchmark" \/ args = [] -> orders -> client_line ps args -> sent_variables ps vs -> carried vs ->
  exists line r, client_program exchange took default (address :: expression :: args) = Asked (client_report (exchange 0%nat line)) /\ ~ In 10 line /\ requested line r /\ l_variables r = vs /\ client_asks default expression ps r.
Proof. exact @program_sent. Qed.
Print Assumptions C80_request.

(** with the server's token, the client prints the result of the expression with the variables of its command line, or the error message *)
Theorem C80_result : forall (X : Ext) (H : Host) reg token exchange took default address expression ps args vs vars r, expression <> lit "--benchmark" \/ args = [] -> orders -> client_line ps args -> sent_variables ps vs -> carried vs -> served_by reg token (exchange 0%nat) ->
  welcome token (sent_token default ps) -> given_env vs vars -> Spec_http.gives reg expression vars r -> (forall v, r = Ok v -> clean_result v) ->
  match r with
  | Ok v => exists j, (In WantJson ps -> described v j) /\ (~ In WantJson ps -> simple_result v j) /\ client_program exchange took default (address :: expression :: args) = Asked (Exited 0 (json_pretty 0 j ++ [10]) [])
  | Err e => client_program exchange took default (address :: expression :: args) = Asked (Exited 2 [] (lit "Error: " ++ show_error e ++ [10]))
  | Panic _ => True
  end.
Proof. exact @program_served. Qed.
Print Assumptions C80_result.

(** with another token, or none, it is refused *)
Theorem C80_refused : forall (X : Ext) (H : Host) reg token exchange took default address expression ps args vs, expression <> lit "--benchmark" \/ args = [] -> orders -> client_line ps args -> sent_variables ps vs -> carried vs -> served_by reg token (exchange 0%nat) ->
  ~ welcome token (sent_token default ps) -> client_program exchange took default (address :: expression :: args) = Asked (Exited 2 [] (lit "Error: Unauthorized: invalid token" ++ [10])).
Proof. exact @program_kept_out. Qed.
Print Assumptions C80_refused.

(** a text has at most one JSON value *)
Theorem C80_one_value : forall s j j', argument_json s j -> argument_json s j' -> j = j'.
Proof. exact @json_unique. Qed.
Print Assumptions C80_one_value.

Example C80_nonvacuous :
  let X := example_ext in let H := example_host in
  let exchange := fun line => match answer_line reg_new (Some (lit "s")) 7 line with Ok a => a | _ => [] end in
  let run := fun args => client_program (fun _ => exchange) (fun _ => 3) None (lit "localhost:80" :: map lit args) in
  let ps := [Send (lit "x") (lit "2"); SendToken (lit "t"); Send (lit "y") (lit "[3, {""a"": null}]"); SendToken (lit "s"); Send (lit "x") (lit "4.5")] in
  let vs := Some [(lit "x", JNum (JFlt (f_of_dec false 45 (-1)))); (lit "y", JArr [JNum (JPos 3); JObj [(lit "a", JNull)]])] in
  orders /\ client_line ps (map lit ["x=2"; "--token"; "t"; "y=[3, {""a"": null}]"; "--token"; "s"; "x=4.5"])%string /\ carried vs /\ sent_variables ps vs /\ served_by reg_new (Some (lit "s")) exchange /\ welcome (Some (lit "s")) (sent_token None ps)
  /\ run [":x + :y[0]"; "x=2"; "--token"; "t"; "y=[3, {""a"": null}]"; "--token"; "s"; "x=4.5"]%string = Asked (Exited 0 (lit "7.5" ++ [10]) [])
  /\ run ["[1, 'a']"; "--token"; "s"]%string = Asked (Exited 0 (lit "[" ++ [10] ++ lit "  1.0," ++ [10] ++ lit "  ""a""" ++ [10] ++ lit "]" ++ [10]) [])
  /\ run ["1 +"; "--token"; "s"]%string = Asked (Exited 2 [] (lit "Error: Unexpected token: Eof at position 2" ++ [10]))
  /\ run ["1"]%string = Asked (Exited 2 [] (lit "Error: Unauthorized: invalid token" ++ [10])).
Proof. intros X H exchange run ps vs. split; [apply example_orders|]. split.
  { split; [|reflexivity]. repeat (constructor; cbn; try tauto); intros [K|[]]; discriminate. }
  split.
  { intros kvs K. injection K as <-. split; [|cbn; lia]. apply object_document; [repeat constructor|]. constructor; [|constructor; [|constructor]]; cbn [snd].
    - constructor. constructor; [reflexivity|vm_compute; reflexivity|]. exists [], false, (lit "4"), (lit "5"). split; [now left|]. repeat split; try discriminate; vm_compute; try reflexivity; lia.
    - repeat constructor. }
  assert (Ax : forall s j, parse_value_to_json s = Ok j -> argument_json s j) by (intros; now apply json_value_iff).
  split; [|split; [|split; [now left|vm_compute; repeat split; reflexivity]]].
  - split; [|split; [split; discriminate|]].
    + constructor; [exists (JNum (JFlt (f_of_dec false 2 0))); apply Ax; vm_compute; reflexivity|]. constructor; [exists (JArr [JNum (JPos 3); JObj [(lit "a", JNull)]]); apply Ax; vm_compute; reflexivity|]. constructor; [exists (JNum (JFlt (f_of_dec false 45 (-1)))); apply Ax; vm_compute; reflexivity|]. constructor.
    + intros kvs K. injection K as <-. split; [repeat constructor|]. intros name j. split.
      * intros K. apply mget_found in K as [K|[K|[]]]; injection K as <- <-.
        -- exists (lit "4.5"). split; [exists [(lit "x", lit "2"); (lit "y", lit "[3, {""a"": null}]")], []; split; [reflexivity|auto]|]. apply Ax. vm_compute. reflexivity.
        -- exists (lit "[3, {""a"": null}]"). split; [exists [(lit "x", lit "2")], [(lit "x", lit "4.5")]; split; [reflexivity|]; cbn; intuition discriminate|]. apply Ax. vm_compute. reflexivity.
      * intros (text & (b & a & E & Na) & A). assert (Al : forall s j j', parse_value_to_json s = Ok j -> argument_json s j' -> j' = j) by (intros s1 j1 j2 E1 E2; apply json_value_iff in E2; congruence).
        destruct b as [|p1 [|p2 [|p3 [|p4 b]]]]; try discriminate; cbn in E; inversion E; subst; clear E.
        -- exfalso. apply Na. cbn. auto.
        -- rewrite (Al (lit "[3, {""a"": null}]") (JArr [JNum (JPos 3); JObj [(lit "a", JNull)]]) j ltac:(vm_compute; reflexivity) A). reflexivity.
        -- rewrite (Al (lit "4.5") (JNum (JFlt (f_of_dec false 45 (-1)))) j ltac:(vm_compute; reflexivity) A). reflexivity.
  - apply server_serves; [reflexivity|reflexivity|apply zero_plain].
Qed.

(** the two commands do not read the same text as the same value: "TRUE" is a truth value for [sk] and a text for the client; infinity becomes 0; the client's "--json" does not offer the whole object, nor names without their odd characters *)
Theorem C80_same_as_sk_refuted :
  let X := example_ext in let H := example_host in
  let exchange := fun line => match answer_line reg_new None 7 line with Ok a => a | _ => [] end in
  let client := fun args => match client_program (fun _ => exchange) (fun _ => 3) None (lit "localhost:80" :: map lit args) with Asked o => o | _ => Crashed end in let sk := fun args => sk_main reg_new f_zero (map lit args) in
  sk ["ISTEXT(:x)"; "x=TRUE"]%string = Exited 0 (lit "Boolean(false)" ++ [10]) [] /\ client ["ISTEXT(:x)"; "x=TRUE"]%string = Exited 0 (lit "true" ++ [10]) []
  /\ sk [":x > 1"; "x=inf"]%string = Exited 0 (lit "Boolean(true)" ++ [10]) [] /\ client [":x > 1"; "x=inf"]%string = Exited 0 (lit "false" ++ [10]) []
  /\ sk [":a_b"; "--json"; "{""a-b"": 1}"]%string = Exited 0 (lit "Number(1.0)" ++ [10]) [] /\ client [":a_b"; "--json"; "{""a-b"": 1}"]%string = Exited 2 [] (lit "Error: Missing variable: :a_b" ++ [10]).
Proof. vm_compute. repeat split; reflexivity. Qed.
Print Assumptions C80_same_as_sk_refuted.
