(** The HTTP server: who is let in, what is read, what is answered, under every interleaving of its threads. *)
From Coq Require Import String List ZArith NArith Bool Lia Permutation.
From Verif Require Import Base F64 F64Text Syntax Utf8 Ext Json Registry Methods Api Lines Host HttpRead HttpAuth HttpCache JsPlugin Multipart HttpServer HttpThreads Spec Spec_syntax Spec_text Spec_http
  Base_proofs HttpRead_proofs HttpAuth_proofs HttpServer_proofs HttpIds_proofs HttpCache_proofs HttpRoutes_proofs HttpExamples_proofs.
Import ListNotations.
Local Open Scope N_scope.

(** * C41 Tokens
    [supplies text tok]: the token in the first Authorization line of the request.
    A request's program is all that its thread does ([C52_job]). *)

Theorem C41_evaluation_refused : forall (X : Ext) (H : Host) m p q text token admin tok, unicode X -> In (m, p) eval_endpoints -> asks m p q text -> supplies text tok -> tok <> token ->
  exists answer, handle_http_request (Some token) admin (inl text) = Reply (Some answer) /\ status_is "401" answer.
Proof. exact @eval_refused. Qed.
Print Assumptions C41_evaluation_refused.

Theorem C41_administration_refused : forall (X : Ext) (H : Host) m p q text token admin tok, unicode X -> In (m, p) admin_endpoints -> asks m p q text -> supplies text tok -> tok <> admin ->
  exists answer, handle_http_request token (Some admin) (inl text) = Reply (Some answer) /\ status_is "401" answer.
Proof. exact @admin_refused. Qed.
Print Assumptions C41_administration_refused.

(** with the right token, as if no token were asked for *)
Theorem C41_evaluation_accepted : forall (X : Ext) (H : Host) m p q text token admin, unicode X -> In (m, p) eval_endpoints -> asks m p q text -> supplies text token ->
  handle_http_request (Some token) admin (inl text) = handle_http_request None None (inl text).
Proof. exact @eval_accepted. Qed.
Print Assumptions C41_evaluation_accepted.

Theorem C41_administration_accepted : forall (X : Ext) (H : Host) m p q text token admin, unicode X -> In (m, p) admin_endpoints -> asks m p q text -> supplies text admin ->
  handle_http_request token (Some admin) (inl text) = handle_http_request None None (inl text).
Proof. exact @admin_accepted. Qed.
Print Assumptions C41_administration_accepted.

Theorem C41_public : forall (X : Ext) (H : Host) m p q text token admin, In (m, p) public_endpoints -> asks m p q text ->
  handle_http_request token admin (inl text) = handle_http_request None None (inl text).
Proof. exact @public_open. Qed.
Print Assumptions C41_public.

(** without either token, whatever the request asks: nothing changes *)
Theorem C41_stranger : forall (X : Ext) (H : Host) text token admin tok, unicode X -> supplies text tok -> tok <> token -> tok <> admin ->
  within unchanged (handle_http_request (Some token) (Some admin) (inl text)).
Proof. exact @stranger_harmless. Qed.
Print Assumptions C41_stranger.

(** every request supplies exactly one token *)
Theorem C41_supplied : forall text, exists tok, supplies text tok.
Proof. exact @supplies_total. Qed.
Print Assumptions C41_supplied.

Theorem C41_supplied_once : forall (X : Ext) text t1 t2, unicode X -> supplies text t1 -> supplies text t2 -> t1 = t2.
Proof. exact @supplies_unique. Qed.
Print Assumptions C41_supplied_once.

Theorem C41_bearer : forall before tok after body, unspaced tok -> tok <> [] ->
  Forall a_line (before ++ (lit "Authorization: Bearer " ++ tok) :: after) -> Forall no_authorization before ->
  supplies (request (before ++ (lit "Authorization: Bearer " ++ tok) :: after) body) tok.
Proof. exact @bearer_supplies. Qed.
Print Assumptions C41_bearer.

Theorem C41_bare : forall before tok after body, unspaced tok -> tok <> [] -> (forall b rest, tok = b ++ rest -> map lower_ascii b <> lit "bearer ") ->
  Forall a_line (before ++ (lit "Authorization: " ++ tok) :: after) -> Forall no_authorization before ->
  supplies (request (before ++ (lit "Authorization: " ++ tok) :: after) body) tok.
Proof. exact @bare_supplies. Qed.
Print Assumptions C41_bare.

(** configuring one of the two tokens protects everything *)
Theorem C41_both_or_none : forall token admin,
  (token <> None \/ admin <> None <-> auth_token (token_config_new token admin) <> None) /\ (token <> None \/ admin <> None <-> admin_token (token_config_new token admin) <> None)
  /\ (forall t, token = Some t -> auth_token (token_config_new token admin) = Some t) /\ (forall a, admin = Some a -> admin_token (token_config_new token admin) = Some a)
  /\ (admin = None -> admin_token (token_config_new token admin) = token) /\ (token = None -> auth_token (token_config_new token admin) = admin).
Proof. exact @both_or_none. Qed.
Print Assumptions C41_both_or_none.

(** a token with white space around it is never supplied *)
Theorem C41_unspaced : forall text tok, supplies text tok -> unspaced tok.
Proof. exact @supplied_unspaced. Qed.
Print Assumptions C41_unspaced.

(** an empty token protects nothing *)
Theorem C41_empty : forall (X : Ext) (H : Host) m p q text admin, unicode X -> In (m, p) eval_endpoints -> asks m p q text -> Forall no_authorization (lines text) ->
  handle_http_request (Some []) admin (inl text) = handle_http_request None None (inl text).
Proof. exact @empty_token. Qed.
Print Assumptions C41_empty.

(** not only headers are searched for a token: the body is, too *)
Theorem C41_body_refuted : exists ls body tok, Forall a_line ls /\ Forall no_authorization ls /\ supplies (request ls body) tok /\ tok <> [].
Proof. exact @token_in_body. Qed.
Print Assumptions C41_body_refuted.

Example C41_nonvacuous :
  let X := example_ext in let H := example_host in
  let text := request [lit "POST /eval HTTP/1.1"; lit "Authorization: Bearer s3"] (lit "{""expression"":""1 + 1""}") in
  unicode X /\ In ("POST", "/eval")%string eval_endpoints /\ asks "POST" "/eval" [] text /\ supplies text (lit "s3") /\ lit "s3" <> lit "s4"
  /\ (exists a, snd (HttpServer.run (handle_http_request (Some (lit "s3")) None (inl text)) (first_world [])) = Some a /\ status_is "200" a)
  /\ (exists a, snd (HttpServer.run (handle_http_request (Some (lit "s4")) None (inl text)) (first_world [])) = Some a /\ status_is "401" a).
Proof.
  intros X H text. split; [apply example_unicode|]. split; [now left|]. split.
  { split; [|split; [constructor|now left]]. eexists (lit "HTTP/1.1"), _. split; [reflexivity|]. split; [repeat constructor|discriminate]. }
  assert (U : unspaced (lit "s3")) by (split; [intros c r [= <- _]; reflexivity|intros r c E; apply (f_equal (@rev N)) in E; rewrite rev_app_distr in E; cbn in E; injection E as <- _; reflexivity]).
  split.
  { apply (bearer_supplies [lit "POST /eval HTTP/1.1"] (lit "s3") []); [exact U|discriminate| |].
    - repeat constructor; try discriminate; intros K; cbn in K; repeat (destruct K as [K|K]; [discriminate|]); exact K.
    - constructor; [|constructor]. intros t (w1 & w2 & E & W & _) v (n & -> & M). destruct w1 as [|c w1]; [|injection E as <- _; inversion W; discriminate]. destruct n as [|c n]; [discriminate|]. injection E as <- _. discriminate. }
  split; [discriminate|]. split; (eexists; split; [vm_compute; reflexivity|apply status_by; vm_compute; reflexivity]).
Qed.

(** * C43 Reading requests
    A connection delivers the bytes in pieces, cut anywhere; [earlier] are the requests
    the thread has read before, into the same buffers. *)

Theorem C43_read : forall (X : Ext) (H : Host) earlier ls body s, unicode X -> Forall a_line ls -> ls <> [] -> valid_str (request ls body) ->
  announces ls (byte_len body) -> byte_len (request ls body) <= one_megabyte ->
  connection s -> sent s = encode (request ls body) -> reads_next earlier s = inl (request ls body).
Proof. exact @request_read. Qed.
Print Assumptions C43_read.

(** a body shorter than announced, then the end: what there is *)
Theorem C43_cut_off : forall (X : Ext) (H : Host) earlier ls body n s, unicode X -> Forall a_line ls -> ls <> [] -> valid_str (request ls body) ->
  announces ls n -> byte_len body <= n <= one_megabyte -> byte_len (request ls body) <= one_megabyte ->
  connection s -> s_failure s = None -> sent s = encode (request ls body) -> reads_next earlier s = inl (request ls body).
Proof. exact @truncated_read. Qed.
Print Assumptions C43_cut_off.

Theorem C43_announced_too_large : forall (X : Ext) (H : Host) earlier ls body n s, unicode X -> Forall a_line ls -> ls <> [] -> valid_str (request ls body) ->
  announces ls n -> one_megabyte < n < 2 ^ 64 -> connection s -> sent s = encode (request ls body) ->
  exists e, reads_next earlier s = inr e.
Proof. exact @announced_too_large. Qed.
Print Assumptions C43_announced_too_large.

Theorem C43_sent_too_large : forall (X : Ext) (H : Host) earlier ls body s, unicode X -> Forall a_line ls -> ls <> [] -> valid_str (request ls body) ->
  announces ls (byte_len body) -> one_megabyte < byte_len (request ls body) -> byte_len body < 2 ^ 64 -> connection s -> sent s = encode (request ls body) ->
  exists e, reads_next earlier s = inr e.
Proof. exact @sent_too_large. Qed.
Print Assumptions C43_sent_too_large.

Theorem C43_limit : forall (X : Ext) (H : Host) earlier s t, connection s -> reads_next earlier s = inl t -> byte_len t <= one_megabyte.
Proof. exact @reads_limited. Qed.
Print Assumptions C43_limit.

Theorem C43_buffers : forall (X : Ext) (H : Host) earlier, (length (buffers_after earlier) <= 4)%nat.
Proof. exact @buffers_bounded. Qed.
Print Assumptions C43_buffers.

(** when bytes follow the announced body, what is read depends on the pieces *)
Theorem C43_pipelining_refuted : exists s1 s2 t1 t2, connection s1 /\ connection s2 /\ sent s1 = sent s2 /\ s_failure s1 = None /\ s_failure s2 = None
  /\ @reads_next example_ext example_host [] s1 = inl t1 /\ @reads_next example_ext example_host [] s2 = inl t2 /\ t1 <> t2.
Proof. exact @pipelined. Qed.
Print Assumptions C43_pipelining_refuted.

Example C43_nonvacuous :
  let X := example_ext in let H := example_host in
  let ls := [lit "POST /eval HTTP/1.1"; lit "CONTENT-Length:  3 "] in let body := [97; 233] in
  let s := mkStream [[80; 79]; encode (skipn 2 (join crlf ls)) ++ [13; 10; 13]; [10; 97; 195]; [169]; [88]] None in
  Forall a_line ls /\ valid_str (request ls body) /\ announces ls (byte_len body) /\ byte_len (request ls body) <= one_megabyte /\ connection s
  /\ sent (mkStream (removelast (s_pieces s)) None) = encode (request ls body) /\ reads_next [s; s] (mkStream (removelast (s_pieces s)) None) = inl (request ls body).
Proof.
  intros X H ls body s. split; [repeat constructor; try discriminate; intros K; cbn in K; repeat (destruct K as [K|K]; [discriminate|]); exact K|].
  split; [apply Forall_forall, forallb_forall; vm_compute; reflexivity|]. split.
  { left. exists [lit "POST /eval HTTP/1.1"], (lit "CONTENT-Length:  3 "), [], (lit "  3 "), (lit "  "), (lit "3"), (lit " "). split; [reflexivity|]. split; [constructor; [apply not_header_by; vm_compute; discriminate|constructor]|].
    split; [exists (lit "CONTENT-Length"); split; reflexivity|]. split; [reflexivity|]. split; [repeat constructor|]. split; [repeat constructor|]. split; [split; [discriminate|reflexivity]|reflexivity]. }
  split; [vm_compute; discriminate|]. split; [repeat constructor; vm_compute; discriminate|]. split; vm_compute; reflexivity.
Qed.

(** * C42 The result cache (what is answered is in P_Asking) *)

Theorem C42_bounded : forall (X : Ext) (H : Host) (token admin : option str) (w0 : world) evs, unicode X -> w_cache w0 = new_cache -> let c := w_cache (sv_world (serving token admin w0 evs)) in
  (length (c_lru c) <= 1000)%nat /\ cs_entries (c_stats c) = N.of_nat (length (c_lru c)).
Proof. exact @cache_bounded. Qed.
Print Assumptions C42_bounded.

(** by itself: what is found under a key is what was put there last *)
Theorem C42_found : forall ops k e, fst (cache_get k (cache_after ops)) = Some e ->
  exists before after, ops = before ++ Put k e :: after /\ ~ In Clear after /\ forall e', ~ In (Put k e') after.
Proof. exact @cache_sound. Qed.
Print Assumptions C42_found.

(** and it is found as long as fewer than 1000 other keys were used since *)
Theorem C42_retained : forall before k e after keys, ~ In Clear after -> (forall e', ~ In (Put k e') after) -> (length keys < 1000)%nat ->
  (forall k', In (Get k') after -> k' = k \/ In k' keys) -> (forall k' e', In (Put k' e') after -> k' = k \/ In k' keys) ->
  fst (cache_get k (cache_after (before ++ Put k e :: after))) = Some e.
Proof. exact @cache_retains. Qed.
Print Assumptions C42_retained.

(** an expression can be taken for another expression with arguments *)
Theorem C42_collision_refuted : exists first second a1 a2,
  answered (example_run [second]) 0 (inl second) a1 /\ status_is "400" a1
  /\ answered (example_run [first; second]) 1 (inl second) a2 /\ status_is "200" a2.
Proof. exact @key_collision. Qed.
Print Assumptions C42_collision_refuted.

(** whether variables are shown can depend on earlier requests *)
Theorem C42_variables_refuted : exists first second a1 a2,
  answered (example_run [second]) 0 (inl second) a1 /\ mentions """variables"":{""a"":5.0}" a1
  /\ answered (example_run [first; second]) 1 (inl second) a2 /\ ~ mentions """variables""" a2.
Proof. exact @variables_lost. Qed.
Print Assumptions C42_variables_refuted.

(** reloading functions does not forget results of the old ones *)
Theorem C42_reload_refuted : exists old new load ev a1 a2,
  answered (example_run [old; load; new; load; ev]) 4 (inl ev) a1 /\ mentions "new" a1 /\ ~ mentions "old" a1
  /\ answered (example_run [old; load; ev; new; load; ev]) 5 (inl ev) a2 /\ mentions "old" a2 /\ ~ mentions "new" a2.
Proof. exact @stale_function. Qed.
Print Assumptions C42_reload_refuted.

(** * C44 Request numbers and statistics *)

Theorem C44_distinct : forall (X : Ext) (H : Host) (token admin : option str) w evs i k n, w_processed w < 2 ^ 64 -> w_micros w < 2 ^ 64 -> w_counter w + arrivals evs < 2 ^ 64 ->
  evaluated (serving token admin w evs) i n -> evaluated (serving token admin w evs) k n -> i = k.
Proof. exact @ids_distinct. Qed.
Print Assumptions C44_distinct.

Theorem C44_range : forall (X : Ext) (H : Host) (token admin : option str) w evs i n, w_processed w < 2 ^ 64 -> w_micros w < 2 ^ 64 -> w_counter w + arrivals evs < 2 ^ 64 ->
  evaluated (serving token admin w evs) i n -> w_counter w <= n < w_counter w + arrivals evs.
Proof. exact @ids_range. Qed.
Print Assumptions C44_range.

(** when all is answered: as many processed as answered, and the sum of their times *)
Theorem C44_statistics : forall (X : Ext) (H : Host) (token admin : option str) w evs, started w -> arrivals evs < 2 ^ 64 -> all_done (serving token admin w evs) ->
  exists l, NoDup (map fst l) /\ (forall i n, In (i, n) l <-> evaluated (serving token admin w evs) i n)
    /\ w_processed (sv_world (serving token admin w evs)) = N.of_nat (length l)
    /\ w_micros (sv_world (serving token admin w evs)) = u64_wrap (total (map (fun d => h_micros (snd d)) l)).
Proof. exact @statistics. Qed.
Print Assumptions C44_statistics.

Theorem C44_statistics_meanwhile : forall (X : Ext) (H : Host) (token admin : option str) w evs l, started w -> arrivals evs < 2 ^ 64 -> NoDup l -> (forall i, In i l -> exists n, evaluated (serving token admin w evs) i n) ->
  N.of_nat (length l) <= w_processed (sv_world (serving token admin w evs)) <= w_counter (sv_world (serving token admin w evs)).
Proof. exact @statistics_always. Qed.
Print Assumptions C44_statistics_meanwhile.

Theorem C44_health : forall (X : Ext) (H : Host) (token admin : option str) q text w, asks "GET" "/health" q text -> run (handle_http_request token admin (inl text)) w = (w, Some (http_response 200 json_type (health_json (w_processed w) (w_micros w) (c_stats (w_cache w))))).
Proof. exact @health_alone. Qed.
Print Assumptions C44_health.

Example C44_nonvacuous :
  let X := example_ext in let H := example_host in
  let evs := [Arrive (inl with_arguments); Arrive (inl with_arguments)] ++ flat_map (fun _ => [Move 1; Move 0]) (seq 0 8) in
  let s := serving None None (first_world []) evs in
  started (first_world []) /\ arrivals evs = 2 /\ evaluated s 0 1 /\ evaluated s 1 0 /\ all_done s /\ w_processed (sv_world s) = 2.
Proof.
  intros X H evs s. split; [repeat split|]. split; [reflexivity|].
  assert (V : is_eval (inl with_arguments)). { do 2 eexists. exists (tl (lines with_arguments)), "POST"%string, "/eval"%string, [], (lit "HTTP/1.1"), []. split; [reflexivity|]. split; [vm_compute; reflexivity|]. split; [vm_compute; reflexivity|]. split; [now left|now left]. }
  assert (E : forall i n, (exists a, nth_error (sv_jobs s) i = Some (mkJob (inl with_arguments) (Reply (Some a))) /\ exists front ds, a = front ++ lit """request_id"":" ++ ds ++ lit "}" /\ digits ds /\ digits_value ds = n) -> evaluated s i n).
  { intros i n (a & J & K). exists (inl with_arguments), a. split; [exact V|]. split; [exact J|exact K]. }
  assert (A : exists a0 a1, sv_jobs s = [mkJob (inl with_arguments) (Reply (Some a0)); mkJob (inl with_arguments) (Reply (Some a1))] /\ (exists f, a0 = f ++ lit """request_id"":" ++ [49] ++ lit "}") /\ (exists f, a1 = f ++ lit """request_id"":" ++ [48] ++ lit "}")).
  { do 2 eexists. split; [vm_compute; reflexivity|]. split; match goal with |- exists f, ?a = _ => exists (firstn (length a - 15) a) end; vm_compute; reflexivity. }
  destruct A as (a0 & a1 & J & (f0 & F0) & (f1 & F1)).
  split. { apply E. exists a0. rewrite J. split; [reflexivity|]. exists f0, [49]. split; [exact F0|]. split; [split; [discriminate|reflexivity]|reflexivity]. }
  split. { apply E. exists a1. rewrite J. split; [reflexivity|]. exists f1, [48]. split; [exact F1|]. split; [split; [discriminate|reflexivity]|reflexivity]. }
  split; [|vm_compute; reflexivity]. intros i r p K. unfold job_at in K. rewrite J in K. apply nth_error_In in K. destruct K as [K|[K|[]]]; apply (f_equal jb_prog) in K; cbn [jb_prog] in K; eexists; symmetry; exact K.
Qed.

(** * C52 What a request may change, and what is answered when there is nothing to do
    [within G p]: every step of [p], from whatever the other threads left, changes what they share as [G] says *)

(** a request does no more than its program *)
Theorem C52_job : forall (X : Ext) (H : Host) (token admin : option str) (G : world -> world -> Prop) w evs i r p, (forall w, G w w) -> within G (handle_http_request token admin r) ->
  job_at (serving token admin w evs) i r p ->
  G (sv_world (serving token admin w evs)) (sv_world (sv_step token admin (serving token admin w evs) (Move i))).
Proof. exact @job_within. Qed.
Print Assumptions C52_job.

(** evaluating changes neither functions nor files *)
Theorem C52_evaluation : forall (X : Ext) (H : Host) m p q text token admin, In (m, p) eval_endpoints -> asks m p q text -> within keeps_functions (handle_http_request token admin (inl text)).
Proof. exact @keeps_eval. Qed.
Print Assumptions C52_evaluation.

Theorem C52_reading : forall (X : Ext) (H : Host) m p q text token admin, In (m, p) (("GET", "/list-js")%string :: public_endpoints) -> asks m p q text -> within unchanged (handle_http_request token admin (inl text)).
Proof. exact @public_unchanged. Qed.
Print Assumptions C52_reading.

Theorem C52_files : forall (X : Ext) (H : Host) m p q text token admin, In (m, p) [("POST", "/upload-js"); ("PUT", "/update-js"); ("DELETE", "/delete-js")]%string -> asks m p q text ->
  exists path, within (changes_file path) (handle_http_request token admin (inl text)).
Proof. exact @files_changed. Qed.
Print Assumptions C52_files.

Theorem C52_reload : forall (X : Ext) (H : Host) q text token admin, asks "POST" "/reload-hooks" q text -> within changes_functions (handle_http_request token admin (inl text)).
Proof. exact @reload_changes. Qed.
Print Assumptions C52_reload.

Theorem C52_clear : forall (X : Ext) (H : Host) q text token admin, asks "DELETE" "/cache" q text -> within changes_cache (handle_http_request token admin (inl text)).
Proof. exact @clear_changes. Qed.
Print Assumptions C52_clear.

Theorem C52_not_found : forall (X : Ext) (H : Host) (token admin : option str) text m p q v more, first_words text (m :: (p ++ q) :: v :: more) -> q = [] \/ hd 0 q = 63 -> ~ In 63 p ->
  (forall a b, In (a, b) all_endpoints -> ~ (m = lit a /\ p = lit b)) -> m <> lit "OPTIONS" ->
  exists answer, handle_http_request token admin (inl text) = Reply (Some answer) /\ status_is "404" answer.
Proof. exact @not_found. Qed.
Print Assumptions C52_not_found.

Theorem C52_short : forall (X : Ext) (H : Host) (token admin : option str) text ws, first_words text ws -> (length ws < 3)%nat -> exists answer, handle_http_request token admin (inl text) = Reply (Some answer) /\ status_is "400" answer.
Proof. exact @short_request. Qed.
Print Assumptions C52_short.

Theorem C52_unread : forall (X : Ext) (H : Host) (token admin : option str) e, exists answer, handle_http_request token admin (inr e) = Reply (Some answer) /\ status_is "400" answer.
Proof. exact @unread_request. Qed.
Print Assumptions C52_unread.

(** OPTIONS is answered for every path, with any token *)
Theorem C52_options : forall (X : Ext) (H : Host) (token admin : option str) text target v more, first_words text (lit "OPTIONS" :: target :: v :: more) ->
  exists answer, handle_http_request token admin (inl text) = Reply (Some answer) /\ status_is "200" answer.
Proof. exact @any_options. Qed.
Print Assumptions C52_options.

Example C52_nonvacuous :
  let X := example_ext in let H := example_host in
  let text := to "PATCH /eval?x HTTP/1.1" "" in
  first_words text [lit "PATCH"; lit "/eval" ++ lit "?x"; lit "HTTP/1.1"] /\ (forall a b, In (a, b) all_endpoints -> ~ (lit "PATCH" = lit a /\ lit "/eval" = lit b))
  /\ (exists a, snd (HttpServer.run (handle_http_request None None (inl text)) (first_world [])) = Some a /\ status_is "404" a)
  /\ asks "DELETE" "/cache" [] (to "DELETE /cache HTTP/1.1" "")
  /\ (let w := sv_world (example_run [with_arguments]) in length (c_lru (w_cache w)) = 1%nat
       /\ c_lru (w_cache (fst (HttpServer.run (handle_http_request None None (inl (to "DELETE /cache HTTP/1.1" ""))) w))) = []).
Proof.
  intros X H text. split; [eexists _, _; split; vm_compute; reflexivity|]. split; [intros a b I [E _]; cbn in I; repeat (destruct I as [I|I]; [injection I as <- <-; discriminate|]); exact I|].
  split; [eexists; split; [vm_compute; reflexivity|apply status_by; vm_compute; reflexivity]|]. split.
  { split; [|split; [constructor|now left]]. eexists (lit "HTTP/1.1"), _. split; [reflexivity|]. split; [repeat constructor|discriminate]. }
  split; vm_compute; reflexivity.
Qed.

(** * C54 Every answer is a well-formed HTTP response with the right Content-Length *)

Theorem C54_framed : forall (X : Ext) (H : Host) (token admin : option str) w evs i r answer, answered (serving token admin w evs) i r answer -> framed answer.
Proof. exact @all_framed. Qed.
Print Assumptions C54_framed.

Example C54_nonvacuous : exists answer, answered (example_run [with_variables]) 0 (inl with_variables) answer.
Proof. eexists. apply (example_answered [with_variables] 0 with_variables). vm_compute. reflexivity. Qed.
