(** Requests to evaluate: what they ask for, what they are answered. *)
From Coq Require Import String List ZArith NArith Bool Lia Permutation.
From Verif Require Import Base F64 F64Text Syntax Utf8 Ext Json Registry Methods Api Lines Host HttpRead HttpAuth HttpCache HttpServer HttpThreads Spec Spec_syntax Spec_text Spec_json Spec_http Spec_command Spec_js
  Base_proofs HttpServer_proofs HttpRoutes_proofs HttpExamples_proofs Query_proofs Reply_proofs.
From Verif Require Import Spec_json Spec_eval.
Import ListNotations.
Local Open Scope N_scope.

(** * C42 The result cache
    [wants text t]: the request text asks for [t];
    [reply_to u reg t answer]: [answer] is what evaluating [t] gives when the functions are [reg];
    only with [u] may variables that were asked for be missing.
    The jobs of the server's threads interleave in any way ([evs]). *)

Theorem C42_answer : forall (X : Ext) (H : Host) (token admin : option str) (w0 : world) evs i text t answer, unicode X -> orders -> w_cache w0 = new_cache ->
  (forall text t, In (Arrive (inl text)) evs -> wants text t -> t_arguments t = None -> unmistakable (t_expression t)) ->
  authorised token text -> wants text t -> answered (serving token admin w0 evs) i (inl text) answer ->
  exists reg, registry_during token admin w0 evs reg /\ reply_to (asked_without evs t) reg t answer.
Proof. exact @replied. Qed.
Print Assumptions C42_answer.

(** as long as nobody reloads the functions, answers are those of the functions there are *)
Theorem C42_answer_same_functions : forall (X : Ext) (H : Host) (token admin : option str) (w0 : world) evs i text t answer, unicode X -> orders -> w_cache w0 = new_cache ->
  (forall text, In (Arrive (inl text)) evs -> ~ is_reload text) ->
  (forall text t, In (Arrive (inl text)) evs -> wants text t -> t_arguments t = None -> unmistakable (t_expression t)) ->
  authorised token text -> wants text t -> answered (serving token admin w0 evs) i (inl text) answer ->
  reply_to (asked_without evs t) (w_registry w0) t answer.
Proof. exact @replied_fixed. Qed.
Print Assumptions C42_answer_same_functions.

Example C42_nonvacuous :
  let X := example_ext in let H := example_host in
  let evs := one_by_one 0 [with_arguments; with_arguments] in
  let s := serving None None (first_world []) evs in
  unicode X /\ orders /\ w_cache (first_world []) = new_cache
  /\ (forall text, In (Arrive (inl text)) evs -> ~ is_reload text)
  /\ (forall text t, In (Arrive (inl text)) evs -> wants text t -> t_arguments t = None -> unmistakable (t_expression t))
  /\ wants with_arguments arguing_task /\ t_expression arguing_task = lit "1" /\ t_arguments arguing_task = Some []
  /\ (exists answer, answered s 1 (inl with_arguments) answer) /\ cs_hits (c_stats (w_cache (sv_world s))) = 1.
Proof.
  intros X H evs s. split; [apply example_unicode|]. split; [apply example_orders|]. split; [reflexivity|].
  split. { intros text K (l & ls & q & v & more & L & W & _). apply twice in K. subst text. unfold with_arguments in L. vm_compute in L. injection L as <- _. vm_compute in W. discriminate. }
  split. { intros text t K W A. apply twice in K. subst text. destruct (@wants_one example_host _ _ _ arguing_wants W) as (_ & _ & _ & K). rewrite A in K. contradiction. }
  split; [apply arguing_wants|]. split; [reflexivity|]. split; [reflexivity|].
  split; [eexists; apply (example_answered [with_arguments; with_arguments] 1 with_arguments); vm_compute; reflexivity|vm_compute; reflexivity].
Qed.

(** * C53 What a request asks for *)

(** it asks for one thing *)
Theorem C53_one : forall (H : Host) text t t', wants text t -> wants text t' -> alike t t'.
Proof. exact @wants_one. Qed.
Print Assumptions C53_one.

(** whatever is sent in a query, escaped as in any URL, arrives *)
Theorem C53_query : forall text kvs ps v more t, first_words text (lit "GET" :: (lit "/eval?" ++ join (lit "&") ps) :: v :: more) -> Forall2 parameter kvs ps ->
  last_of expression_keys kvs (t_expression t) -> t_expression t <> [] -> query_arguments kvs (t_arguments t) -> (t_structured t = true <-> last_value kvs (lit "output_json") (lit "true")) -> query_included kvs (t_included t) -> wants text t.
Proof. exact @query_wanted. Qed.
Print Assumptions C53_query.

(** any layout of a JSON object is read *)
Theorem C53_body : forall (X : Ext) q v more text w1 body w2 kvs e t, first_words text (lit "POST" :: (lit "/eval" ++ q) :: v :: more) -> q = [] \/ hd 0 q = 63 -> body_of text (w1 ++ body ++ w2) -> blank w1 -> blank w2 ->
  json_text (JObj kvs) body -> document (JObj kvs) -> (nesting (JObj kvs) <= 127)%nat -> mget (lit "expression") kvs = Some e -> expression_json e (t_expression t) -> arguments_json (mget (lit "arguments") kvs) (t_arguments t) ->
  structured_json (mget (lit "output_json") kvs) (t_structured t) -> included_json (mget (lit "include_variables") kvs) (t_included t) -> wants text t.
Proof. exact @body_wanted. Qed.
Print Assumptions C53_body.

(** a request that asks for nothing is refused, and nothing changes *)
Theorem C53_refused : forall (X : Ext) (H : Host) token admin m q text w, unicode X -> In m ["GET"; "POST"]%string -> asks m "/eval" q text -> authorised token text -> (forall t, ~ wants text t) ->
  exists answer kvs, serves token admin text w w answer /\ answers "400" answer kvs /\ has_entry kvs "success" (JBool false).
Proof. exact @eval_refused. Qed.
Print Assumptions C53_refused.

(** queries as forms send them are not understood *)
Theorem C53_form_refuted : exists text t, first_words text [lit "GET"; lit "/eval?expr=" ++ as_form (lit "'a b'"); lit "HTTP/1.1"] /\ wants text t /\ t_expression t <> lit "'a b'".
Proof. exact form_plus. Qed.
Print Assumptions C53_form_refuted.

(** some texts arrive as null *)
Theorem C53_text_refuted : exists text t, first_words text [lit "GET"; lit "/eval?expr=:name&name=Nan"; lit "HTTP/1.1"] /\ wants text t /\ t_arguments t = Some [(lit "name", JNull)].
Proof. exact text_lost. Qed.
Print Assumptions C53_text_refuted.

(** "1+1" with a variable "ñ" and the variables asked for *)
Example C53_nonvacuous :
  let kvs := [(lit "expr", lit "1 + :x"); (lit "x", [241]); (lit "include_variables", lit "x, :y")] in
  let ps := [lit "expr=1%20+%20:x"; lit "x=%C3%b1"; lit "include_variables=x,%20:y"] in
  let t := mkTask (lit "1 + :x") (Some [(lit "x", JStr [241])]) false (only [lit "x"; lit "y"]) in
  let text := request [lit "GET /eval?" ++ join (lit "&") ps ++ lit " HTTP/1.1"] [] in
  first_words text [lit "GET"; lit "/eval?" ++ join (lit "&") ps; lit "HTTP/1.1"] /\ Forall2 parameter kvs ps /\ last_of expression_keys kvs (t_expression t) /\ query_arguments kvs (t_arguments t) /\ query_included kvs (t_included t) /\ wants text t.
Proof.
  intros kvs ps t text. split; [eexists; eexists; split; vm_compute; reflexivity|].
  assert (Hx : forall v raw, (forall bs, bs = encode v -> escaped bs raw) -> escaped (encode v) raw) by auto.
  split. { constructor; [|constructor; [|constructor; [|constructor]]]; (eexists; split; [reflexivity|]; split; [cbn; intuition discriminate|]; split; [cbn; intuition discriminate|]; split; [repeat constructor; cbn; lia|]).
    - apply Hx. intros bs ->. cbn. apply escaped_kept; [lia|lia|lia|]. apply (escaped_byte 50 48 2 0); [apply (decimal_digit 2); lia|apply (decimal_digit 0); lia|]. apply escaped_kept; [lia|lia|lia|]. apply (escaped_byte 50 48 2 0); [apply (decimal_digit 2); lia|apply (decimal_digit 0); lia|]. do 2 (apply escaped_kept; [lia|lia|lia|]). constructor.
    - apply Hx. intros bs ->. cbn. apply (escaped_byte 67 51 12 3); [apply (large_digit 2); lia|apply (decimal_digit 3); lia|]. apply (escaped_byte 98 49 11 1); [apply (small_digit 1); lia|apply (decimal_digit 1); lia|]. constructor.
    - apply Hx. intros bs ->. cbn. do 2 (apply escaped_kept; [lia|lia|lia|]). apply (escaped_byte 50 48 2 0); [apply (decimal_digit 2); lia|apply (decimal_digit 0); lia|]. do 2 (apply escaped_kept; [lia|lia|lia|]). constructor. }
  split. { exists [], (lit "expr"), [(lit "x", [241]); (lit "include_variables", lit "x, :y")]. split; [reflexivity|]. split; [now left|]. repeat constructor; cbn; intuition discriminate. }
  assert (W : wants text t) by (eapply wants_by_get; [vm_compute; reflexivity|vm_compute; reflexivity|vm_compute; reflexivity|vm_compute; reflexivity]).
  assert (P : params_in ps kvs) by (apply params_iff; vm_compute; reflexivity).
  assert (S : sums_up kvs (fold_left take kvs no_query)) by apply summed.
  split; [|split; [exact (su_include _ _ S)|exact W]].
  split; [discriminate|]. split; [repeat constructor; cbn; intuition|]. intros k j. pose proof (su_variables _ _ S k j) as V. rewrite <- V. change (q_variables (fold_left take kvs no_query)) with [(lit "x", JStr [241])]. cbn [mget In t_arguments t].
  split; [intros [[= <- <-]|[]]; reflexivity|]. destruct (str_eqb k (lit "x")) eqn:E; [|discriminate]. apply str_eqb_eq in E as ->. intros [= <-]. now left.
Qed.
Example C53_refused_nonvacuous : let text := to "GET /eval?x=1 HTTP/1.1" "" in asks "GET" "/eval" (lit "?x=1") text /\ forall t, ~ wants text t.
Proof.
  intros text. split; [split; [exists (lit "HTTP/1.1"); eexists; split; [vm_compute; reflexivity|split; [repeat constructor|discriminate]]|split; [repeat constructor|now right]]|].
  intros t W. destruct (@wants_eval example_host _ _ W) as (req & E & _). revert E. generalize (eq_refl text). generalize text at 1 3. intros text' Et E. destruct E as [text' l ls q v more req L Wd Q P|text' l ls q v more L Wd N1]; subst text'; vm_compute in L; injection L as <- _; vm_compute in Wd; [discriminate|]. injection Wd as <- _ _. vm_compute in N1. now apply N1.
Qed.

(** * C55 The variables of an answer *)

(** when all who ask for an expression ask for its variables, the answer has just those that are new or changed *)
Theorem C55_exactly : forall (X : Ext) (H : Host) (token admin : option str) (w0 : world) evs i text t answer, unicode X -> orders -> w_cache w0 = new_cache ->
  (forall text t, In (Arrive (inl text)) evs -> wants text t -> t_arguments t = None -> unmistakable (t_expression t)) ->
  (forall text' t', In (Arrive (inl text')) evs -> wants text' t' -> t_expression t' = t_expression t -> t_included t' <> nothing) ->
  authorised token text -> wants text t -> answered (serving token admin w0 evs) i (inl text) answer ->
  exists reg, registry_during token admin w0 evs reg /\ reply_to False reg t answer.
Proof. exact @replied_variables. Qed.
Print Assumptions C55_exactly.

(** who does not ask gets none *)
Theorem C55_none : forall (X : Ext) (H : Host) u reg t answer, reply_to u reg t answer -> t_included t = nothing -> exists kvs status, answers status answer kvs /\ mget (lit "variables") kvs = None.
Proof. exact @reply_none. Qed.
Print Assumptions C55_none.

Example C55_nonvacuous :
  let X := example_ext in let H := example_host in
  let evs := one_by_one 0 [showing; showing] in
  let s := serving None None (first_world []) evs in
  (forall text t, In (Arrive (inl text)) evs -> wants text t -> t_arguments t = None -> unmistakable (t_expression t))
  /\ (forall text' t', In (Arrive (inl text')) evs -> wants text' t' -> t_expression t' = t_expression showing_task -> t_included t' <> nothing)
  /\ wants showing showing_task /\ t_expression showing_task = lit ":a := 5; :a + 1" /\ t_included showing_task = everything
  /\ exists answer, answered s 1 (inl showing) answer /\ mentions """variables"":{""a"":5.0}" answer.
Proof.
  intros X H evs s.
  assert (A : forall text t, In (Arrive (inl text)) evs -> wants text t -> alike showing_task t).
  { intros text t K W. apply twice in K. subst text. exact (@wants_one example_host _ _ _ showing_wants W). }
  split. { intros text t K W _. destruct (A _ _ K W) as (<- & _). intros a b c E. assert (I0 : In 124 (lit ":a := 5; :a + 1")) by (cbn [showing_task t_expression] in E; rewrite E, in_app_iff; right; now left). cbn in I0. intuition discriminate. }
  split. { intros text t K W _. destruct (A _ _ K W) as (_ & _ & <- & _). discriminate. }
  split; [apply showing_wants|]. split; [reflexivity|]. split; [reflexivity|]. eexists. split; [apply (example_answered [showing; showing] 1 showing); vm_compute; reflexivity|apply mentions_by; vm_compute; reflexivity].
Qed.
