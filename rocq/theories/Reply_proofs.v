(** What a request to evaluate is answered: lemmas. *)
From Coq Require Import String List ZArith NArith Bool Lia Permutation.
From Verif Require Import Base Struct F64 F64Text Utf8 Syntax Ext Json Lines Host Registry Methods Api HttpRead HttpAuth HttpCache HttpServer HttpThreads Spec Spec_syntax Spec_text Spec_json Spec_http Spec_command Spec_js Spec_eval.
From Verif Require Import Base_proofs Value_proofs Utf8_proofs Text_proofs Display_proofs HigherOrder_proofs HttpRead_proofs HttpAuth_proofs HttpCache_proofs Command_proofs Example_proofs Layout_proofs HttpExamples_proofs Upload_proofs Query_proofs.
From Verif Require Import Spec_eval.
From Verif Require StructRead_proofs.
Import ListNotations.
Local Open Scope N_scope.
Local Opaque json_parse struct_parse.

(** ** Values *)
Lemma all_simple : forall vs, Forall (fun v => simple_as v (format_simple_output v)) vs -> Forall2 simple_as vs (map format_simple_output vs).
Proof. intros vs K. induction K; cbn [map]; now constructor. Qed.
Lemma number_simple : forall x, (is_finite x = true /\ json_of_f64 x = JNum (JFlt x)) \/ (is_finite x = false /\ json_of_f64 x = JNull).
Proof. intros x. unfold json_of_f64. destruct x as [s|s| |s m e]; cbn; auto. Qed.
Lemma simple_is : forall v, simple_as v (format_simple_output v).
Proof.
  intros v. induction v as [n|xs IH|b|s| |n|t|s] using value_ind'; cbn [format_simple_output].
  - destruct (number_simple n) as [[F ->]|[F ->]]; now constructor.
  - constructor. now apply all_simple.
  - constructor.
  - constructor.
  - constructor.
  - destruct (number_simple n) as [[F ->]|[F ->]]; now constructor.
  - constructor. now apply written_unique.
  - destruct (json_parse s) as [j|] eqn:J; [now apply simple_object|now apply simple_unread].
Qed.
Lemma simple_unique : forall v j, simple_as v j -> j = format_simple_output v.
Proof.
  intros v. induction v as [n|xs IH|b|s| |n|t|s] using value_ind'; intros j K; cbn [format_simple_output]; inversion K; subst; try reflexivity.
  - destruct (number_simple n) as [[F ->]|[F ->]]; congruence.
  - destruct (number_simple n) as [[F ->]|[F ->]]; congruence.
  - f_equal. match goal with F : Forall2 _ xs _ |- _ => revert F end. clear K. revert js. induction IH as [|x xs Hx Hxs IHl]; intros js F; inversion F; subst; cbn [map]; [reflexivity|]. f_equal; [now apply Hx|now apply IHl].
  - destruct (number_simple n) as [[F ->]|[F ->]]; congruence.
  - destruct (number_simple n) as [[F ->]|[F ->]]; congruence.
  - f_equal. now apply written_unique.
  - match goal with E : json_parse s = _ |- _ => now rewrite E end.
  - match goal with E : json_parse s = _ |- _ => now rewrite E end.
Qed.
Lemma same_iff : forall x y, value_same x y = true <-> equal_value x y.
Proof.
  intros x. induction x as [n|xs IH|b|s| |n|t|s] using value_ind'; intros y; destruct y as [n'|ys|b'|s'| |n'|t'|s']; cbn [value_same]; try (split; [discriminate|intros K; now inversion K]).
  - rewrite f_eqb_rel. split; [now constructor|intros K; now inversion K].
  - transitivity (Forall2 equal_value xs ys); [|split; [now constructor|intros K; now inversion K]].
    revert ys. induction IH as [|x xs Hx Hxs IHl]; intros [|y ys]; try (split; [discriminate|intros K; now inversion K]); [split; [constructor|reflexivity]|].
    rewrite andb_true_iff, Hx, IHl. split; [intros [? ?]; now constructor|intros K; now inversion K].
  - rewrite eqb_true_iff. split; [intros ->; constructor|intros K; now inversion K].
  - rewrite str_eqb_eq. split; [intros ->; constructor|intros K; now inversion K].
  - split; [constructor|reflexivity].
  - rewrite f_eqb_rel. split; [now constructor|intros K; now inversion K].
  - rewrite Z.eqb_eq. split; [intros ->; constructor|intros K; now inversion K].
  - rewrite str_eqb_eq. split; [intros ->; constructor|intros K; now inversion K].
Qed.

Section Answers.
  Context {X : Ext} {H : Host}.
  Lemma wanted_iff : forall i, wants_variables i = false <-> kind_of i = nothing.
  Proof. intros [[| |ns]|]; cbn; split; congruence. Qed.
  Lemma shown_iff : forall req t vars k x, t_included t = kind_of (r_include req) -> shown (r_include req) vars k x = true <-> to_show t vars k x.
  Proof.
    intros req t vars k x E. unfold shown, to_show. rewrite E, andb_true_iff, negb_true_iff.
    assert (A : match mget k vars with Some v0 => value_same v0 x | None => false end = false <-> forall x0, mget k vars = Some x0 -> ~ equal_value x0 x).
    { destruct (mget k vars) as [v0|]; [|split; [discriminate|reflexivity]]. split; [intros K x0 [= <-] K'; apply same_iff in K'; congruence|].
      intros K. destruct (value_same v0 x) eqn:S0; [|reflexivity]. exfalso. apply (K v0 eq_refl). now apply same_iff. }
    rewrite A. assert (B : match r_include req with Some IncAll => true | Some (IncSelected names) => existsb (str_eqb k) names | _ => false end = true
      <-> match kind_of (r_include req) with everything => True | nothing => False | only names => In k names end).
    { destruct (r_include req) as [[| |ns]|]; cbn [kind_of included_of]; try (split; [discriminate|contradiction]); [split; auto|].
      rewrite existsb_exists. split; [intros (y & I0 & E0); apply str_eqb_eq in E0; now subst|intros I0; exists k; split; [assumption|apply str_eqb_refl]]. }
    rewrite B. tauto.
  Qed.
  Lemma vars_from : forall req t id, orders -> alike (task_of req) t -> variables_from (t_arguments t) (request_vars id (r_arguments req)).
  Proof.
    intros req t id O (_ & _ & _ & A). cbn [task_of t_arguments] in A. unfold variables_from, request_vars. destruct (r_arguments req) as [kvs|], (t_arguments t) as [kvs'|]; try contradiction; [|reflexivity].
    exists (h_order id kvs). split; [|apply vars_bound]. transitivity kvs; [now symmetry|apply O].
  Qed.
  Lemma typed_iff : forall v, snd (structured v) = lit (kind_name v) /\ ((forall d, v <> VDateTime d) /\ simple_as v (fst (structured v)) \/ exists d, v = VDateTime d /\ stored_as v (fst (structured v))).
  Proof.
    intros v. destruct v as [n|xs|b|s| |n|d|s]; cbn [structured fst snd kind_name]; (split; [reflexivity|]);
      try (left; split; [discriminate|exact (simple_is _)]).
    right. exists d. split; [reflexivity|]. unfold json_of_i64. destruct (Z.leb_spec 0 d); now constructor.
  Qed.
  Lemma result_is : forall req t id v, alike (task_of req) t -> result_as t v (result_json req id v).
  Proof.
    intros req t id v (_ & A & _). cbn [task_of t_structured] in A. unfold result_as, result_json. rewrite <- A. destruct (r_output_json req) as [[|]|]; cbn [flag_of]; try apply simple_is.
    destruct (typed_iff v) as [E K]. unfold format_structured_output. destruct (structured v) as [r ty]. cbn [fst snd] in E, K. subst ty. exists (f_fixed 2 (h_ms id)), r. split; [reflexivity|exact K].
  Qed.
  Lemma entry_is : forall (u u' : Prop) req t vars vs id, orders -> alike (task_of req) t -> (u -> u') -> variables_of u req vars vs ->
    variables_entry u' t vars match vs with Some kvs => Some (JObj (h_order id kvs)) | None => None end.
  Proof.
    intros u u' req t vars vs id O (E & _ & I0 & _) Hu V. cbn [task_of t_expression t_included] in E, I0. unfold variables_of, variables_entry in *. rewrite <- E. destruct vs as [kvs|].
    - destruct V as (N0 & Nd & Hs & v & ctx & Ev & V). exists (h_order id kvs). split; [reflexivity|]. pose proof (O id kvs) as P. split; [intros K; rewrite K in P; apply Permutation_sym, Permutation_nil in P; congruence|].
      split; [exact (Permutation_NoDup (Permutation_map fst P) Nd)|]. split; [exact Hs|]. exists v, ctx. split; [exact Ev|]. intros k jx. split.
      + intros K. apply (Permutation_in _ (Permutation_sym P)) in K. apply V in K as (x & G & S0 & ->). exists x. split; [exact G|]. split; [now apply (shown_iff req)|apply simple_is].
      + intros (x & G & S0 & J). apply (Permutation_in _ P). apply V. exists x. split; [exact G|]. split; [now apply (shown_iff req t)|now apply simple_unique].
    - destruct V as [V|[V|(v & ctx & Ev & V)]]; [left; auto|right; now left|right; right]. exists v, ctx. split; [exact Ev|]. intros k x G S0. apply V in G. apply (shown_iff req) in S0; [congruence|now symmetry].
  Qed.
  Lemma answer_reply : forall (u u' : Prop) reg req id t answer, orders -> alike (task_of req) t -> (u -> u') -> answer_of u reg req id answer -> reply_to u' reg t answer.
  Proof.
    intros u u' reg req id t answer O A Hu K. pose proof (vars_from req t id O A) as V. pose proof A as (E & _). cbn [task_of t_expression] in E. destruct K as [v vs G Vs|e G].
    - eapply computed with (v := v) (j := result_json req id v); [exact V|rewrite <- E; exact G|unfold response_json; now apply reply_answers|reflexivity|reflexivity|now apply result_is| |].
      + destruct vs; reflexivity.
      + pose proof (entry_is u u' req t (request_vars id (r_arguments req)) vs id O A Hu Vs) as K. destruct vs; exact K.
    - eapply failed; [exact V|rewrite <- E; exact G|unfold response_json; now apply reply_answers|reflexivity..].
  Qed.
  Lemma unasked_asked : forall evs req t, alike (task_of req) t -> unasked_in evs req -> asked_without evs t.
  Proof.
    intros evs req t (E & _) (text & req' & I0 & Ev & Ee & W). exists text, (task_of req'). split; [exact I0|]. split; [now apply eval_wants|]. cbn [task_of t_expression t_included] in *. split; [congruence|now apply wanted_iff].
  Qed.
  Context (token admin : option str) (w0 : world).
  Let asks_safely (evs : list event) : Prop := forall text t, In (Arrive (inl text)) evs -> wants text t -> t_arguments t = None -> unmistakable (t_expression t).
  Lemma safely : forall evs, asks_safely evs -> forall text req, In (Arrive (inl text)) evs -> eval_of text req -> r_arguments req = None -> unmistakable (r_expression req).
  Proof. intros evs K text req I0 E A. exact (K text (task_of req) I0 (eval_wants _ _ E) A). Qed.
  Lemma replied : forall evs i text t answer, unicode X -> orders -> w_cache w0 = new_cache -> asks_safely evs -> authorised token text -> wants text t -> answered (serving token admin w0 evs) i (inl text) answer ->
    exists reg, registry_during token admin w0 evs reg /\ reply_to (asked_without evs t) reg t answer.
  Proof.
    intros evs i text t answer U O C0 D Au W An. destruct (wants_eval text t W) as (req & Ev & A). destruct (cached_answer token admin w0 evs i text req answer U O C0 (safely evs D) Au Ev An) as (id & reg & Du & K).
    exists reg. split; [exact Du|]. exact (answer_reply _ _ reg req id t answer O A (unasked_asked evs req t A) K).
  Qed.
  Lemma replied_fixed : forall evs i text t answer, unicode X -> orders -> w_cache w0 = new_cache -> (forall text, In (Arrive (inl text)) evs -> ~ is_reload text) -> asks_safely evs ->
    authorised token text -> wants text t -> answered (serving token admin w0 evs) i (inl text) answer -> reply_to (asked_without evs t) (w_registry w0) t answer.
  Proof.
    intros evs i text t answer U O C0 Nr D Au W An. destruct (wants_eval text t W) as (req & Ev & A). destruct (cached_answer_fixed token admin w0 evs i text req answer U O C0 Nr (safely evs D) Au Ev An) as (id & K).
    exact (answer_reply _ _ _ req id t answer O A (unasked_asked evs req t A) K).
  Qed.
  (** as long as all who ask for an expression ask for its variables, all get them *)
  Lemma replied_variables : forall evs i text t answer, unicode X -> orders -> w_cache w0 = new_cache -> asks_safely evs ->
    (forall text' t', In (Arrive (inl text')) evs -> wants text' t' -> t_expression t' = t_expression t -> t_included t' <> nothing) ->
    authorised token text -> wants text t -> answered (serving token admin w0 evs) i (inl text) answer ->
    exists reg, registry_during token admin w0 evs reg /\ reply_to False reg t answer.
  Proof.
    intros evs i text t answer U O C0 D V Au W An. destruct (replied evs i text t answer U O C0 D Au W An) as (reg & Du & K). exists reg. split; [exact Du|].
    assert (N0 : asked_without evs t -> False) by (intros (text' & t' & I0 & W' & E & N0); exact (V _ _ I0 W' E N0)).
    destruct K as [vars v kvs j F G A S0 R J E Vs|vars e kvs F G A S0 R E Vs]; [|now apply failed with vars e kvs].
    apply computed with vars v kvs j; try assumption. unfold variables_entry in *. destruct (mget (lit "variables") kvs); [assumption|]. tauto.
  Qed.
End Answers.
(** those who do not ask for variables get none *)
Lemma reply_none : forall (X : Ext) (H : Host) u reg t answer, reply_to u reg t answer -> t_included t = nothing -> exists kvs status, answers status answer kvs /\ mget (lit "variables") kvs = None.
Proof.
  intros X H u reg t answer K N0. destruct K as [vars v kvs j F G A S0 R J E Vs|vars e kvs F G A S0 R E Vs]; [|now exists kvs, "400"%string].
  exists kvs, "200"%string. split; [assumption|]. unfold variables_entry in Vs. destruct (mget (lit "variables") kvs) as [o|]; [exfalso|reflexivity]. destruct Vs as (vs & -> & Ne & _ & _ & v' & ctx & _ & K).
  destruct vs as [|[k jx] vs]; [contradiction|]. destruct (proj1 (K k jx)) as (x & _ & (T & _) & _); [now left|]. now rewrite N0 in T.
Qed.

(** ** What clients write *)
Lemma escaped_ascii : forall bs r, escaped bs r -> encode r = r.
Proof.
  assert (C : forall c, c < 128 -> enc1 c = [c]).
  { intros c L. unfold enc1. destruct (N.ltb_spec c 128); [reflexivity|lia]. }
  assert (Hx : forall a x, hex_digit a x -> a < 128) by (intros a x D; destruct D; lia).
  intros bs r E. induction E as [|c bs r L N1 N2 E IH|a b x y bs r Ha Hb E IH]; unfold encode in *; cbn [flat_map].
  - reflexivity.
  - rewrite C by lia. cbn [app]. now rewrite IH.
  - rewrite !C by (try (apply Hx in Ha, Hb); lia). cbn [app]. now rewrite IH.
Qed.
Lemma escaped_back : forall bs r, escaped bs r -> unescaped r bs.
Proof.
  intros bs r E. induction E as [|c bs r L N1 N2 E IH|a b x y bs r Ha Hb E IH]; [constructor|apply one_plain; [congruence|assumption]|now apply one_escaped].
Qed.
Lemma escaped_plain : forall bs r, escaped bs r -> ~ In 38 r.
Proof.
  assert (Hx : forall a x, hex_digit a x -> a <> 38) by (intros a x D; destruct D; lia).
  intros bs r E. induction E as [|c bs r L N1 N2 E IH|a b x y bs r Ha Hb E IH]; cbn [In]; [tauto|intuition congruence|]. apply Hx in Ha, Hb. intuition congruence.
Qed.
Lemma escaped_decoded : forall v raw, valid_str v -> escaped (encode v) raw -> decoded raw v.
Proof. intros v raw V E. exists (encode v). split; [rewrite (escaped_ascii _ _ E); now apply escaped_back|now left]. Qed.
Lemma parameters_in : forall kvs ps, Forall2 parameter kvs ps -> params_in ps kvs /\ Forall (fun p => ~ In 38 p) ps.
Proof.
  intros kvs ps F. induction F as [|[k v] p kvs ps (raw & -> & N1 & N2 & V & E) F [IH1 IH2]]; [split; constructor|]. cbn [fst snd] in *. split.
  - apply a_param; [assumption|now apply escaped_decoded|assumption].
  - constructor; [|assumption]. rewrite !in_app_iff. intros [K|[K|K]]; [contradiction| |now apply (escaped_plain _ _ E)]. cbn in K. intuition discriminate.
Qed.
Lemma query_wanted : forall text kvs ps v more t, first_words text (lit "GET" :: (lit "/eval?" ++ join (lit "&") ps) :: v :: more) -> Forall2 parameter kvs ps ->
  last_of expression_keys kvs (t_expression t) -> t_expression t <> [] -> query_arguments kvs (t_arguments t) -> (t_structured t = true <-> last_value kvs (lit "output_json") (lit "true")) -> query_included kvs (t_included t) -> wants text t.
Proof.
  intros text kvs ps v more t W F L Ne A O I0. destruct (parameters_in _ _ F) as [P N1]. apply wants_get with (join (lit "&") ps) v more ps kvs; try assumption.
  split; [|split; [reflexivity|assumption]]. intros ->. inversion P; subst. destruct L as (b & k & a & E & _). destruct b; discriminate.
Qed.
Section Asking.
  Context {X : Ext} {H : Host}.
  Lemma body_wanted : forall q v more text w1 body w2 kvs e t, first_words text (lit "POST" :: (lit "/eval" ++ q) :: v :: more) -> q = [] \/ hd 0 q = 63 -> body_of text (w1 ++ body ++ w2) -> Spec_json.blank w1 -> Spec_json.blank w2 ->
    Spec_json.json_text (JObj kvs) body -> document (JObj kvs) -> (nesting (JObj kvs) <= 127)%nat -> mget (lit "expression") kvs = Some e -> expression_json e (t_expression t) -> arguments_json (mget (lit "arguments") kvs) (t_arguments t) ->
    structured_json (mget (lit "output_json") kvs) (t_structured t) -> included_json (mget (lit "include_variables") kvs) (t_included t) -> wants text t.
  Proof.
    intros q v more text w1 body w2 kvs e t W Q B B1 B2 T D N0 E Ex A O I0. destruct (StructRead_proofs.struct_fields eval_names kvs body w1 w2 D N0 T B1 B2) as (ms & P & M).
    rewrite <- M in E, A, O, I0 by (cbn; tauto). eapply wants_post; [exact W|exact Q|exact B|exact P|left; exists ms; split; [reflexivity|]; split; [symmetry; exact E|]; split; [reflexivity|]; split; reflexivity|exact Ex|exact A|exact O|exact I0].
  Qed.
  Lemma wants_one : forall text t t', wants text t -> wants text t' -> alike t t'.
  Proof.
    intros text t t' W W'. destruct (wants_eval _ _ W) as (req & E & A1 & A2 & A3 & A4). destruct (wants_eval _ _ W') as (req' & E' & B1 & B2 & B3 & B4). pose proof (eval_of_unique _ _ _ E E'). subst req'.
    split; [congruence|]. split; [congruence|]. split; [congruence|]. destruct (t_arguments (task_of req)), (t_arguments t), (t_arguments t'); try contradiction; [|exact I]. etransitivity; [symmetry; exact A4|exact B4].
  Qed.
  Lemma eval_refused : forall token admin m q text w, unicode X -> In m ["GET"; "POST"]%string -> asks m "/eval" q text -> authorised token text -> (forall t, ~ wants text t) ->
    exists answer kvs, serves token admin text w w answer /\ answers "400" answer kvs /\ has_entry kvs "success" (JBool false).
  Proof.
    intros token admin m q text w U I0 A Au Nw. unfold serves. assert (I1 : In (m, "/eval"%string) eval_endpoints) by (destruct I0 as [<- |[<- |[]]]; cbn; tauto). rewrite (routed_in _ token admin _ _ _ _ eval_listed I1 A).
    assert (Sd : forall e, exists answer kvs, HttpServer.run (send_error 400 e) w = (w, Some answer) /\ answers "400" answer kvs /\ has_entry kvs "success" (JBool false)).
    { intros e. unfold send_error. cbn [HttpServer.run reply]. eexists. eexists. split; [reflexivity|]. split; [now apply reply_answers|reflexivity]. }
    assert (P : a_word "/eval" /\ ~ In 63 (lit "/eval")) by (split; [split; [repeat constructor|discriminate]|cbn; intuition discriminate]). destruct P as [P1 P2]. destruct A as (A1 & A2 & Q). pose proof (conj A1 (conj A2 Q) : asks m "/eval" q text) as A.
    destruct I0 as [<- |[<- |[]]].
    - change (handler token admin "GET" "/eval" text) with (handle_eval_get text token). unfold handle_eval_get, check_authentication. rewrite let_in by assumption. destruct (asked "GET" "/eval" q text A) as (l & ls & v & L & W & _); [split; [repeat constructor|discriminate]|assumption..|].
      rewrite L. cbn [hd]. rewrite W. cbv zeta. destruct q as [|c q].
      + rewrite app_nil_r. change (split_once [63] (lit "/eval")) with (@None (str * str)). apply Sd.
      + destruct Q as [Q|Q]; [discriminate|]. cbn in Q. subst c. change (split_once [63] (lit "/eval" ++ 63 :: q)) with (Some (lit "/eval", q)). destruct (q_expression (parse_query q)) as [|c e] eqn:E; [apply Sd|]. exfalso.
        apply (Nw (task_of (query_request (parse_query q)))). apply eval_wants. apply by_get with l ls v []; [assumption|assumption|]. rewrite E. discriminate.
    - change (handler token admin "POST" "/eval" text) with (handle_eval_post text token). unfold handle_eval_post, check_authentication. rewrite let_in by assumption. destruct (asked "POST" "/eval" q text A) as (l & ls & v & L & W & _); [split; [repeat constructor|discriminate]|assumption..|].
      destruct (parse_json_body eval_names eval_request_of text) as [req|e] eqn:E; [exfalso|apply Sd]. apply (Nw (task_of req)). apply eval_wants. now apply by_post with l ls q v [].
  Qed.
End Asking.

(** ** Examples *)
Lemma wants_by_post : forall text l ls q v more req t, lines text = l :: ls -> split_whitespace l = lit "POST" :: (lit "/eval" ++ q) :: v :: more -> q = [] \/ hd 0 q = 63 ->
  @parse_json_body example_host _ eval_names eval_request_of text = inl req -> task_of req = t -> wants text t.
Proof. intros text l ls q v more req t L W Q P <-. apply (@eval_wants example_host). now apply by_post with l ls q v more. Qed.
Lemma wants_by_get : forall text l ls q v more t, lines text = l :: ls -> split_whitespace l = lit "GET" :: (lit "/eval" ++ 63 :: q) :: v :: more ->
  match q_expression (parse_query q) with [] => false | _ => true end = true -> task_of (query_request (parse_query q)) = t -> wants text t.
Proof. intros text l ls q v more t L W N0 <-. apply (@eval_wants example_host). apply by_get with l ls v more; [assumption|assumption|]. now destruct (q_expression (parse_query q)). Qed.
Lemma form_plus : exists text t, first_words text [lit "GET"; lit "/eval?expr=" ++ as_form (lit "'a b'"); lit "HTTP/1.1"] /\ wants text t /\ t_expression t <> lit "'a b'".
Proof.
  exists (to "GET /eval?expr='a+b' HTTP/1.1" ""), (mkTask (lit "'a+b'") None false nothing). split; [eexists; eexists; split; vm_compute; reflexivity|]. split; [|discriminate].
  eapply wants_by_get; [vm_compute; reflexivity|vm_compute; reflexivity|vm_compute; reflexivity|vm_compute; reflexivity].
Qed.
Lemma text_lost : exists text t, first_words text [lit "GET"; lit "/eval?expr=:name&name=Nan"; lit "HTTP/1.1"] /\ wants text t /\ t_arguments t = Some [(lit "name", JNull)].
Proof.
  exists (to "GET /eval?expr=:name&name=Nan HTTP/1.1" ""), (mkTask (lit ":name") (Some [(lit "name", JNull)]) false nothing). split; [eexists; eexists; split; vm_compute; reflexivity|]. split; [|reflexivity].
  eapply wants_by_get; [vm_compute; reflexivity|vm_compute; reflexivity|vm_compute; reflexivity|vm_compute; reflexivity].
Qed.
Definition showing : str := to "POST /eval HTTP/1.1" "{""expression"":"":a := 5; :a + 1"",""include_variables"":true}".
Definition showing_task : task := mkTask (lit ":a := 5; :a + 1") None false everything.
Lemma showing_wants : wants showing showing_task.
Proof. eapply wants_by_post with (q := []); [vm_compute; reflexivity|vm_compute; reflexivity|now left|vm_compute; reflexivity|vm_compute; reflexivity]. Qed.
Definition arguing_task : task := mkTask (lit "1") (Some []) false nothing.
Lemma arguing_wants : wants with_arguments arguing_task.
Proof. eapply wants_by_post with (q := []); [vm_compute; reflexivity|vm_compute; reflexivity|now left|vm_compute; reflexivity|vm_compute; reflexivity]. Qed.
Lemma twice : forall text t, In (Arrive (inl t)) (one_by_one 0 [text; text]) -> t = text.
Proof. intros text t K. cbn [one_by_one repeat app In] in K. repeat (destruct K as [K|K]; [try discriminate K; now injection K as <-|]). contradiction. Qed.
