(** Routing of unknown requests, and the form of every answer. *)
From Coq Require Import String List ZArith NArith Bool Lia.
From Verif Require Import Base F64 F64Text Syntax Utf8 Ext Json Registry Methods Api Lines Host HttpRead HttpAuth HttpCache JsPlugin Multipart HttpServer HttpThreads Spec Spec_syntax Spec_text Spec_http Base_proofs Utf8_proofs Parse_proofs Display_proofs HttpRead_proofs HttpAuth_proofs HttpServer_proofs HttpIds_proofs.
Import ListNotations.
Local Open Scope N_scope.

Section Replies.
  Context {X : Ext} {H : Host} (Q : str -> Prop).
  (** every answer the program may give satisfies [Q] *)
  Inductive replies : prog -> Prop :=
  | replies_none : replies (Reply None)
  | replies_some a : Q a -> replies (Reply (Some a))
  | replies_act f : (forall w, replies (snd (f w))) -> replies (Act f).
  Lemma replies_act' : forall B (f : world -> world * B) k, (forall b, replies (k b)) -> replies (act f k).
  Proof. intros B f k K. constructor. intros w. destruct (f w). apply K. Qed.
  Lemma replies_unless : forall A (r : res A) ok bad, (forall a, replies (ok a)) -> (forall e, replies (bad e)) -> replies (unless_panic r ok bad).
  Proof. intros A [a|e|p] ok bad A1 A2; cbn; auto. constructor. Qed.
  Lemma replies_move : forall p w, replies p -> replies (snd (move p w)).
  Proof. intros p w K. destruct K; cbn; [constructor|now constructor|auto]. Qed.
  Hypothesis Qr : forall st body, Q (http_response st json_type body).
  Lemma replies_reply : forall st body, replies (reply st body).
  Proof. intros st body. constructor. apply Qr. Qed.
  Hint Resolve replies_reply replies_none : core.
  Lemma replies_error : forall st m, replies (send_error st m).
  Proof. intros. apply replies_reply. Qed.
  Hint Resolve replies_error : core.
  Lemma replies_guarded : forall c k, replies k -> replies (guarded c k).
  Proof. intros c k K. apply replies_unless; auto. intros [b|]; auto. Qed.
  Lemma replies_finish : forall req vars id r, replies (finish req vars id r).
  Proof. intros. unfold finish, record_request. apply replies_act'; intros _. apply replies_act'; intros _. apply replies_reply. Qed.
  Hint Resolve replies_finish : core.
  Lemma replies_process : forall req, replies (process_eval_request req).
  Proof.
    intros req. unfold process_eval_request. apply replies_act'. intros id. cbv zeta. apply replies_act'. intros [e|]; auto. apply replies_act'. intros r. apply replies_unless; auto. intros vc. apply replies_act'. auto.
  Qed.
  Lemma replies_store : forall a b c d, replies (store_js a b c d).
  Proof. intros. unfold store_js. apply replies_unless; auto. intros [f v]. apply replies_act'. intros [e|]; auto. Qed.
  Lemma replies_register : forall fs ok bad, replies ok -> (forall e, replies (bad e)) -> replies (register_all fs ok bad).
  Proof. intros fs ok bad K1 K2. induction fs as [|f fs IH]; [assumption|]. apply replies_act'. intros [e|]; auto. Qed.
  Hint Resolve replies_process replies_store : core.
  Hypothesis Qp : Q preflight.
  Hypothesis Qt : forall body, Q (http_response 200 (lit "text/html") body).
  Hypothesis Qy : forall body, Q (http_response 200 (lit "application/x-yaml") body).
  Lemma replies_handler : forall token admin r, replies (handle_http_request token admin r).
  Proof.
    intros token admin [text|e]; [|apply replies_error]. cbn [handle_http_request]. unfold route. destruct (lines text) as [|l ls] eqn:L; auto. destruct (split_whitespace l) as [|m [|p [|v more]]] eqn:W; auto. cbv zeta.
    repeat match goal with |- replies (if ?b then _ else _) => destruct b end; auto.
    - unfold handle_health. repeat (apply replies_act'; intros ?). auto.
    - constructor. apply Qt.
    - constructor. apply Qt.
    - constructor. apply Qy.
    - apply replies_guarded. destruct (parse_json_body _ _ _); auto.
    - apply replies_guarded. rewrite L. cbn [hd]. rewrite W. cbv zeta. match goal with |- context [q_expression ?x] => destruct (q_expression x) end; auto.
    - apply replies_guarded. apply replies_unless; auto. intros q. destruct (ends_with _ _); auto. destruct (js_source q); auto.
    - apply replies_guarded. apply replies_unless; auto. intros q. destruct (ends_with _ _); auto. apply replies_act'. intros [|]; auto. destruct (js_source q); auto.
    - apply replies_guarded. destruct (parse_json_body _ _ _) as [name|e]; auto. destruct (ends_with _ _); auto. apply replies_act'. intros [e|]; auto.
    - apply replies_guarded, replies_act'. intros [fs|e]; auto.
    - apply replies_guarded. unfold auto_register. apply replies_act'. intros q. apply replies_unless; auto. intros fs. apply replies_register; auto.
    - apply replies_guarded, replies_act'. auto.
    - constructor. apply Qp.
  Qed.
End Replies.

Lemma not_header_by : forall l, map lower_ascii (firstn 14 l) <> lit "content-length" -> not_header "content-length" l.
Proof.
  intros l K v (n & -> & E). apply K. assert (L : length n = 14%nat) by (rewrite <- (map_length lower_ascii), E; reflexivity). rewrite <- L at 1. rewrite firstn_app, Nat.sub_diag, firstn_all, firstn_O, app_nil_r. exact E.
Qed.
Lemma digits_line : forall ds, digits ds -> ~ In 13 ds /\ ~ In 10 ds.
Proof. intros ds [_ D]. rewrite forallb_forall in D. split; intros K; apply D in K; discriminate. Qed.
Definition plain_text (s : str) : Prop := ~ In 13 s /\ ~ In 10 s.
Lemma plain_app : forall a b, plain_text a -> plain_text b -> plain_text (a ++ b).
Proof. intros a b [A1 A2] [B1 B2]. split; intros K; apply in_app_or in K as [K|K]; auto. Qed.
Ltac concrete := split; intros K; cbn in K; repeat (destruct K as [K|K]; [discriminate|]); exact K.
Lemma plain_status : forall st, plain_text (status_text st).
Proof. intros st. unfold status_text. repeat match goal with |- plain_text (if ?b then _ else _) => destruct b end; concrete. Qed.
Lemma plain_number : forall n, plain_text (N_to_str n).
Proof. intros n. destruct (N_to_str_spec n) as [D _]. now apply digits_line. Qed.
Lemma line_of : forall s r, plain_text s -> s = r -> r <> [] -> a_line r.
Proof. intros s r P <- N0. split; [assumption|exact P]. Qed.
Definition cors_lines : list str := [lit "Access-Control-Allow-Origin: *"; lit "Access-Control-Allow-Methods: GET, POST, PUT, DELETE, OPTIONS"; lit "Access-Control-Allow-Headers: Content-Type, Authorization"].
Definition response_lines (st : N) (ct : str) (n : N) : list str :=
  (lit "HTTP/1.1 " ++ N_to_str st ++ 32 :: status_text st) :: cors_lines ++ [lit "Content-Type: " ++ ct; lit "Content-Length: " ++ N_to_str n; lit "Connection: close"].
Lemma status_line_ok : forall st, a_line (lit "HTTP/1.1 " ++ N_to_str st ++ 32 :: status_text st).
Proof. intros st. split; [discriminate|]. apply plain_app; [concrete|]. apply plain_app; [apply plain_number|]. apply (plain_app [32]); [concrete|apply plain_status]. Qed.
Lemma cors_ok : Forall a_line cors_lines /\ Forall (not_header "content-length") cors_lines.
Proof. split; repeat constructor; try discriminate; try (intros K; cbn in K; repeat (destruct K as [K|K]; [discriminate|]); exact K); apply not_header_by; vm_compute; discriminate. Qed.
Lemma length_value : forall n after, announces ([] ++ (lit "Content-Length: " ++ N_to_str n) :: after) n.
Proof.
  intros n after. left. exists [], (lit "Content-Length: " ++ N_to_str n), after, (32 :: N_to_str n), [32], (N_to_str n), []. destruct (N_to_str_spec n) as [D V].
  split; [reflexivity|]. split; [constructor|]. split; [exists (lit "Content-Length"); split; reflexivity|]. split; [now rewrite app_nil_r|]. split; [repeat constructor|]. split; [constructor|]. split; [exact D|apply V].
Qed.
Lemma announces_skip : forall before ls n, Forall (not_header "content-length") before -> announces ls n -> announces (before ++ ls) n.
Proof.
  intros before ls n F [(b & l & a & v & w1 & ds & w2 & -> & Fb & R)|[Fl ->]].
  - left. exists (before ++ b), l, a, v, w1, ds, w2. rewrite <- app_assoc. split; [reflexivity|]. split; [now apply Forall_app|exact R].
  - right. split; [now apply Forall_app|reflexivity].
Qed.
Lemma response_shape : forall st ct body, http_response st ct body = request (response_lines st ct (byte_len body)) body.
Proof.
  intros st ct body. unfold http_response, request, response_lines, cors, cors_lines, line, crlf. generalize (status_text st) (N_to_str st) (N_to_str (byte_len body)). intros a b c. cbn. repeat (rewrite <- app_assoc; cbn). reflexivity.
Qed.
Lemma framed_response : forall st ct body, plain_text ct -> framed (http_response st ct body).
Proof.
  intros st ct body P. exists (N_to_str st), (status_text st), (cors_lines ++ [lit "Content-Type: " ++ ct; lit "Content-Length: " ++ N_to_str (byte_len body); lit "Connection: close"]), body. cbv zeta.
  split; [apply response_shape|]. destruct (N_to_str_spec st) as [D _]. split; [exact D|]. destruct cors_ok as [C1 C2]. split.
  - constructor; [apply status_line_ok|]. apply Forall_app. split; [exact C1|]. repeat constructor; try discriminate; try (apply plain_app; [concrete|assumption || apply plain_number]); intros K; cbn in K; repeat (destruct K as [K|K]; [discriminate|]); exact K.
  - change (announces (((lit "HTTP/1.1 " ++ N_to_str st ++ 32 :: status_text st) :: cors_lines ++ [lit "Content-Type: " ++ ct]) ++ [] ++ (lit "Content-Length: " ++ N_to_str (byte_len body)) :: [lit "Connection: close"]) (byte_len body)).
    apply announces_skip; [|apply length_value]. constructor; [apply not_header_by; intros K; discriminate K|]. apply Forall_app. split; [exact C2|]. constructor; [|constructor]. apply not_header_by. intros K. discriminate K.
Qed.
Lemma framed_preflight : framed preflight.
Proof.
  exists (lit "200"), (lit "OK"), (cors_lines ++ [lit "Content-Length: 0"]), []. cbv zeta. split; [reflexivity|]. split; [split; [discriminate|reflexivity]|]. destruct cors_ok as [C1 C2]. split.
  - constructor; [split; [discriminate|concrete]|]. apply Forall_app. split; [exact C1|]. constructor; [split; [discriminate|concrete]|constructor].
  - change (announces (((lit "HTTP/1.1 " ++ lit "200" ++ 32 :: lit "OK") :: cors_lines) ++ [] ++ (lit "Content-Length: " ++ N_to_str 0) :: []) 0). apply announces_skip; [|apply length_value]. constructor; [apply not_header_by; vm_compute; discriminate|exact C2].
Qed.

Section Framed.
  Context {X : Ext} {H : Host} (token admin : option str).
  Lemma all_framed : forall w evs i r answer, answered (serving token admin w evs) i r answer -> framed answer.
  Proof.
    intros w evs i r answer An. assert (K : replies framed (Reply (Some answer))).
    { apply (job_invariant token admin (fun _ p => replies framed p) w) with (evs := evs) (i := i) (r := r); auto.
      - intros r0. apply replies_handler; intros; try apply framed_preflight; apply framed_response; concrete.
      - intros r0 p w' K. now apply replies_move. }
    now inversion K.
  Qed.

  (** ** Requests no handler is for *)
  Lemma short_request : forall text ws, first_words text ws -> (length ws < 3)%nat -> exists answer, handle_http_request token admin (inl text) = Reply (Some answer) /\ status_is "400" answer.
  Proof.
    intros text ws (l & ls & L & W) K. cbn [handle_http_request]. unfold route. rewrite L, W. destruct ws as [|a [|b [|c ws]]]; cbn [length] in K; try lia; (eexists; split; [reflexivity|now apply status_is_response]).
  Qed.
  Lemma unread_request : forall e, exists answer, handle_http_request token admin (inr e) = Reply (Some answer) /\ status_is "400" answer.
  Proof. intros e. eexists. split; [reflexivity|]. now apply status_is_response. Qed.
  Lemma empty_request : handle_http_request token admin (inl []) = Reply None.
  Proof. reflexivity. Qed.
  Lemma unknown_route : forall text m p q v more k, first_words text (m :: (p ++ q) :: v :: more) -> q = [] \/ hd 0 q = 63 -> ~ In 63 p ->
    (forall a b, In (a, b) all_endpoints -> ~ (m = lit a /\ p = lit b)) ->
    k = (if str_eqb m (lit "OPTIONS") then Reply (Some preflight) else send_error 404 (lit "Not Found")) -> handle_http_request token admin (inl text) = k.
  Proof.
    intros text m p q v more k (l & ls & L & W) Q Np No ->. cbn [handle_http_request]. unfold route. rewrite L, W. cbv zeta.
    assert (Hd : hd [] (split_char 63 (p ++ q)) = p). { destruct Q as [->|Q]; [now rewrite app_nil_r, split_char_none|]. destruct q as [|c q]; [discriminate|]. cbn in Q. subst c. now rewrite split_char_app. }
    rewrite Hd. assert (F : forall a b, In (a, b) all_endpoints -> is_route m p a b = false). { intros a b I0. destruct (is_route m p a b) eqn:E; [|reflexivity]. apply is_route_eq in E. exfalso. exact (No _ _ I0 E). }
    rewrite !F by (cbn; tauto). reflexivity.
  Qed.
  Lemma not_found : forall text m p q v more, first_words text (m :: (p ++ q) :: v :: more) -> q = [] \/ hd 0 q = 63 -> ~ In 63 p ->
    (forall a b, In (a, b) all_endpoints -> ~ (m = lit a /\ p = lit b)) -> m <> lit "OPTIONS" ->
    exists answer, handle_http_request token admin (inl text) = Reply (Some answer) /\ status_is "404" answer.
  Proof.
    intros text m p q v more Fw Q Np No Mo. rewrite (unknown_route text m p q v more _ Fw Q Np No eq_refl). destruct (str_eqb m (lit "OPTIONS")) eqn:E; [apply str_eqb_eq in E; contradiction|]. eexists. split; [reflexivity|now apply status_is_response].
  Qed.
  Lemma any_options : forall text target v more, first_words text (lit "OPTIONS" :: target :: v :: more) ->
    exists answer, handle_http_request token admin (inl text) = Reply (Some answer) /\ status_is "200" answer.
  Proof.
    intros text target v more Fw. destruct (split_char_hd 63 target) as (q & E & Q). set (p := hd [] (split_char 63 target)) in *. exists preflight. split; [|eexists; reflexivity].
    destruct Fw as (l & ls & L & W). cbn [handle_http_request]. unfold route. rewrite L, W. reflexivity.
  Qed.
End Framed.

Lemma example_unicode : unicode example_ext.
Proof.
  split; [reflexivity|]. split; [reflexivity|]. intros c G N1 N2. cbn. apply N.eqb_neq in N1, N2. rewrite N1, N2. split; [discriminate|]. now repeat constructor.
Qed.
Lemma example_orders : @orders example_host.
Proof. intros id kvs. apply Permutation.Permutation_refl. Qed.
Lemma supplies_unique : forall (X : Ext) text t1 t2, unicode X -> supplies text t1 -> supplies text t2 -> t1 = t2.
Proof.
  intros X text t1 t2 U S1 S2. pose proof (supplies_check "" text t1 t1 U S1) as A. rewrite (supplies_check "" text t2 t1 U S2), str_eqb_refl in A. destruct (str_eqb t2 t1) eqn:E; [|discriminate]. now apply str_eqb_eq in E.
Qed.
