(** What the HTTP server does not guarantee, on concrete requests. *)
From Coq Require Import String List ZArith NArith Bool Lia.
From Verif Require Import Base F64 F64Text Syntax Utf8 Ext Json Registry Methods Api Lines Host HttpRead HttpAuth HttpCache JsPlugin Multipart HttpServer HttpThreads Spec Spec_syntax Spec_text Spec_http Base_proofs HttpRead_proofs HttpAuth_proofs HttpServer_proofs HttpIds_proofs HttpCache_proofs HttpRoutes_proofs.
Import ListNotations.
Local Open Scope N_scope.

Definition answer_to (s : server) (i : nat) : str := match nth_error (sv_jobs s) i with Some (mkJob _ (Reply (Some a))) => a | _ => [] end.
Definition is_answered (s : server) (i : nat) (r : str) : bool :=
  match nth_error (sv_jobs s) i with Some (mkJob (inl t) (Reply (Some _))) => str_eqb t r | _ => false end.
Lemma example_answered : forall texts i r, is_answered (example_run texts) i r = true -> answered (example_run texts) i (inl r) (answer_to (example_run texts) i).
Proof.
  intros texts i r. unfold is_answered, answered, job_at, answer_to. destruct (nth_error _ i) as [[[t|e] [[a|]|f]]|] eqn:E; try discriminate. intros K. apply str_eqb_eq in K. now subst.
Qed.
Definition starts_status (s : string) (a : str) : bool := match strip_prefix (lit "HTTP/1.1 " ++ lit s ++ [32]) a with Some _ => true | None => false end.
Lemma strip_prefix_app : forall p s r, strip_prefix p s = Some r -> s = p ++ r.
Proof. induction p as [|c p IH]; intros s r E; cbn in E; [now injection E as ->|]. destruct s as [|d s]; [discriminate|]. destruct (N.eqb_spec c d) as [->|]; [|discriminate]. cbn. f_equal. now apply IH. Qed.
Lemma status_by : forall s a, starts_status s a = true -> status_is s a.
Proof. intros s a K. unfold starts_status in K. destruct (strip_prefix _ a) as [r|] eqn:E; [|discriminate]. apply strip_prefix_app in E. exists r. rewrite E. now rewrite <- !app_assoc. Qed.
Lemma mentions_by : forall p a, contains (lit p) a = true -> mentions p a.
Proof. intros p a K. now apply contains_iff. Qed.
Lemma mentions_not : forall p a, contains (lit p) a = false -> ~ mentions p a.
Proof. intros p a K M. apply contains_iff in M. congruence. Qed.

Definition with_arguments : str := to "POST /eval HTTP/1.1" "{""expression"":""1"",""arguments"":{}}".
Definition mistakable : str := to "POST /eval HTTP/1.1" "{""expression"":""1|arguments:Json(\""{}\"")""}".
Lemma key_collision : exists first second a1 a2,
  answered (example_run [second]) 0 (inl second) a1 /\ status_is "400" a1
  /\ answered (example_run [first; second]) 1 (inl second) a2 /\ status_is "200" a2.
Proof.
  exists with_arguments, mistakable, (answer_to (example_run [mistakable]) 0), (answer_to (example_run [with_arguments; mistakable]) 1).
  split; [apply example_answered; vm_compute; reflexivity|]. split; [apply status_by; vm_compute; reflexivity|]. split; [apply example_answered; vm_compute; reflexivity|apply status_by; vm_compute; reflexivity].
Qed.
Definition silently : str := to "POST /eval HTTP/1.1" "{""expression"":"":a := 5; :a + 1""}".
Definition with_variables : str := to "POST /eval HTTP/1.1" "{""expression"":"":a := 5; :a + 1"",""include_variables"":true}".
Lemma variables_lost : exists first second a1 a2,
  answered (example_run [second]) 0 (inl second) a1 /\ mentions """variables"":{""a"":5.0}" a1
  /\ answered (example_run [first; second]) 1 (inl second) a2 /\ ~ mentions """variables""" a2.
Proof.
  exists silently, with_variables, (answer_to (example_run [with_variables]) 0), (answer_to (example_run [silently; with_variables]) 1).
  split; [apply example_answered; vm_compute; reflexivity|]. split; [apply mentions_by; vm_compute; reflexivity|]. split; [apply example_answered; vm_compute; reflexivity|apply mentions_not; vm_compute; reflexivity].
Qed.
Definition upload (v : string) : str := to "POST /upload-js HTTP/1.1" ("{""filename"":""f.js"",""js_code"":""// @name: TWICE\n// " ++ v ++ """}").
Definition reload : str := to "POST /reload-hooks HTTP/1.1" "".
Definition twice : str := to "POST /eval HTTP/1.1" "{""expression"":""TWICE(1)""}".
Lemma stale_function : exists old new load ev a1 a2,
  answered (example_run [old; load; new; load; ev]) 4 (inl ev) a1 /\ mentions "new" a1 /\ ~ mentions "old" a1
  /\ answered (example_run [old; load; ev; new; load; ev]) 5 (inl ev) a2 /\ mentions "old" a2 /\ ~ mentions "new" a2.
Proof.
  exists (upload "old"), (upload "new"), reload, twice, (answer_to (example_run [upload "old"; reload; upload "new"; reload; twice]) 4), (answer_to (example_run [upload "old"; reload; twice; upload "new"; reload; twice]) 5).
  split; [apply example_answered; vm_compute; reflexivity|]. split; [apply mentions_by; vm_compute; reflexivity|]. split; [apply mentions_not; vm_compute; reflexivity|].
  split; [apply example_answered; vm_compute; reflexivity|]. split; [apply mentions_by; vm_compute; reflexivity|apply mentions_not; vm_compute; reflexivity].
Qed.
(** a token in the body counts *)
Definition bodily : str := request [lit "POST /eval HTTP/1.1"; lit "Host: x"] (lit "Authorization: secret").
Lemma token_in_body : exists ls body tok, Forall a_line ls /\ Forall no_authorization ls /\ supplies (request ls body) tok /\ tok <> [].
Proof.
  assert (P : forall (l : str) c, nth 0 l 0 = c -> lower_ascii c <> 97 -> not_header "authorization" l). { intros l c E K v (n & -> & M). destruct n as [|d n]; [discriminate|]. cbn in E. subst d. cbn in M. injection M as M _. contradiction. }
  assert (T : forall l : str, unspaced l -> forall t, trimmed l t -> t = l).
  { intros l U t (w1 & w2 & -> & W1 & W2 & Ut). destruct U as [U1 U2]. assert (w1 = []) as ->. { destruct w1 as [|c w1]; [reflexivity|]. inversion W1; subst. rewrite (U1 c _ eq_refl) in *. discriminate. }
    destruct w2 as [|c w2] using rev_ind; [now rewrite app_nil_r|]. apply Forall_app in W2 as [_ W2]. inversion W2; subst. cbn [app] in U2. rewrite (U2 (t ++ w2) c) in *; [discriminate|now rewrite app_assoc]. }
  exists [lit "POST /eval HTTP/1.1"; lit "Host: x"], (lit "Authorization: secret"), (lit "secret").
  assert (U : forall l c d, l <> [] -> nth 0 l 0 = c -> last l 0 = d -> is_whitespace c = false -> is_whitespace d = false -> unspaced l).
  { intros l c d Nl E1 E2 C D. split; [intros c' r ->; cbn in E1; congruence|]. intros r c' ->. rewrite last_last in E2. congruence. }
  assert (L : Forall a_line [lit "POST /eval HTTP/1.1"; lit "Host: x"]). { repeat constructor; try discriminate; intros K; cbn in K; repeat (destruct K as [K|K]; [discriminate|]); exact K. }
  assert (F : Forall no_authorization [lit "POST /eval HTTP/1.1"; lit "Host: x"]).
  { repeat constructor; intros t Tr; (apply T in Tr; [subst t|eapply U; try reflexivity; discriminate]); (eapply P; [reflexivity|vm_compute; discriminate]). }
  split; [exact L|]. split; [exact F|]. split; [|discriminate]. left. exists [lit "POST /eval HTTP/1.1"; lit "Host: x"; []], (lit "Authorization: secret"), [], (lit "Authorization: secret"), (lit " secret"), (lit "secret").
  split; [vm_compute; reflexivity|]. split. { inversion F as [|? ? F1 F2]; inversion F2; subst. repeat constructor; auto. intros t (w1 & w2 & E & _). destruct w1; [|discriminate]. destruct t; [|discriminate]. intros v (n & E1 & _). now destruct n. }
  split; [apply unspaced_trimmed; eapply U; try reflexivity; discriminate|]. split; [exists (lit "Authorization"); split; reflexivity|].
  assert (Us : unspaced (lit "secret")) by (eapply U; try reflexivity; discriminate).
  split; [exists [32], []; split; [reflexivity|]; split; [repeat constructor|]; split; [constructor|exact Us]|]. right. split; [|reflexivity].
  intros b rest E M. destruct b as [|c b]; [discriminate|]. injection E as <- _. discriminate.
Qed.
(** bytes after the body are read or not, as they happen to arrive *)
Lemma pipelined : exists s1 s2 t1 t2, connection s1 /\ connection s2 /\ sent s1 = sent s2 /\ s_failure s1 = None /\ s_failure s2 = None
  /\ @reads_next example_ext example_host [] s1 = inl t1 /\ @reads_next example_ext example_host [] s2 = inl t2 /\ t1 <> t2.
Proof.
  set (a := encode (to "GET / HTTP/1.1" "")). set (b := encode (lit "GET")).
  exists (mkStream [a ++ b] None), (mkStream [a; b] None), (to "GET / HTTP/1.1" "GET"), (to "GET / HTTP/1.1" "").
  split; [repeat constructor; vm_compute; discriminate|]. split; [repeat constructor; vm_compute; discriminate|]. split; [vm_compute; reflexivity|]. split; [reflexivity|]. split; [reflexivity|].
  split; [vm_compute; reflexivity|]. split; [vm_compute; reflexivity|]. vm_compute. discriminate.
Qed.
(** an empty token that is configured lets in requests without a token *)
Lemma empty_token : forall (X : Ext) (H : Host) m p q text admin, unicode X -> In (m, p) eval_endpoints -> asks m p q text -> Forall no_authorization (lines text) ->
  handle_http_request (Some []) admin (inl text) = handle_http_request None None (inl text).
Proof. intros X H m p q text admin U I A F. apply eval_accepted with m p q; auto. right. now split. Qed.
