(** What the program that measures the HTTP server makes of its answers: proofs. *)
From Coq Require Import String List ZArith NArith Bool Lia.
From Coq Require Import Floats.SpecFloat.
From Verif Require Import Base Struct Utf8 F64 F64Text Syntax Ext Json Lines Registry Core Api Host HttpRead HttpCache HttpAuth HttpServer HttpThreads ServerArgs HttpBench Spec Spec_syntax Spec_http Spec_bench
  Base_proofs Display_proofs Debug_proofs Json_proofs HttpAuth_proofs HttpServer_proofs HttpRoutes_proofs HttpIds_proofs HttpBench_proofs HttpBenchAsks_proofs.
From Verif Require Import Spec_eval Spec_httpbench.
Import ListNotations.
Local Open Scope N_scope.

Definition phrase : str := lit """success"":true".
Definition said (s : str) : bool := contains_str phrase s.
Lemma said_cons : forall c r, said (c :: r) = starts_with phrase (c :: r) || said r.
Proof. intros c r. unfold said, contains_str. cbn [find_str]. destruct (starts_with phrase (c :: r)); [reflexivity|]. cbn [orb]. destruct (find_str phrase r); reflexivity. Qed.
Lemma said_skip : forall c r, c <> 34 -> said (c :: r) = said r.
Proof. intros c r N1. rewrite said_cons. destruct (starts_with phrase (c :: r)) eqn:E; [|reflexivity]. apply starts_with_spec in E as [t E]. injection E as -> _. congruence. Qed.
Definition quoteless (s : str) : Prop := Forall (fun c => c <> 34) s.
Lemma said_quoteless : forall s r, quoteless s -> said (s ++ r) = said r.
Proof. intros s r F. induction F as [|c s N1 F IH]; [reflexivity|]. cbn [app]. rewrite said_skip; assumption. Qed.
Lemma said_quote : forall r, starts_with (lit "success"":true") r = false -> said (34 :: r) = said r.
Proof.
  intros r E. rewrite said_cons. destruct (starts_with phrase (34 :: r)) eqn:K; [|reflexivity]. apply starts_with_spec in K as [t K]. injection K as ->. exfalso. change (starts_with (lit "success"":true") (lit "success"":true" ++ t) = false) in E.
  assert (starts_with (lit "success"":true") (lit "success"":true" ++ t) = true) by (apply starts_with_spec; eauto). congruence.
Qed.
(** inside a quoted text *)
Lemma escape_cases : forall c, (json_escape_char c = [c] /\ c <> 34 /\ c <> 92) \/ exists d r, json_escape_char c = 92 :: d :: r /\ quoteless r.
Proof.
  intros c. unfold json_escape_char. repeat match goal with |- context [if ?a =? ?b then _ else _] => destruct (N.eqb_spec a b); [right; eexists; eexists; split; [reflexivity|constructor]|] end.
  destruct (N.ltb_spec c 32) as [L|L]; [right|left; repeat split; assumption]. eexists. eexists. split; [reflexivity|]. assert (D : forall h, h < 16 -> Json.hex_digit h <> 34) by (intros h Lh; unfold Json.hex_digit; destruct (N.ltb_spec h 10); lia).
  repeat constructor; try discriminate; apply D; [apply N.div_lt_upper_bound; lia|apply N.mod_lt; lia].
Qed.
Definition inner (e : str) : str := concat (map json_escape_char e).
Lemma inner_cons : forall c e, inner (c :: e) = json_escape_char c ++ inner e.
Proof. reflexivity. Qed.
(** letters and a quotation mark are not found inside it, unless the text ends there *)
Lemma inner_word : forall w e r t, Forall (fun c => c <> 34 /\ c <> 92) w -> inner e ++ 34 :: r = w ++ 34 :: t -> r = t.
Proof.
  intros w. induction w as [|x w IH]; intros e r t F E.
  - destruct e as [|c e]; [now injection E|]. rewrite inner_cons in E. destruct (escape_cases c) as [(K & N1 & N2)|(d & q & K & _)]; rewrite K in E; cbn [app] in E; injection E as E _; [congruence|discriminate E].
  - inversion F as [|? ? [X1 X2] F']; subst. destruct e as [|c e]; [injection E as E _; congruence|]. rewrite inner_cons in E. destruct (escape_cases c) as [(K & N1 & N2)|(d & q & K & _)]; rewrite K in E; cbn [app] in E.
    + injection E as -> E. now apply (IH e).
    + injection E as E _. congruence.
Qed.
Lemma inner_start : forall e r, hd 0 r <> 58 -> starts_with (lit "success"":true") (inner e ++ 34 :: r) = false.
Proof.
  intros e r N1. destruct (starts_with _ _) eqn:E; [|reflexivity]. apply starts_with_spec in E as [t E]. change (lit "success"":true" ++ t) with (lit "success" ++ 34 :: lit ":true" ++ t) in E. apply inner_word in E; [subst r; now cbn in N1|]. repeat constructor; discriminate.
Qed.
Lemma said_inner : forall e r, hd 0 r <> 58 -> hd 0 r <> 115 -> said (inner e ++ 34 :: r) = said r.
Proof.
  intros e r N1 N2. induction e as [|c e IH].
  - cbn [inner map concat app]. apply said_quote. destruct r as [|d r]; [reflexivity|]. cbn in N2. unfold starts_with. cbn. destruct (N.eqb_spec d 115); [congruence|]. destruct d as [|p]; [reflexivity|]. repeat (destruct p as [p|p|]; try reflexivity; try congruence).
  - rewrite inner_cons, <- app_assoc. destruct (escape_cases c) as [(K & Q1 & Q2)|(d & q & K & Q)]; rewrite K; cbn [app].
    + rewrite said_skip by assumption. exact IH.
    + rewrite said_skip by discriminate. destruct (N.eq_dec d 34) as [-> | Nd].
      * assert (q = []) as -> by (unfold json_escape_char in K; repeat match type of K with context [if ?a then _ else _] => destruct a end; congruence). cbn [app]. rewrite said_quote by now apply inner_start. exact IH.
      * rewrite said_skip by assumption. rewrite said_quoteless by assumption. exact IH.
Qed.

(** ** Numbers have no quotation marks *)
Section Numbers.
  Context {X : Ext}.
  Lemma quoteless_app : forall a b, quoteless a -> quoteless b -> quoteless (a ++ b).
  Proof. intros a b A B. apply Forall_app. now split. Qed.
  Lemma quoteless_digits : forall s, forallb is_digit s = true -> quoteless s.
  Proof. intros s K. rewrite forallb_forall in K. apply Forall_forall. intros c I0. specialize (K c I0). intros ->. discriminate. Qed.
  Lemma quoteless_N : forall n, quoteless (N_to_str n).
  Proof. intros n. apply quoteless_digits. destruct (N_to_str_spec n) as [[_ D] _]. exact D. Qed.
  Lemma quoteless_Z : forall z, quoteless (Z_to_str z).
  Proof. intros [|p|p]; cbn [Z_to_str]; [repeat constructor; discriminate|apply quoteless_N|]. constructor; [discriminate|]. apply quoteless_N. Qed.
  Lemma quoteless_zeros : forall n, quoteless (zeros n).
  Proof. intros n. induction n; cbn; constructor; [discriminate|assumption]. Qed.
  Lemma quoteless_float : forall f, quoteless (json_float f).
  Proof. assert (Sg : forall s t, quoteless t -> quoteless (with_sign s t)) by (intros [|] t V; cbn; [constructor; [discriminate|assumption]|assumption]).
    intros [z|z| |s m e]; cbn [json_float]; try (apply Sg); try (repeat constructor; discriminate). destruct (digits_of m e) as [ds k] eqn:D. apply Sg.
    assert (Dd : quoteless ds). { unfold digits_of in D. destruct (shortest m e) as [d x]. injection D as <- _. apply quoteless_digits, forallb_strip. apply N_to_str_spec. }
    destruct ((-4 <=? k)%Z && (k <=? 16)%Z).
    - destruct (place_point ds k) as [ip fp] eqn:P. assert (V : quoteless ip /\ quoteless fp). { unfold place_point in P. destruct (k <=? 0)%Z; [|destruct (_ <=? k)%Z]; injection P as <- <-; split; try apply quoteless_app; try apply quoteless_zeros; try assumption; try (repeat constructor; discriminate); try constructor.
        - apply (Forall_app (fun c => c <> 34) (firstn (Z.to_nat k) ds) (skipn (Z.to_nat k) ds)). now rewrite firstn_skipn.
        - apply (Forall_app (fun c => c <> 34) (firstn (Z.to_nat k) ds) (skipn (Z.to_nat k) ds)). now rewrite firstn_skipn. }
      destruct V as [Vi Vf]. apply quoteless_app; [assumption|]. constructor; [discriminate|]. destruct fp; [repeat constructor; discriminate|assumption].
    - unfold sci. apply quoteless_app; [destruct ds as [|d [|d' r]]; [repeat constructor; discriminate|assumption|]; inversion Dd; subst; constructor; [assumption|]; constructor; [discriminate|assumption]|].
      constructor; [discriminate|]. destruct (x_json_exp_plus && _); [constructor; [discriminate|]|]; apply quoteless_Z. Qed.
  Lemma quoteless_number : forall f, quoteless (json_print (json_of_f64 f)).
  Proof. intros f. unfold json_of_f64, jnum_of_f64. destruct (is_finite f); cbn [json_print json_num]; [apply quoteless_float|repeat constructor; discriminate]. Qed.
End Numbers.

(** ** Answers *)
Section Answers.
  Context {X : Ext} {H : Host}.
  Lemma said_response : forall st body, said (http_response st json_type body) = said body.
  Proof.
    intros st body. unfold http_response, line. rewrite <- !app_assoc.
    repeat (rewrite said_quoteless; [|first [apply quoteless_N|repeat constructor; discriminate|unfold status_text; repeat match goal with |- quoteless (if ?b then _ else _) => destruct b end; repeat constructor; discriminate]]). cbn [app]. reflexivity.
  Qed.
  Ltac known a := let b := eval vm_compute in a in change a with b.
  Ltac heard := repeat first [rewrite said_skip by discriminate | rewrite said_quote by reflexivity].
  Lemma said_quoted : forall e r, hd 0 r <> 58 -> hd 0 r <> 115 -> said (json_quote e ++ r) = said r.
  Proof.
    intros e r N1 N2. unfold json_quote. fold (inner e). cbn [app]. rewrite <- app_assoc. cbn [app]. rewrite said_quote by now apply inner_start. now apply said_inner.
  Qed.
  Lemma said_error : forall e, said (json_print (JObj [(lit "error", JStr e); (lit "success", JBool false)])) = false.
  Proof.
    intros e. cbn [json_print map join]. known (json_quote (lit "error")). known (json_quote (lit "success")). cbn [app]. heard. rewrite <- !app_assoc. rewrite said_quoted by discriminate. reflexivity.
  Qed.
  Lemma said_failure : forall e ms id, said (response_json (mkResp false None None (Some e) ms id)) = false.
  Proof.
    intros e ms id. unfold response_json. cbn [p_success p_result p_variables p_error p_ms p_id app json_print map join]. known (json_quote (lit "success")). known (json_quote (lit "result")). known (json_quote (lit "error")). known (json_quote (lit "execution_time_ms")). known (json_quote (lit "request_id")). known (lit "false"). known (lit "null").
    cbn [json_num]. rewrite <- !app_assoc. cbn [app]. heard. rewrite <- !app_assoc. rewrite said_quoted by discriminate. cbn [app]. heard. rewrite <- !app_assoc. rewrite said_quoteless by apply quoteless_number. cbn [app]. heard. rewrite said_quoteless by apply quoteless_N. reflexivity.
  Qed.
  Lemma said_computed : forall j vs ms id, said (response_json (mkResp true (Some j) vs None ms id)) = true.
  Proof. intros j vs ms id. apply contains_says. unfold response_json. cbn [p_success p_result app json_print map join]. exists [123]. destruct vs; eexists; reflexivity. Qed.
  (** an answer counts exactly if its status is 200 *)
  Definition told_right (answer : str) : Prop := said answer = true <-> status_is "200" answer.
  Lemma right_200 : forall body, said body = true -> told_right (http_response 200 json_type body).
  Proof. intros body E. split; [intros _; now apply status_is_response|intros _; now rewrite said_response]. Qed.
  Lemma right_other : forall st body, st = 400 \/ st = 401 -> said body = false -> told_right (http_response st json_type body).
  Proof.
    intros st body St E. unfold told_right. rewrite said_response, E. split; [discriminate|]. intros [rest K]. unfold http_response, line in K. destruct St as [-> | ->]; discriminate K.
  Qed.
  Lemma right_error : forall st e, st = 400 \/ st = 401 -> replies told_right (send_error st e).
  Proof. intros st e St. constructor. apply right_other; [exact St|apply said_error]. Qed.
  Lemma right_finish : forall req vars id r, replies told_right (finish req vars id r).
  Proof.
    intros req vars id r. unfold finish, record_request. apply replies_act'. intros _. apply replies_act'. intros _. constructor. destruct r as [[v ctx]|e]; cbn [eval_answer p_success].
    - apply right_200, said_computed.
    - apply right_other; [now left|apply said_failure].
  Qed.
  Lemma right_process : forall req, replies told_right (process_eval_request req).
  Proof.
    intros req. unfold process_eval_request. apply replies_act'. intros id. cbv zeta. apply replies_act'. intros [e|]; [apply right_finish|]. apply replies_act'. intros r. apply replies_unless; [|intros e; apply right_finish]. intros vc. apply replies_act'. intros _. apply right_finish.
  Qed.
  Lemma right_guarded : forall text token k, replies told_right k -> replies told_right (guarded (check_authentication text token) k).
  Proof.
    intros text token k K. unfold guarded, check_authentication, check_token. destruct token as [cfg|]; [|exact K]. destruct (extract_auth_header text) as [t|e|q]; cbn [bind unless_panic]; [|exact K|constructor].
    destruct (str_eqb _ cfg); [exact K|]. constructor. apply right_other; [now right|]. unfold unauthorized. apply said_error.
  Qed.
  Lemma right_eval : forall token admin m p q text, In (m, p) eval_endpoints -> asks m p q text -> replies told_right (handle_http_request token admin (inl text)).
  Proof.
    intros token admin m p q text I0 A. rewrite (routed_in _ token admin _ _ _ _ eval_listed I0 A). destruct I0 as [E|[E|[]]]; injection E as <- <-.
    - change (handler token admin "POST" "/eval" text) with (handle_eval_post text token). unfold handle_eval_post. apply right_guarded. destruct (parse_json_body eval_names eval_request_of text); [apply right_process|apply right_error; now left].
    - change (handler token admin "GET" "/eval" text) with (handle_eval_get text token). unfold handle_eval_get. apply right_guarded. destruct (split_whitespace (hd [] (lines text))) as [|w1 [|w2 ws]]; try (apply right_error; now left). cbv zeta. match goal with |- context [q_expression ?x] => destruct (q_expression x) end; [apply right_error; now left|apply right_process].
  Qed.
  Lemma counted_right : forall token admin w evs i m p q text answer, In (m, p) eval_endpoints -> asks m p q text -> answered (serving token admin w evs) i (inl text) answer ->
    (is_success (Some answer) = true <-> status_is "200" answer).
  Proof.
    intros token admin w evs i m p q text answer I0 A An. change (told_right answer). pose proof (right_eval token admin m p q text I0 A) as R.
    assert (K : replies told_right (Reply (Some answer))); [|now inversion K].
    revert R. apply (job_invariant token admin (fun r p => replies told_right (handle_http_request token admin r) -> replies told_right p) w) with (evs := evs) (i := i) (r := inl text); auto.
    intros r p0 w' K R. apply replies_move. now apply K.
  Qed.
End Answers.
