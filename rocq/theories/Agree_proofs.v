(** The same question put to the command [sk] and to the client of the server. *)
From Coq Require Import String List ZArith NArith Bool Lia.
From Verif Require Import Base F64 F64Text Syntax Lexer Parser Utf8 Ext Json Registry Core Methods Api Lines Host HttpServer Pretty Command LineServer Client ClientBench Spec Spec_syntax Spec_text Spec_json Spec_http Spec_command Spec_lines Spec_client Spec_agree
  Base_proofs Value_proofs Text_proofs Json_proofs Object_proofs HttpServer_proofs HttpCache_proofs Eval_proofs Command_proofs Lines_proofs Client_proofs ClientBench_proofs.
From Verif Require Import Spec_json Spec_command Spec_lines Spec_client.
Import ListNotations.
Local Open Scope N_scope.
Local Opaque json_parse.

Section Agree.
  Context {X : Ext} {H : Host} (U : unicode X).
  (** ** A result has one description *)
  Lemma stored_once : forall v j j', stored_as v j -> stored_as v j' -> j = j'.
  Proof. intros v. induction v as [x|xs IH| | | | | |] using value_ind'; intros j j' A B; inversion A; subst; inversion B; subst; try congruence; try lia.
    f_equal. clear A B. match goal with P : Forall2 stored_as xs ?a, Q : Forall2 stored_as xs ?b |- _ => revert a b P Q end. induction IH as [|x xs K _ IHl]; intros js js0 A B; inversion A; subst; inversion B; subst; [reflexivity|]. f_equal; eauto. Qed.
  Lemma element_once : forall v j j', element_as v j -> element_as v j' -> j = j'.
  Proof. intros v j j' A B. inversion A; subst; inversion B; subst; try reflexivity; try (exfalso; match goal with K : forall xs, VArray _ <> _ |- _ => eapply K; reflexivity end); try (eapply stored_once; eassumption).
    all: repeat match goal with K : stored_as (VJson _) _ |- _ => inversion K; subst; clear K end; congruence. Qed.
  Lemma elements_once : forall xs js js', Forall2 element_as xs js -> Forall2 element_as xs js' -> js = js'.
  Proof. intros xs js js' A. revert js'. induction A as [|x j xs js K _ IH]; intros js' B; inversion B; subst; [reflexivity|]. f_equal; [eapply element_once; eassumption|auto]. Qed.
  Lemma result_once : forall v j j', Spec_command.result_as v j -> Spec_command.result_as v j' -> j = j'.
  Proof. intros v j j' A B. inversion A; subst; inversion B; subst; try (exfalso; match goal with K : forall xs, VArray _ <> _ |- _ => eapply K; reflexivity end); [eapply element_once; eassumption|].
    f_equal. eapply elements_once; eassumption. Qed.

  (** ** The same words *)
  Lemma client_words_same : forall p, client_words (for_client p) = words p.
  Proof. intros []; reflexivity. Qed.
  Lemma client_line_same : forall ps args, command_line ps args -> client_line (map for_client ps) args.
  Proof. intros ps args [F ->]. split.
    - apply Forall_map. eapply Forall_impl; [|exact F]. intros []; auto.
    - f_equal. rewrite map_map. apply map_ext. intros. symmetry. apply client_words_same. Qed.
  Lemma bindings_same : forall ps, sent_bindings (map for_client ps) = bindings ps.
  Proof. intros ps. unfold sent_bindings, bindings. induction ps as [|[| |] ps IH]; cbn; congruence. Qed.
  Lemma json_same : forall ps, sent_json (map for_client ps) = json_given ps.
  Proof. intros ps. unfold sent_json, json_given. generalize (@None str). induction ps as [|[| |] ps IH]; intros o; cbn; auto. Qed.
  Lemma token_same : forall ps default, sent_token default (map for_client ps) = default.
  Proof. intros ps. unfold sent_token. induction ps as [|[| |] ps IH]; intros o; cbn; auto. Qed.
  Lemma output_same : forall ps, In WantJson (map for_client ps) <-> as_json ps.
  Proof. intros ps. unfold as_json. rewrite in_map_iff. split; [intros ([| |] & E & K); try discriminate; exact K|]. intros K. exists AsJson. auto. Qed.
  Lemma alike : forall s v j, read_alike s -> argument_value s v -> argument_json s j -> Spec_json.stands_for j v.
  Proof. intros s v j A V J.
    assert (Z : exists v0 j0, argument_value s v0 /\ argument_json s j0 /\ Spec_json.stands_for j0 v0).
    { destruct A as [s inner Q|s W|s x F Fi|s A1 A2 A3 A4 A5].
      - exists (VString inner), (JStr inner). split; [now apply quoted_argument|]. split; [now apply quoted_json|constructor].
      - destruct W as [<-|[<-|[<-|[]]]].
        + exists (VBoolean true), (JBool true). split; [now apply true_argument|]. split; [apply true_json|constructor].
        + exists (VBoolean false), (JBool false). split; [now apply false_argument|]. split; [apply false_json|constructor].
        + exists VNull, JNull. split; [now apply null_argument|]. split; [apply null_json|constructor].
      - exists (VNumber x), (JNum (JFlt x)). split; [now apply number_argument|]. split; [now apply number_json|constructor].
      - exists (VString s), (JStr s). split; [now apply text_argument|]. split; [|constructor]. apply text_json; auto. intros W. apply word_same in W as (w & Iw & _ & E). exact (A3 w Iw E). }
    destruct Z as (v0 & j0 & V0 & J0 & S0). now rewrite (one_value U _ _ _ V V0), (json_unique _ _ _ J J0). Qed.
  Lemma alike_read : forall s, read_alike s -> (exists v, argument_value s v) /\ exists j, argument_json s j.
  Proof. intros s [s0 inner Q|s0 W|s0 x F Fi|s0 A1 A2 A3 A4 A5].
    - split; eexists; [eapply quoted_argument; eassumption|eapply quoted_json; eassumption].
    - destruct W as [<-|[<-|[<-|[]]]]; split; eexists; [now apply true_argument|apply true_json|now apply false_argument|apply false_json|now apply null_argument|apply null_json].
    - split; eexists; [eapply number_argument; eassumption|eapply number_json; eassumption].
    - split; eexists; [now apply text_argument|apply text_json; auto]. intros W. apply word_same in W as (w & Iw & _ & E). exact (A3 w Iw E). Qed.

  Lemma given_same : forall ps vs vars, json_given ps = None -> Forall (fun b => read_alike (snd b)) (bindings ps) -> bound ps vars -> sent_variables (map for_client ps) vs -> given_env vs vars.
  Proof. intros ps vs vars Nj A [_ B] [_ S0]. rewrite json_same, Nj, bindings_same in S0. destruct S0 as [Sn S0]. intros name v. rewrite B. split.
    - intros (text & L & V). assert (In (name, text) (bindings ps)) as I0 by (destruct L as (b & a & E & _); rewrite E; apply in_elt).
      rewrite Forall_forall in A. pose proof (A _ I0) as Al. cbn in Al. destruct (proj2 (alike_read _ Al)) as [j J].
      destruct vs as [kvs|]; [|exfalso; rewrite (proj1 Sn eq_refl) in I0; exact I0]. exists kvs, j. split; [reflexivity|]. split; [|now apply (alike text)]. apply (S0 kvs eq_refl). eauto.
    - intros (kvs & j & -> & M & St). apply (S0 kvs eq_refl) in M as (text & L & J). exists text. split; [exact L|]. assert (In (name, text) (bindings ps)) as I0 by (destruct L as (b & a & E & _); rewrite E; apply in_elt).
      rewrite Forall_forall in A. pose proof (A _ I0) as Al. cbn in Al. destruct (proj1 (alike_read _ Al)) as [v' V]. pose proof (alike _ _ _ Al V J) as St'. apply stands_iff in St. apply stands_iff in St'. congruence. Qed.

  Lemma agree_core : forall reg ms token exchange took default address expression ps args vars vs r, expression <> lit "--benchmark" \/ args = [] -> orders -> command_line ps args ->
    leaves ps r (sk_main reg ms (expression :: args)) -> Spec_http.gives reg expression vars r -> given_env vs vars -> sent_variables (map for_client ps) vs -> carried vs -> served_by reg token (exchange 0%nat) -> welcome token default ->
    (forall v, Spec_http.gives reg expression vars (Ok v) -> clean_result v) -> sk_main reg ms (expression :: args) <> Crashed ->
    exists o, client_program exchange took default (address :: expression :: args) = Asked o /\ tell_the_same (as_json ps) (sk_main reg ms (expression :: args)) o.
  Proof. intros reg ms token exchange took default address expression ps args vars vs r Nb O L K1 G Ge S0 C Sb W Cl Nc.
    pose proof (program_served reg token exchange took default address expression (map for_client ps) args vs vars r Nb O (client_line_same _ _ L) S0 C Sb) as K2. rewrite token_same in K2.
    specialize (K2 W Ge G (fun v E => Cl v ltac:(now rewrite <- E))).
    destruct r as [v|e|p]; cbn [leaves] in K1.
    - destruct K1 as (out & E1 & N1 & J1). destruct K2 as (j & J2 & N2 & E2). rewrite output_same in J2, N2. eexists. split; [exact E2|]. rewrite E1.
      destruct (in_dec (fun a b : part => ltac:(decide equality; apply (list_eq_dec N.eq_dec))) AsJson ps) as [D|D].
      + destruct (J1 D) as (d & (t1 & r1 & R1 & ->) & T). destruct (J2 D) as (t2 & r2 & R2 & ->). rewrite <- (result_once _ _ _ R1 R2). now apply (same_description _ r1 (kind_name v) t1 t2 out).
      + rewrite (N1 D). apply same_value; [exact D|now apply N2].
    - rewrite K1. eexists. split; [exact K2|constructor].
    - contradiction. Qed.
  Lemma agree_variables : forall reg ms token exchange took default address expression ps args vars vs, expression <> lit "--benchmark" \/ args = [] -> orders -> command_line ps args -> json_given ps = None ->
    Forall (fun b => read_alike (snd b)) (bindings ps) -> bound ps vars -> sent_variables (map for_client ps) vs -> carried vs -> served_by reg token (exchange 0%nat) -> welcome token default ->
    (forall v, Spec_http.gives reg expression vars (Ok v) -> clean_result v) -> sk_main reg ms (expression :: args) <> Crashed ->
    exists o, client_program exchange took default (address :: expression :: args) = Asked o /\ tell_the_same (as_json ps) (sk_main reg ms (expression :: args)) o.
  Proof. intros reg ms token exchange took default address expression ps args vars vs Nb O L Nj A B S0 C Sb W Cl Nc.
    assert (G : exists r, Spec_http.gives reg expression vars r).
    { destruct (statements expression) eqn:E; [apply statements_bool in E; eexists; left; split; [exact E|reflexivity]|]. apply not_true_iff_false in E. eexists. right. split; [intros K; apply E; now apply statements_bool|reflexivity]. }
    destruct G as [r G]. pose proof (command_variables U reg ms expression ps args vars r L Nj B G) as K1.
    eapply (agree_core reg ms token exchange took default address expression ps args vars vs r); try eassumption. exact (given_same _ _ _ Nj A B S0). Qed.

  (** ** A JSON object of variables *)
  Lemma object_agrees : forall text kvs vars w name, in_key_order (map fst kvs) -> (forall k, In k (map fst kvs) -> sanitised k k) -> given_env (Some kvs) vars -> object_bound text kvs w -> name <> lit "arguments" ->
    mget name w = mget name vars.
  Proof. intros text kvs vars w name O Sn G (B1 & B2 & _) Na. destruct (mget name kvs) as [j|] eqn:E.
    - assert (mget name vars = Some (json_to_value j)) as -> by (apply G; exists kvs, j; split; [reflexivity|]; split; [exact E|now apply stands_iff]).
      pose proof (mget_found _ _ _ _ E) as I0. apply in_split in I0 as (before & after & Ek). apply (B1 name before name j after); [exact Ek| | |now apply stands_iff].
      + apply Sn. rewrite Ek, map_app. cbn [map fst]. apply in_elt.
      + intros k' Ik' Sk'. assert (sanitised k' k') as Sk by (apply Sn; rewrite Ek, map_app; cbn [map]; apply in_or_app; right; right; exact Ik'). apply sanitised_iff in Sk, Sk'.
        apply order_nodup in O. rewrite Ek, map_app in O. cbn [map fst] in O. apply NoDup_remove_2 in O. apply O. apply in_or_app. right. congruence.
    - assert (mget name vars = None) as ->. { destruct (mget name vars) as [v|] eqn:Ev; [|reflexivity]. apply G in Ev as (kvs' & j & K & M & _). congruence. }
      apply B2; [|exact Na]. intros k Ik Sk. pose proof (Sn _ Ik) as Sk'. apply sanitised_iff in Sk, Sk'. apply mget_none in E. apply E. unfold mkeys. congruence. Qed.
  Lemma agree_json : forall reg ms token exchange took default address expression ps args text kvs vars, expression <> lit "--benchmark" \/ args = [] -> orders -> command_line ps args -> json_given ps = Some text ->
    Forall (fun b => (exists v, argument_value (snd b) v) /\ exists j, argument_json (snd b) j) (bindings ps) -> json_parse text = Some (JObj kvs) -> (forall k, In k (map fst kvs) -> sanitised k k) ->
    (forall e, parse expression = Ok e -> ~ In (lit "arguments") (variables e)) -> given_env (Some kvs) vars -> carried (Some kvs) -> served_by reg token (exchange 0%nat) -> welcome token default ->
    (forall v, Spec_http.gives reg expression vars (Ok v) -> clean_result v) -> sk_main reg ms (expression :: args) <> Crashed ->
    exists o, client_program exchange took default (address :: expression :: args) = Asked o /\ tell_the_same (as_json ps) (sk_main reg ms (expression :: args)) o.
  Proof. intros reg ms token exchange took default address expression ps args text kvs vars Nb O L J A P Sn Na Ge C Sb W Cl Nc.
    assert (Rv : Forall (fun b => exists v, argument_value (snd b) v) (bindings ps)) by (eapply Forall_impl; [|exact A]; cbn; tauto).
    assert (S0 : sent_variables (map for_client ps) (Some kvs)). { split; [rewrite bindings_same; eapply Forall_impl; [|exact A]; cbn; tauto|]. rewrite json_same, J. eauto. }
    destruct (json_variables text kvs P) as [Ko (w & _ & Ec & Bw)].
    assert (Ag : forall w, object_bound text kvs w -> forall e, parse expression = Ok e -> agree_on (variables e) w vars).
    { intros w0 B0 e Pe x Ix. apply (object_agrees text kvs); try assumption. intros ->. exact (Na e Pe Ix). }
    destruct (statements expression) eqn:Se.
    - apply statements_bool in Se. set (w1 := fold_left (fun m kv => minsert (sanitize_json_key (fst kv)) (json_to_value (snd kv)) m) kvs (minsert (lit "arguments") (VJson text) [])).
      assert (B1 : object_bound text kvs w1) by apply vars_bound.
      apply (agree_core reg ms token exchange took default address expression ps args vars (Some kvs) (evaluate_with_assignments expression w1)); try assumption.
      + now apply (command_statements U reg ms expression ps args text kvs w1).
      + left. split; [exact Se|]. destruct (parse expression) as [e|e|p] eqn:Pe; [apply (evaluate_with_agree expression e w1 vars Pe), (Ag w1 B1 e eq_refl)|unfold evaluate_with_assignments; now rewrite Pe|unfold evaluate_with_assignments; now rewrite Pe].
    - assert (Ns : ~ has_statements expression) by (intros K; apply statements_bool in K; congruence).
      apply (agree_core reg ms token exchange took default address expression ps args vars (Some kvs) (evaluate_with_json_custom reg expression text)); try assumption.
      + now apply (command_json U).
      + right. split; [exact Ns|]. rewrite Ec. destruct (parse expression) as [e|e|p] eqn:Pe; [apply (evaluate_with_agree expression e w vars Pe), (Ag w Bw e eq_refl)|unfold evaluate_with_custom; now rewrite Pe|unfold evaluate_with_custom; now rewrite Pe]. Qed.
End Agree.

(** ** Examples *)
Definition asked_value : value := VNumber (f_of_dec false 55 (-1)).
Lemma asked_short : short_text (@json_print example_ext (JNum (JFlt (f_of_dec false 55 (-1))))).
Proof. exists [], false, (lit "5"), (lit "5"). split; [now left|]. repeat split; try discriminate; vm_compute; try reflexivity; lia. Qed.
Lemma asked_clean : @clean_result example_ext asked_value.
Proof. assert (Dn : @document example_ext (JNum (JFlt (f_of_dec false 55 (-1))))) by (constructor; constructor; [reflexivity|vm_compute; reflexivity|apply asked_short]).
  assert (R : forall j, @Spec_command.element_as example_ext asked_value j -> j = JNum (JFlt (f_of_dec false 55 (-1)))).
  { intros j K. inversion K; subst. match goal with S1 : stored_as _ _ |- _ => inversion S1; subst end; [reflexivity|]. discriminate. }
  intros j [(time & j1 & K & ->)|K].
  - assert (j1 = JNum (JFlt (f_of_dec false 55 (-1)))) as -> by (inversion K; subst; now apply R). split; [|cbn; lia].
    apply object_document; [unfold in_key_order; cbn; repeat constructor|]. constructor; [constructor|]. constructor; [exact Dn|]. constructor; [constructor|constructor].
  - inversion K; subst. match goal with S1 : simple_element _ _ |- _ => inversion S1; subst end. match goal with S1 : element_as _ _ |- _ => apply R in S1; subst end. split; [exact Dn|cbn; lia]. Qed.
