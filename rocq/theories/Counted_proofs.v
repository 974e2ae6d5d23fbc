(** The statistics of the result cache, and what it forgets. *)
From Coq Require Import String List ZArith NArith Bool Lia.
From Verif Require Import Base F64 Syntax Ext Json Host Lines HttpRead HttpAuth JsPlugin Multipart HttpCache HttpServer HttpThreads Spec Spec_text Spec_http Spec_counted
  Base_proofs Env_proofs HttpRead_proofs HttpAuth_proofs HttpServer_proofs HttpIds_proofs HttpCache_proofs.
Import ListNotations.

Lemma held_mget : forall ops k, held ops k = match mget k (c_lru (cache_after ops)) with Some e => [e] | None => [] end.
Proof. intros ops k. unfold held, cache_get. now destruct (mget k _). Qed.
Lemma counts_from : forall after before, ~ In Clear after -> let s := c_stats (cache_after before) in let s' := c_stats (cache_after (before ++ after)) in
  cs_hits s' = (cs_hits s + N.of_nat (length (found before after)))%N /\ (cs_hits s' + cs_misses s' = cs_hits s + cs_misses s + N.of_nat (lookups after))%N
  /\ cs_saved s' = fold_left (fun t e => f_add t (e_ms e)) (found before after) (cs_saved s) /\ cs_evictions s' = (cs_evictions s + N.of_nat (length (replaced before after)))%N.
Proof.
  induction after as [|op after IH]; intros before Nc s s'.
  - subst s s'. rewrite app_nil_r. cbn. repeat split; lia.
  - assert (Nc' : ~ In Clear after) by (intros K; apply Nc; now right). specialize (IH (before ++ [op]) Nc'). cbv zeta in IH. rewrite <- app_assoc in IH. cbn [app] in IH. fold s' in IH.
    rewrite after_snoc in IH. cbn [found replaced]. destruct op as [k|k e|]; [| |exfalso; apply Nc; now left]; cbn [cache_do app] in IH; rewrite ?held_mget.
    + unfold cache_get in IH. change (lookups (Get k :: after)) with (S (lookups after)). destruct (mget k _) as [e|]; cbn [snd c_stats cs_hits cs_misses cs_saved cs_evictions] in IH; fold s in IH; cbn [app length fold_left];
        destruct IH as (A & B & C & D); (split; [lia|]); (split; [lia|]); (split; [exact C|lia]).
    + change (lookups (Put k e :: after)) with (lookups after). unfold cache_put, lru_put in IH. destruct (mget k _) as [e0|]; cbn [c_stats cs_hits cs_misses cs_saved cs_evictions] in IH; fold s in IH; cbn [app length fold_left];
        destruct IH as (A & B & C & D); (split; [lia|]); (split; [lia|]); (split; [exact C|lia]).
Qed.
Lemma counts : forall before after, since_empty before after -> let s := c_stats (cache_after (before ++ after)) in
  cs_hits s = N.of_nat (length (found before after)) /\ (cs_hits s + cs_misses s = N.of_nat (lookups after))%N
  /\ cs_saved s = fold_left (fun t e => f_add t (e_ms e)) (found before after) f_zero /\ cs_evictions s = N.of_nat (length (replaced before after)).
Proof.
  intros before after [E Nc] s. pose proof (counts_from after before Nc) as K. cbv zeta in K. fold s in K.
  assert (Z : c_stats (cache_after before) = no_stats) by (destruct E as [->|(b & ->)]; [reflexivity|rewrite after_snoc; reflexivity]). rewrite Z in K. cbn [cs_hits cs_misses cs_saved cs_evictions no_stats] in K. exact K.
Qed.

(** ** What is forgotten *)
Definition put_in (ops : list cache_op) (k : str) : Prop := exists e, In (Put k e) ops.
Lemma removelast_incl : forall A (l : list A) x, In x (removelast l) -> In x l.
Proof. intros A l x. induction l as [|a [|b l] IH]; cbn in *; [tauto|tauto|]. intros [->|K]; [now left|right; auto]. Qed.
Lemma removelast_cases : forall A (a : list A) x b, removelast (a ++ x :: b) = a \/ exists b', removelast (a ++ x :: b) = a ++ x :: b'.
Proof. intros A a x b. destruct b as [|y b]; [left; now rewrite removelast_last|right; exists (removelast (y :: b)); now apply removelast_keep]. Qed.
Lemma pushed : forall before k after, ~ In Clear after -> ~ In (Get k) after -> (forall e, ~ In (Put k e) after) ->
  ~ In k (mkeys (c_lru (cache_after (before ++ after)))) \/ exists pre e post, c_lru (cache_after (before ++ after)) = pre ++ (k, e) :: post /\ forall k', put_in after k' -> In k' (mkeys pre).
Proof.
  intros before k after. induction after as [|op after IH] using rev_ind; intros Nc Ng Np.
  - rewrite app_nil_r. destruct (in_dec (list_eq_dec N.eq_dec) k (mkeys (c_lru (cache_after before)))) as [I0|]; [|now left]. right. apply in_map_iff in I0 as ([k0 e] & Ek & I0). cbn in Ek. subst k0.
    apply in_split in I0 as (pre & post & E). exists pre, e, post. split; [exact E|]. intros k' (e' & []).
  - rewrite app_assoc, after_snoc. specialize (IH ltac:(intros K; apply Nc, in_or_app; now left) ltac:(intros K; apply Ng, in_or_app; now left) ltac:(intros e K; apply (Np e), in_or_app; now left)).
    set (c := cache_after (before ++ after)) in *.
    assert (Absent : forall k' e', k' <> k -> ~ In k (mkeys (c_lru c)) -> ~ In k (mkeys ((k', e') :: mremove k' (c_lru c)))).
    { intros k' e' Ne A [K|K]; [now apply Ne|]. apply A. unfold mkeys in *. apply in_map_iff in K as (x & Ex & K). apply mremove_in in K. apply in_map_iff. eauto. }
    assert (Moved : forall k' e' pre e post, k' <> k -> c_lru c = pre ++ (k, e) :: post -> (k', e') :: mremove k' (c_lru c) = ((k', e') :: mremove k' pre) ++ (k, e) :: mremove k' post).
    { intros k' e' pre e post Ne ->. rewrite mremove_app. cbn [mremove]. destruct (str_eqb k' k) eqn:Q; [apply str_eqb_eq in Q; contradiction|reflexivity]. }
    assert (Still : forall k' (e' : entry) pre x, In x (mkeys pre) -> In x (mkeys ((k', e') :: mremove k' pre))).
    { intros k' e' pre x I0. destruct (list_eq_dec N.eq_dec x k') as [->|Ne]; [now left|]. right. unfold mkeys in *. induction pre as [|[k0 e0] pre Ip]; [contradiction|]. cbn [mremove]. destruct (str_eqb k' k0) eqn:Q.
      - apply str_eqb_eq in Q. subst k0. destruct I0 as [I0|I0]; [cbn in I0; congruence|auto].
      - destruct I0 as [I0|I0]; [now left|right; auto]. }
    destruct op as [k'|k' e'|]; [| |exfalso; apply Nc, in_or_app; right; now left]; cbn [cache_do].
    + assert (Ne : k' <> k) by (intros ->; apply Ng, in_or_app; right; now left).
      assert (Pi : forall x, put_in (after ++ [Get k']) x -> put_in after x) by (intros x (e & K); exists e; apply in_app_or in K as [K|[K|[]]]; [exact K|discriminate]).
      unfold cache_get. destruct (mget k' (c_lru c)) as [e0|]; cbn [snd c_lru]; [|destruct IH as [A|(pre & e & post & E & A)]; [now left|right; exists pre, e, post; split; auto]].
      destruct IH as [A|(pre & e & post & E & A)]; [left; now apply Absent|]. right. exists ((k', e0) :: mremove k' pre), e, (mremove k' post). split; [now apply Moved|]. intros x K. apply Still, A, Pi, K.
    + assert (Ne : k' <> k) by (intros ->; apply (Np e'), in_or_app; right; now left).
      assert (Pi : forall x, put_in (after ++ [Put k' e']) x -> x = k' \/ put_in after x) by (intros x (e & K); apply in_app_or in K as [K|[K|[]]]; [right; now exists e|injection K as -> _; now left]).
      unfold cache_put, lru_put. destruct (mget k' (c_lru c)) as [e0|]; cbn [c_lru].
      * destruct IH as [A|(pre & e & post & E & A)]; [left; now apply Absent|]. right. exists ((k', e') :: mremove k' pre), e, (mremove k' post). split; [now apply Moved|]. intros x K. destruct (Pi x K) as [->|K']; [now left|apply Still, A, K'].
      * destruct IH as [A|(pre & e & post & E & A)].
        { left. intros [K|K]; [now apply Ne|]. apply A. destruct (_ <? _)%nat; [exact K|]. unfold mkeys in *. apply in_map_iff in K as (x & Ex & K). apply removelast_incl in K. apply in_map_iff. eauto. }
        assert (In' : forall x, put_in (after ++ [Put k' e']) x -> In x (mkeys ((k', e') :: pre))) by (intros x K; destruct (Pi x K) as [->|K']; [now left|right; apply A, K']).
        destruct (_ <? _)%nat; [right; exists ((k', e') :: pre), e, post; rewrite E; now split|]. rewrite E. destruct (removelast_cases _ pre (k, e) post) as [->|(b' & ->)]; [|right; exists ((k', e') :: pre), e, b'; now split].
        left. intros [K|K]; [now apply Ne|]. pose proof (after_keys (before ++ after)) as (Nd & _). fold c in Nd. rewrite E in Nd. unfold mkeys in Nd. rewrite map_app in Nd. apply NoDup_remove_2 in Nd. apply Nd, in_or_app. now left.
Qed.
Lemma forgets : forall before k after keys, ~ In Clear after -> ~ In (Get k) after -> (forall e, ~ In (Put k e) after) -> NoDup keys -> (1000 <= length keys)%nat -> (forall k', In k' keys -> exists e, In (Put k' e) after) ->
  fst (cache_get k (cache_after (before ++ after))) = None.
Proof.
  intros before k after keys Nc Ng Np Nd L P. pose proof (after_keys (before ++ after)) as (_ & Sz & _). unfold cache_get.
  destruct (pushed before k after Nc Ng Np) as [A|(pre & e & post & E & A)].
  - apply mget_none in A. now rewrite A.
  - exfalso. rewrite E, app_length in Sz. cbn [length] in Sz. assert (In0 : incl keys (mkeys pre)) by (intros x I0; apply A, P, I0). pose proof (NoDup_incl_length Nd In0) as K. unfold mkeys in K. rewrite map_length in K. lia.
Qed.
Lemma distinct_keys : forall e ks before, NoDup ks -> (forall k, In k ks -> held before k = []) -> (forall k' e', In (Put k' e') before -> ~ In k' ks) -> replaced before (map (fun k => Put k e) ks) = [].
Proof.
  intros e ks. induction ks as [|k ks IH]; intros before Nd Hh Hp; [reflexivity|]. cbn [map replaced]. rewrite (Hh k (or_introl eq_refl)). cbn [app]. inversion Nd as [|? ? N1 N2]; subst.
  assert (Hp' : forall k' e', In (Put k' e') (before ++ [Put k e]) -> ~ In k' ks). { intros k' e' K. apply in_app_or in K as [K|[K|[]]]; [intros I0; apply (Hp k' e' K); now right|injection K as -> _; exact N1]. }
  apply IH; [exact N2| |exact Hp'].
  intros x I0. rewrite held_mget. destruct (mget x _) as [e0|] eqn:M; [|reflexivity]. exfalso. apply mget_found in M. apply found_put in M as (b & a & E & _). apply (Hp' x e0); [rewrite E; apply in_or_app; right; now left|exact I0].
Qed.
Lemma uncounted : forall k ks e, NoDup (k :: ks) -> (1000 <= length ks)%nat -> let c := cache_after (map (fun k => Put k e) (k :: ks)) in
  fst (cache_get k c) = None /\ cs_evictions (c_stats c) = 0%N.
Proof.
  intros k ks e Nd L c. assert (Nc : ~ In Clear (map (fun k => Put k e) (k :: ks))) by (intros K; apply in_map_iff in K as (x & K & _); discriminate). split.
  - inversion Nd as [|? ? N1 N2]; subst. change c with (cache_after ([Put k e] ++ map (fun k => Put k e) ks)). apply forgets with ks; auto.
    + intros K. apply Nc. now right.
    + intros K. apply in_map_iff in K as (x & K & _). discriminate.
    + intros e' K. apply in_map_iff in K as (x & [= -> _] & K). now apply N1.
    + intros k' I0. exists e. apply in_map_iff. eauto.
  - destruct (counts [] (map (fun k => Put k e) (k :: ks)) (conj (or_introl eq_refl) Nc)) as (_ & _ & _ & D). cbn [app] in D. fold c in D. rewrite D, distinct_keys; auto.
Qed.

(** ** The server's cache *)
Definition one_op (w w' : world) : Prop := w_cache w' = w_cache w \/ exists op, w_cache w' = cache_do (w_cache w) op.
Section Server.
  Context {X : Ext} {H : Host} (token admin : option str).
  Lemma one_refl : forall w, one_op w w. Proof. now left. Qed.
  Lemma one_finish : forall req vars id r, within one_op (finish req vars id r).
  Proof. intros req vars id r. unfold finish, record_request. apply within_act'; [now left|]. intros _. apply within_act'; [now left|]. intros _. constructor. Qed.
  Lemma one_process : forall req, within one_op (process_eval_request req).
  Proof.
    intros req. unfold process_eval_request. apply within_act'; [now left|]. intros id. cbv zeta. apply within_act'; [intros w; right; exists (Get (generate_cache_key (r_expression req) (request_vars id (r_arguments req)))); cbn [cache_do]; destruct (cache_get _ (w_cache w)); reflexivity|].
    intros [e|]; [apply one_finish|]. apply within_act'; [now left|]. intros r. apply within_unless; intros; [|apply one_finish]. apply within_act'; [intros w; right; eexists (Put _ _); reflexivity|]. intros _. apply one_finish.
  Qed.
  Lemma one_handler : forall (w0 : world) r, unicode X -> within one_op (handle_http_request token admin r).
  Proof.
    intros w0 r U. destruct (handler_cases token admin w0 r U) as [(text & req & _ & _ & ->)|(W & _)]; [apply one_process|]. eapply within_weaken; [|exact W]. intros w w' [A|A]; [now left|right; now exists Clear].
  Qed.
  Lemma server_ops : forall w evs, unicode X -> w_cache w = new_cache -> exists ops, w_cache (sv_world (serving token admin w evs)) = cache_after ops.
  Proof.
    intros w evs U C0. induction evs as [|ev evs (ops & IH)] using rev_ind; [exists []; exact C0|]. unfold serving, sv_run in *. rewrite fold_left_app. cbn [fold_left]. fold (sv_run token admin (mkServer w []) evs) in *. set (s := sv_run token admin (mkServer w []) evs) in *.
    destruct ev as [r|i]; [exists ops; exact IH|]. destruct (nth_error (sv_jobs s) i) as [[r p]|] eqn:J; [|exists ops; cbn [sv_step]; rewrite J; exact IH].
    pose proof (job_within token admin one_op w evs i r p one_refl (one_handler w r U) J) as K. change (serving token admin w evs) with s in K. destruct K as [K|(op & K)]; [exists ops; congruence|]. exists (ops ++ [op]). rewrite after_snoc, <- IH. exact K.
  Qed.
End Server.
Lemma last_clear : forall ops, exists before after, ops = before ++ after /\ since_empty before after.
Proof.
  intros ops. induction ops as [|op ops (b & a & -> & S0 & N0)] using rev_ind; [exists [], []; repeat split; [now left|intros []]|].
  destruct op as [k|k e|]; [exists b, (a ++ [Get k])|exists b, (a ++ [Put k e])|exists ((b ++ a) ++ [Clear]), []; rewrite app_nil_r; repeat split; [right; eauto|intros []]];
    (split; [now rewrite app_assoc|split; [exact S0|]]); intros K; apply in_app_or in K as [K|[K|[]]]; [auto|discriminate|auto|discriminate].
Qed.
Lemma server_counts : forall {X : Ext} {H : Host} (token admin : option str) w evs, unicode X -> w_cache w = new_cache -> let c := w_cache (sv_world (serving token admin w evs)) in
  exists before after, since_empty before after /\ c = cache_after (before ++ after) /\ cs_hits (c_stats c) = N.of_nat (length (found before after)) /\ (cs_hits (c_stats c) + cs_misses (c_stats c) = N.of_nat (lookups after))%N
    /\ cs_saved (c_stats c) = fold_left (fun t e => f_add t (e_ms e)) (found before after) f_zero /\ cs_evictions (c_stats c) = N.of_nat (length (replaced before after)).
Proof.
  intros X H token admin w evs U C0 c. destruct (server_ops token admin w evs U C0) as (ops & E). destruct (last_clear ops) as (b & a & -> & S0). exists b, a. split; [exact S0|]. split; [exact E|]. unfold c. rewrite E. apply (counts b a S0).
Qed.

(** ** Lookups and requests *)
Definition looked (w : world) : N := cs_hits (c_stats (w_cache w)) + cs_misses (c_stats (w_cache w)).
Definition calm (w w' : world) : Prop := looked w' = looked w.
Definition no_clear (w w' : world) : Prop := w_cache w' = w_cache w \/ exists op, op <> Clear /\ w_cache w' = cache_do (w_cache w) op.
Lemma get_looked : forall k c, let c' := snd (cache_get k c) in (cs_hits (c_stats c') + cs_misses (c_stats c') = cs_hits (c_stats c) + cs_misses (c_stats c) + 1)%N.
Proof. intros k c. unfold cache_get. destruct (mget k _); cbn [snd c_stats cs_hits cs_misses]; lia. Qed.
Lemma put_looked : forall k e c, let c' := cache_put k e c in (cs_hits (c_stats c') + cs_misses (c_stats c') = cs_hits (c_stats c) + cs_misses (c_stats c))%N.
Proof. intros k e c. unfold cache_put, lru_put. destruct (mget k _); reflexivity. Qed.
Lemma within_both : forall (G1 G2 : world -> world -> Prop) p, within G1 p -> within G2 p -> within (fun w w' => G1 w w' /\ G2 w w') p.
Proof. intros G1 G2 p W1. induction W1 as [r|f A1 K1 IH]; intros W2; [constructor|]. inversion W2 as [|? A2 K2]; subst. constructor; [intros w; split; auto|intros w; apply IH, K2]. Qed.
Lemma quiet_calm : forall w w', cquiet w w' /\ no_clear w w' -> calm w w'.
Proof.
  intros w w' [[A|A] [B|(op & N0 & B)]]; unfold calm, looked; try now rewrite A. now rewrite B. rewrite A in B |- *. destruct op as [k|k e|]; [| |contradiction]; cbn [cache_do] in B.
  - pose proof (get_looked k (w_cache w)) as K. cbv zeta in K. rewrite <- B in K. cbn in K. lia.
  - apply (f_equal (fun c => length (c_lru c))) in B. unfold cache_put, lru_put in B. destruct (mget k _); cbn in B; discriminate.
Qed.
Section Requests.
  Context {X : Ext} {H : Host} (token admin : option str).
  Lemma nc_refl : forall w, no_clear w w. Proof. now left. Qed.
  Lemma nc_file : forall p w w', changes_file p w w' -> no_clear w w'. Proof. unfold changes_file, no_clear. tauto. Qed.
  Lemma nc_functions : forall w w', changes_functions w w' -> no_clear w w'. Proof. unfold changes_functions, no_clear. tauto. Qed.
  Lemma nc_finish : forall req vars id r, within no_clear (finish req vars id r).
  Proof. intros req vars id r. unfold finish, record_request. apply within_act'; [now left|]. intros _. apply within_act'; [now left|]. intros _. constructor. Qed.
  Lemma nc_process : forall req, within no_clear (process_eval_request req).
  Proof.
    intros req. unfold process_eval_request. apply within_act'; [now left|]. intros id. cbv zeta. apply within_act'; [intros w; right; exists (Get (generate_cache_key (r_expression req) (request_vars id (r_arguments req)))); split; [discriminate|]; cbn [cache_do]; destruct (cache_get _ (w_cache w)); reflexivity|].
    intros [e|]; [apply nc_finish|]. apply within_act'; [now left|]. intros r. apply within_unless; intros; [|apply nc_finish]. apply within_act'; [intros w; right; eexists (Put _ _); split; [discriminate|reflexivity]|]. intros _. apply nc_finish.
  Qed.
  Lemma not_clear : forall r, (forall text, r = inl text -> ~ is_clear text) -> within no_clear (handle_http_request token admin r).
  Proof.
    intros [text|e] K; [|constructor]. specialize (K text eq_refl). cbn [handle_http_request]. unfold route. destruct (lines text) as [|l ls] eqn:L; [constructor|]. destruct (split_whitespace l) as [|m [|p [|v more]]] eqn:W; try constructor.
    cbv zeta. destruct (split_char_hd 63 p) as (q & Eq & Q). set (p0 := hd [] (split_char 63 p)) in *.
    assert (Rl : is_route m p0 "DELETE" "/cache" = false).
    { destruct (is_route m p0 "DELETE" "/cache") eqn:E; [|reflexivity]. apply is_route_eq in E as [-> E]. exfalso. apply K. exists l, ls, q, v, more. rewrite E in Eq. rewrite <- Eq. auto. }
    rewrite Rl. repeat match goal with |- within _ (if ?b then _ else _) => destruct b end; try constructor; try (intros w; try apply nc_refl; repeat (constructor; intros; try apply nc_refl)).
    - apply within_guarded. destruct (parse_json_body _ _ _); [apply nc_process|constructor].
    - apply within_guarded. rewrite L. cbn [hd]. rewrite W. cbv zeta. match goal with |- context [q_expression ?x] => destruct (q_expression x) end; [constructor|apply nc_process].
    - apply within_guarded. apply within_unless; [|constructor]. intros q0. destruct (ends_with _ _); [|constructor]. destruct (js_source q0); [|constructor]. eapply within_weaken; [apply nc_file|apply store_changes].
    - apply within_guarded. apply within_unless; [|constructor]. intros q0. destruct (ends_with _ _); [|constructor]. apply within_act'; [apply nc_refl|]. intros [|]; [|constructor]. destruct (js_source q0); [|constructor]. eapply within_weaken; [apply nc_file|apply store_changes].
    - apply within_guarded. destruct (parse_json_body _ _ _) as [name|e]; [|constructor]. destruct (ends_with _ _); [|constructor]. apply within_act'; [intros w; eapply nc_file; pose proof (delete_changes name w) as K'; destruct (delete_js_file name (w_files w)); exact K'|]. intros [e|]; constructor.
    - apply within_guarded, within_act'; [apply nc_refl|]. intros [fs|e]; constructor.
    - apply within_guarded. unfold auto_register. apply within_act'; [apply nc_refl|]. intros q0. apply within_unless; [|constructor]. intros fs. eapply within_weaken; [apply nc_functions|]. apply register_changes; constructor.
  Qed.
  Lemma calm_finish : forall req vars id r, within calm (finish req vars id r).
  Proof. intros req vars id r. unfold finish, record_request. apply within_act'; [reflexivity|]. intros _. apply within_act'; [reflexivity|]. intros _. constructor. Qed.
  Lemma calm_miss : forall req id, within calm (after_miss req id).
  Proof.
    intros req id. unfold after_miss. apply within_act'; [reflexivity|]. intros r. apply within_unless; intros; [|apply calm_finish]. unfold after_ok. apply within_act'; [intros w; apply put_looked|]. intros _. apply calm_finish.
  Qed.
  (** how far a request is: [done] tells whether it looked into the cache *)
  Definition progress (looked_up : bool) (r : str + HttpRead.io_error) (p : prog) : Prop :=
    (exists text req, r = inl text /\ eval_of text req /\
       (looked_up = false /\ (p = process_eval_request req \/ exists id, p = after_id req id) \/ looked_up = true /\ within calm p))
    \/ (looked_up = false /\ within calm p /\ forall text req, r = inl text -> eval_of text req -> ~ authorised token text).
  Lemma progress_start : forall (w0 : world) r, unicode X -> (forall text, r = inl text -> ~ is_clear text) -> progress false r (handle_http_request token admin r).
  Proof.
    intros w0 r U K. destruct (handler_cases token admin w0 r U) as [(text & req & -> & E & ->)|(W & No)].
    - left. exists text, req. repeat split; auto.
    - right. split; [reflexivity|]. split; [|exact No]. eapply within_weaken; [apply quiet_calm|]. apply within_both; [exact W|]. now apply not_clear.
  Qed.
  Lemma progress_move : forall b r p w, progress b r p -> exists b', progress b' r (snd (move p w)) /\ ((b' = b /\ looked (fst (move p w)) = looked w) \/ (b = false /\ b' = true /\ looked (fst (move p w)) = (looked w + 1)%N)).
  Proof.
    intros b r p w [(text & req & -> & E & [(-> & [-> | (id & ->)])|(-> & W)])|(-> & W & No)].
    - exists false. rewrite process_shape. split; [|left; now split]. left. exists text, req. repeat split; auto. left. split; [reflexivity|]. right. eexists. reflexivity.
    - exists true. cbn. pose proof (get_looked (key_of req id) (w_cache w)) as G. cbv zeta in G. destruct (cache_get (key_of req id) (w_cache w)) as [hit c]; cbn in *. split; [|right; repeat split; exact G].
      left. exists text, req. repeat split; auto. right. split; [reflexivity|]. destruct hit; [apply calm_finish|apply calm_miss].
    - destruct (within_move calm p w W) as [A B]; [reflexivity|]. exists true. split; [|left; split; [reflexivity|exact A]]. left. exists text, req. repeat split; auto.
    - destruct (within_move calm p w W) as [A B]; [reflexivity|]. exists false. split; [|left; split; [reflexivity|exact A]]. right. auto.
  Qed.
  Lemma requests : forall w evs, unicode X -> w_cache w = new_cache -> (forall text, In (Arrive (inl text)) evs -> ~ is_clear text) ->
    let s := serving token admin w evs in let st := c_stats (w_cache (sv_world s)) in
    exists done, NoDup done /\ N.of_nat (length done) = (cs_hits st + cs_misses st)%N
      /\ (forall i, In i done -> exists text req p, job_at s i (inl text) p /\ eval_of text req)
      /\ (forall i text req answer, eval_of text req -> authorised token text -> answered s i (inl text) answer -> In i done).
  Proof.
    intros w evs U C0. change (let s := serving token admin w evs in let st := c_stats (w_cache (sv_world s)) in ?G) with G.
    assert (Inv : (forall text, In (Arrive (inl text)) evs -> ~ is_clear text) -> let s := serving token admin w evs in exists done, NoDup done /\ N.of_nat (length done) = looked (sv_world s)
      /\ (forall i, In i done -> exists j, nth_error (sv_jobs s) i = Some j) /\ forall i r p, job_at s i r p -> exists b, progress b r p /\ (b = true <-> In i done)).
    { induction evs as [|ev evs IH] using rev_ind; intros Nc s.
      - exists []. repeat split; [constructor|unfold looked; cbn; rewrite C0; reflexivity|intros i []|intros [|i] r p; discriminate].
      - destruct IH as (done & Nd & Ln & Ex & Pr); [intros text I0; apply Nc, in_or_app; now left|]. subst s. rewrite run_snoc. set (s := serving token admin w evs) in *. destruct ev as [r0|k]; cbn [sv_step].
        + exists done. repeat split; [exact Nd|exact Ln| |].
          * intros i I0. destruct (Ex i I0) as (j & J). exists j. cbn. rewrite nth_error_app1; [exact J|]. apply nth_error_Some. congruence.
          * intros i r p E. unfold job_at in E. cbn [sv_jobs] in E. destruct (Nat.lt_ge_cases i (length (sv_jobs s))) as [L|G].
            -- rewrite nth_error_app1 in E by assumption. now apply Pr.
            -- rewrite nth_error_app2 in E by assumption. destruct (i - length (sv_jobs s))%nat as [|[|]]; try discriminate. cbn in E. injection E as <- <-. exists false. split; [apply (progress_start w); [exact U|]; intros text ->; apply Nc, in_or_app; right; now left|].
               split; [discriminate|]. intros I0. destruct (Ex i I0) as (j & J). assert (i < length (sv_jobs s))%nat by (apply nth_error_Some; congruence). lia.
        + destruct (nth_error (sv_jobs s) k) as [[r0 p0]|] eqn:E0; [|exists done; auto]. cbn [jb_prog jb_read]. destruct (Pr k r0 p0 E0) as (b & Pb & Ib). destruct (progress_move b r0 p0 (sv_world s) Pb) as (b' & Pb' & Ch).
          destruct (move p0 (sv_world s)) as [w' p'] eqn:M. cbn [fst snd] in *.
          assert (Jobs : forall i r p, job_at (mkServer w' (replace k (mkJob r0 p') (sv_jobs s))) i r p -> (i = k /\ r = r0 /\ p = p') \/ (i <> k /\ job_at s i r p)).
          { intros i r p E. unfold job_at in E. cbn [sv_jobs] in E. rewrite nth_replace in E. destruct (Nat.eqb_spec k i) as [->|Ne]; [|right; split; auto]. rewrite E0 in E. injection E as <- <-. now left. }
          assert (Ex' : forall i, In i done -> exists j, nth_error (replace k (mkJob r0 p') (sv_jobs s)) i = Some j).
          { intros i I0. destruct (Ex i I0) as (j & J). rewrite nth_replace. destruct (Nat.eqb_spec k i) as [->|Ne]; [rewrite J|]; eauto. }
          destruct Ch as [(-> & Lk)|(-> & -> & Lk)].
          * exists done. repeat split; [exact Nd|cbn [sv_world]; congruence|exact Ex'|]. intros i r p E. destruct (Jobs i r p E) as [(-> & -> & ->)|(Ne & E')]; [eauto|now apply Pr].
          * assert (Nk : ~ In k done) by (intros K; apply Ib in K; discriminate). exists (k :: done). repeat split.
            -- now constructor.
            -- cbn [length sv_world]. rewrite Lk, <- Ln. lia.
            -- intros i [<-|I0]; [cbn; rewrite nth_replace, Nat.eqb_refl, E0; eauto|auto].
            -- intros i r p E. destruct (Jobs i r p E) as [(-> & -> & ->)|(Ne & E')]; [exists true; split; [exact Pb'|]; split; [now left|reflexivity]|]. destruct (Pr i r p E') as (b & Pb0 & Ib0). exists b. split; [exact Pb0|]. rewrite Ib0. split; [now right|intros [K|K]; [congruence|exact K]]. }
    intros Nc s st. destruct (Inv Nc) as (done & Nd & Ln & Ex & Pr). exists done. split; [exact Nd|]. split; [exact Ln|]. split.
    - intros i I0. destruct (Ex i I0) as ([r p] & J). destruct (Pr i r p J) as (b & Pb & Ib). apply Ib in I0. subst b. destruct Pb as [(text & req & -> & E & _)|(K & _)]; [eauto|discriminate].
    - intros i text req answer E Au An. destruct (Pr _ _ _ An) as (b & Pb & Ib). apply Ib. destruct Pb as [(text' & req' & _ & _ & [(_ & [K|(id & K)])|(K & _)])|(_ & _ & No)]; [rewrite process_shape in K; discriminate|discriminate|exact K|exfalso; exact (No _ _ eq_refl E Au)].
  Qed.
End Requests.
