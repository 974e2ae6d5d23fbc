(** Authentication and routing. *)
From Coq Require Import String List ZArith NArith Bool Lia.
From Verif Require Import Base F64 Syntax Utf8 Ext Json Lines Host HttpRead HttpAuth HttpCache HttpServer HttpThreads Spec_syntax Spec_http Base_proofs Utf8_proofs Parse_proofs HttpRead_proofs.
Import ListNotations.
Local Open Scope N_scope.

Lemma slice_ascii : forall p s, Forall (fun c => c < 128) p -> slice_from (N.of_nat (length p)) (p ++ s) = Some s.
Proof.
  intros p s F. induction F as [|c p L F IH]; [now destruct s|]. cbn [length app slice_from]. destruct (N.eqb_spec (N.of_nat (S (length p))) 0); [lia|].
  rewrite enc1_ascii by assumption. cbn [length]. destruct (N.leb_spec (N.of_nat 1) (N.of_nat (S (length p)))); [|lia]. replace (N.of_nat (S (length p)) - N.of_nat 1) with (N.of_nat (length p)) by lia. exact IH.
Qed.
Lemma lower_lt : forall c, lower_ascii c < 128 -> c < 128.
Proof. intros c L. unfold lower_ascii in L. destruct (is_upper_ascii c) eqn:U; [|assumption]. unfold is_upper_ascii in U. apply andb_true_iff in U as [_ U]. apply N.leb_le in U. lia. Qed.
Lemma map_lower_ascii : forall n p, map lower_ascii n = p -> Forall (fun c => c < 128) p -> Forall (fun c => c < 128) n /\ length n = length p.
Proof.
  intros n p <- F. split; [|now rewrite map_length]. rewrite Forall_map in F. eapply Forall_impl; [|exact F]. exact lower_lt.
Qed.
Lemma authorization_ok : name_ok "authorization".
Proof. repeat constructor; vm_compute; discriminate. Qed.
Lemma bearer_starts : forall `{X : Ext} v, unicode X -> (starts_with (lit "bearer ") (to_lowercase v) = true <-> exists b rest, v = b ++ rest /\ map lower_ascii b = lit "bearer ").
Proof.
  intros X v U. split.
  - intros K. apply (lower_starts (lit "bearer ") [] v U) in K; auto; [repeat constructor; vm_compute; discriminate|vm_compute; discriminate].
  - intros (b & rest & -> & M). unfold to_lowercase. destruct (lower_ascii_prefix b [] rest) as [t ->]; [rewrite M; repeat constructor|]. rewrite M. apply starts_with_spec. now exists t.
Qed.

Section Auth.
  Context {X : Ext} {H : Host}.
  Lemma header_slice : forall t value, is_header "authorization" t value -> slice 14 t = Ok value.
  Proof.
    intros t value (n & -> & M). unfold slice. apply map_lower_ascii in M as [F L]; [|repeat constructor]. change 14 with (N.of_nat 14).
    replace 14%nat with (length (n ++ [58])) by (rewrite app_length, L; reflexivity). change (n ++ 58 :: value) with (n ++ [58] ++ value). rewrite app_assoc, slice_ascii; [reflexivity|]. apply Forall_app. split; [assumption|repeat constructor].
  Qed.
  Lemma bearer_slice : forall b rest, map lower_ascii b = lit "bearer " -> slice 7 (b ++ rest) = Ok rest.
  Proof.
    intros b rest M. unfold slice. apply map_lower_ascii in M as [F L]; [|repeat constructor]. change 7 with (N.of_nat 7). replace 7%nat with (length b) by (rewrite L; reflexivity). now rewrite slice_ascii.
  Qed.
  Lemma credential_found : forall core tok, unicode X -> credential core tok ->
    (if starts_with (lit "bearer ") (to_lowercase core) then t <- slice 7 core ;; Ok (Some (trim t)) else Ok (Some core)) = Ok (Some tok).
  Proof.
    intros core tok U [(b & rest & E & M & T)|[Nb ->]].
    - assert (starts_with (lit "bearer ") (to_lowercase core) = true) as -> by (apply bearer_starts; eauto). subst core. rewrite bearer_slice by assumption. cbn [bind]. apply trimmed_iff in T. now subst.
    - destruct (starts_with (lit "bearer ") (to_lowercase core)) eqn:E; [|reflexivity]. apply bearer_starts in E; [|assumption]. destruct E as (b & rest & E & M). now apply Nb in E.
  Qed.
  Lemma credential_total : forall core, exists tok, credential core tok.
  Proof.
    intros core. destruct (list_eq_dec N.eq_dec (map lower_ascii (firstn 7 core)) (lit "bearer ")) as [E|E].
    - exists (trim (skipn 7 core)). left. exists (firstn 7 core), (skipn 7 core). split; [now rewrite firstn_skipn|]. split; [assumption|]. now apply trimmed_iff.
    - exists core. right. split; [|reflexivity]. intros b rest -> M. apply E. assert (L : length b = 7%nat) by (apply (f_equal (@length N)) in M; now rewrite map_length in M). rewrite firstn_app, L, firstn_all2, Nat.sub_diag, firstn_O, app_nil_r by lia. exact M.
  Qed.
  Lemma auth_in_found : forall before l after t value core tok, unicode X -> Forall no_authorization before -> trimmed l t -> is_header "authorization" t value -> trimmed value core -> credential core tok ->
    auth_in (before ++ l :: after) = Ok (Some tok).
  Proof.
    intros before l after t value core tok U F T Hv Tv C. pose proof authorization_ok as Ok'. induction F as [|b before Nb F IH].
    - cbn [app auth_in]. apply trimmed_iff in T. subst t. change (lit "authorization:") with (lit "authorization" ++ [58]).
      assert (starts_with (lit "authorization" ++ [58]) (to_lowercase (trim l)) = true) as -> by (apply header_starts; eauto). rewrite (header_slice _ _ Hv). cbn [bind]. apply trimmed_iff in Tv. subst core. now apply credential_found.
    - cbn [app auth_in]. change (lit "authorization:") with (lit "authorization" ++ [58]). destruct (starts_with (lit "authorization" ++ [58]) (to_lowercase (trim b))) eqn:E; [|assumption]. apply header_starts in E; auto. destruct E as [v E]. exfalso. exact (Nb (trim b) (trim_trimmed b) v E).
  Qed.
  Lemma auth_in_none : forall ls, unicode X -> Forall no_authorization ls -> auth_in ls = Ok None.
  Proof.
    intros ls U F. pose proof authorization_ok as Ok'. induction F as [|b before Nb F IH]; [reflexivity|]. cbn [auth_in]. change (lit "authorization:") with (lit "authorization" ++ [58]).
    destruct (starts_with (lit "authorization" ++ [58]) (to_lowercase (trim b))) eqn:E; [|assumption]. apply header_starts in E; auto. destruct E as [v E]. exfalso. exact (Nb (trim b) (trim_trimmed b) v E).
  Qed.
  Lemma supplies_check : forall m text tok cfg, unicode X -> supplies text tok -> check_token m text (Some cfg) = Ok (if str_eqb tok cfg then None else Some (unauthorized m)).
  Proof.
    intros m text tok cfg U [(before & l & after & t & value & core & E & F & T & Hv & Tv & C)|[F ->]]; unfold check_token, extract_auth_header.
    - rewrite E. erewrite auth_in_found by eauto. reflexivity.
    - rewrite auth_in_none by assumption. reflexivity.
  Qed.
  Lemma header_dec : forall l, no_authorization l \/ exists v, is_header "authorization" (trim l) v.
  Proof.
    intros l. set (t := trim l). destruct (list_eq_dec N.eq_dec (map lower_ascii (firstn 13 t)) (lit "authorization")) as [E|E].
    - destruct (skipn 13 t) as [|c v] eqn:K.
      + left. intros t' T v (n & Et & M). apply trimmed_iff in T. fold t in T. rewrite T in Et. assert (L : length n = 13%nat) by (apply (f_equal (@length N)) in M; now rewrite map_length in M).
        rewrite Et, skipn_app, L, Nat.sub_diag, skipn_all2 in K by lia. discriminate.
      + destruct (N.eq_dec c 58) as [->|Nc].
        * right. exists v, (firstn 13 t). split; [|assumption]. rewrite <- K. symmetry. apply firstn_skipn.
        * left. intros t' T v' (n & Et & M). apply trimmed_iff in T. fold t in T. rewrite T in Et. assert (L : length n = 13%nat) by (apply (f_equal (@length N)) in M; now rewrite map_length in M).
          rewrite Et, skipn_app, L, Nat.sub_diag, skipn_all2 in K by lia. injection K as Kc _. now apply Nc.
    - left. intros t' T v (n & Et & M). apply trimmed_iff in T. fold t in T. rewrite T in Et. assert (L : length n = 13%nat) by (apply (f_equal (@length N)) in M; now rewrite map_length in M).
      apply E. rewrite Et, firstn_app, L, firstn_all2, Nat.sub_diag, firstn_O, app_nil_r by lia. exact M.
  Qed.
  Lemma supplies_total : forall text, exists tok, supplies text tok.
  Proof.
    intros text. unfold supplies. generalize (lines text) as ls. induction ls as [|l ls (tok & [(before & l0 & after & t & value & core & -> & F & R)|[F ->]])].
    - exists []. right. now split.
    - destruct (header_dec l) as [N0|(v & E)].
      + exists tok. left. exists (l :: before), l0, after, t, value, core. split; [reflexivity|]. split; [now constructor|assumption].
      + destruct (credential_total (trim v)) as [tok' C]. exists tok'. left. exists [], l, (before ++ l0 :: after), (trim l), v, (trim v). (split; [reflexivity|]; split; [constructor|]; auto using trim_trimmed).
    - destruct (header_dec l) as [N0|(v & E)].
      + exists []. right. split; [now constructor|reflexivity].
      + destruct (credential_total (trim v)) as [tok' C]. exists tok'. left. exists [], l, ls, (trim l), v, (trim v). (split; [reflexivity|]; split; [constructor|]; auto using trim_trimmed).
  Qed.
End Auth.

(** ** The first line *)
Lemma lines_crlf : forall l rest, ~ In 10 l -> exists ls, lines (l ++ crlf ++ rest) = l :: ls.
Proof.
  intros l rest K. unfold lines, crlf. change (l ++ [13; 10] ++ rest) with (l ++ [13] ++ 10 :: rest). rewrite app_assoc, split_char_app.
  - destruct (split_char 10 rest) as [|r0 r] eqn:E; [destruct rest as [|c rest]; [discriminate|]; cbn in E; destruct (c =? 10); [discriminate|]; destruct (split_char 10 rest); discriminate|].
    exists (end_lines (r0 :: r)). change (end_lines ((l ++ [13]) :: r0 :: r)) with (strip_cr (l ++ [13]) :: end_lines (r0 :: r)). now rewrite strip_cr_app.
  - intros I. apply in_app_or in I as [I|[I|[]]]; [auto|discriminate].
Qed.
Lemma words_word : forall w acc r, spaceless w -> words_from acc (w ++ r) = words_from (rev w ++ acc) r.
Proof. intros w acc r F. revert acc. induction F as [|c w Hc F IH]; intros acc; [reflexivity|]. cbn [app words_from]. rewrite Hc, IH. cbn [rev]. now rewrite <- app_assoc. Qed.
Lemma split_word : forall w r, spaceless w -> w <> [] -> split_whitespace (w ++ 32 :: r) = w :: split_whitespace r.
Proof.
  intros w r F Ne. unfold split_whitespace. rewrite words_word by assumption. rewrite app_nil_r. cbn [words_from]. change (is_whitespace 32) with true. cbn iota.
  destruct (rev w) eqn:E; [apply (f_equal (@rev N)) in E; rewrite rev_involutive in E; now subst|]. now rewrite <- E, rev_involutive.
Qed.
Lemma split_last : forall w, spaceless w -> w <> [] -> split_whitespace w = [w].
Proof.
  intros w F Ne. unfold split_whitespace. rewrite <- (app_nil_r w) at 1. rewrite words_word by assumption. rewrite app_nil_r. cbn [words_from].
  destruct (rev w) eqn:E; [apply (f_equal (@rev N)) in E; rewrite rev_involutive in E; now subst|]. now rewrite <- E, rev_involutive.
Qed.
Lemma spaceless_10 : forall w, spaceless w -> ~ In 10 w.
Proof. intros w F I. unfold spaceless in F. rewrite Forall_forall in F. apply F in I. discriminate. Qed.
Definition a_word (s : string) : Prop := spaceless (lit s) /\ lit s <> [].
Lemma asked : forall m p q text, asks m p q text -> a_word m -> a_word p -> ~ In 63 (lit p) ->
  exists l ls v, lines text = l :: ls /\ split_whitespace l = [lit m; lit p ++ q; v] /\ hd [] (split_char 63 (lit p ++ q)) = lit p.
Proof.
  intros m p q text ((v & rest & -> & Fv & Nv) & Fq & Q) [Fm Nm] [Fp Np] K.
  assert (Ft : spaceless (lit p ++ q)) by now apply Forall_app.
  destruct (lines_crlf (lit m ++ 32 :: (lit p ++ q) ++ 32 :: v) rest) as [ls E].
  { intros I. apply in_app_or in I as [I|I]; [now apply spaceless_10 in I|]. destruct I as [I|I]; [discriminate|]. apply in_app_or in I as [I|I]; [now apply spaceless_10 in I|]. destruct I as [I|I]; [discriminate|]. now apply spaceless_10 in I. }
  exists (lit m ++ 32 :: (lit p ++ q) ++ 32 :: v), ls, v. split; [|split].
  - etransitivity; [|exact E]. f_equal. rewrite <- !app_assoc. cbn [app]. now rewrite <- !app_assoc.
  - rewrite split_word by assumption. rewrite split_word; [now rewrite split_last|assumption|]. intros Z. apply app_eq_nil in Z as [Z _]. contradiction.
  - destruct Q as [->|Q]; [now rewrite app_nil_r, split_char_none by assumption|]. destruct q as [|c q]; [discriminate|]. cbn in Q. subst c. now rewrite split_char_app by assumption.
Qed.

Section Routes.
  Context {X : Ext} {H : Host}.
  Definition handler (token admin : option str) (m p : string) (text : str) : prog :=
    if is_route (lit m) (lit p) "GET" "/health" then handle_health
    else if is_route (lit m) (lit p) "GET" "/" then Reply (Some (http_response 200 (lit "text/html") h_root))
    else if is_route (lit m) (lit p) "GET" "/docs" then Reply (Some (http_response 200 (lit "text/html") h_docs))
    else if is_route (lit m) (lit p) "GET" "/openapi.yml" then Reply (Some (http_response 200 (lit "application/x-yaml") h_openapi))
    else if is_route (lit m) (lit p) "POST" "/eval" then handle_eval_post text token
    else if is_route (lit m) (lit p) "GET" "/eval" then handle_eval_get text token
    else if is_route (lit m) (lit p) "POST" "/upload-js" then handle_upload_js text admin
    else if is_route (lit m) (lit p) "PUT" "/update-js" then handle_update_js text admin
    else if is_route (lit m) (lit p) "DELETE" "/delete-js" then handle_delete_js text admin
    else if is_route (lit m) (lit p) "GET" "/list-js" then handle_list_js text admin
    else if is_route (lit m) (lit p) "POST" "/reload-hooks" then handle_reload_hooks text admin
    else if is_route (lit m) (lit p) "DELETE" "/cache" then handle_cache_clear text admin
    else if str_eqb (lit m) (lit "OPTIONS") then Reply (Some preflight)
    else send_error 404 (lit "Not Found").
  Lemma routed : forall token admin m p q text, asks m p q text -> a_word m -> a_word p -> ~ In 63 (lit p) ->
    handle_http_request token admin (inl text) = handler token admin m p text.
  Proof.
    intros token admin m p q text A M P K. destruct (asked _ _ _ _ A M P K) as (l & ls & v & E & S3 & Hd). unfold handle_http_request, route. rewrite E, S3, Hd. reflexivity.
  Qed.
  Definition listed (l : list (string * string)) : Prop := Forall (fun mp => a_word (fst mp) /\ a_word (snd mp) /\ ~ In 63 (lit (snd mp))) l.
  Ltac listed_tac := repeat (constructor; [repeat split; [repeat constructor|discriminate|repeat constructor|discriminate|intros ?; repeat match goal with I : In _ _ |- _ => cbn in I; destruct I as [I|I] | I : _ \/ _ |- _ => destruct I as [I|I] end; try discriminate; contradiction]|]); constructor.
  Lemma eval_listed : listed eval_endpoints. Proof. unfold listed, eval_endpoints. listed_tac. Qed.
  Lemma admin_listed : listed admin_endpoints. Proof. unfold listed, admin_endpoints. listed_tac. Qed.
  Lemma public_listed : listed public_endpoints. Proof. unfold listed, public_endpoints. listed_tac. Qed.
  Lemma routed_in : forall es token admin m p q text, listed es -> In (m, p) es -> asks m p q text ->
    handle_http_request token admin (inl text) = handler token admin m p text.
  Proof. intros es token admin m p q text L I A. unfold listed in L. rewrite Forall_forall in L. destruct (L _ I) as (M & P & K). now apply routed with q. Qed.

  Lemma status_is_response : forall n s ct body, lit s = N_to_str n -> status_is s (http_response n ct body).
  Proof. intros n s ct body E. unfold status_is, http_response, line. rewrite E. eexists. rewrite <- !app_assoc. cbn [app]. reflexivity. Qed.
  Lemma guarded_no : forall m text tok cfg k, unicode X -> supplies text tok -> tok <> cfg -> guarded (check_token m text (Some cfg)) k = reply 401 (unauthorized m).
  Proof. intros m text tok cfg k U T Ne. unfold guarded. rewrite (supplies_check _ _ _ _ U T). cbn [unless_panic]. destruct (str_eqb tok cfg) eqn:E; [apply str_eqb_eq in E; contradiction|reflexivity]. Qed.
  Lemma guarded_yes : forall m text cfg k, unicode X -> supplies text cfg -> guarded (check_token m text (Some cfg)) k = guarded (check_token m text None) k.
  Proof. intros m text cfg k U T. unfold guarded. rewrite (supplies_check _ _ _ _ U T). cbn [unless_panic check_token]. now rewrite str_eqb_refl. Qed.
End Routes.

Lemma lines_cons : forall l rest, ~ In 10 l -> lines (l ++ crlf ++ rest) = l :: lines rest.
Proof.
  intros l rest K. unfold lines, crlf. change (l ++ [13; 10] ++ rest) with (l ++ [13] ++ 10 :: rest). rewrite app_assoc, split_char_app.
  - destruct (split_char 10 rest) as [|r0 r] eqn:E; [destruct rest as [|c rest]; [discriminate|]; cbn in E; destruct (c =? 10); [discriminate|]; destruct (split_char 10 rest); discriminate|].
    change (end_lines ((l ++ [13]) :: r0 :: r)) with (strip_cr (l ++ [13]) :: end_lines (r0 :: r)). now rewrite strip_cr_app.
  - intros I. apply in_app_or in I as [I|[I|[]]]; [auto|discriminate].
Qed.
Lemma lines_request : forall ls body, Forall a_line ls -> ls <> [] -> lines (request ls body) = ls ++ [] :: lines body.
Proof.
  intros ls body F Ne. unfold request. induction F as [|l ls (Nl & N13 & N10) F IH]; [contradiction|]. destruct ls as [|l' ls].
  - cbn [join app]. rewrite lines_cons by assumption. apply f_equal. exact (lines_cons [] body (fun x => x)).
  - change (join crlf (l :: l' :: ls)) with (l ++ crlf ++ join crlf (l' :: ls)). rewrite <- !app_assoc. rewrite lines_cons by assumption. cbn [app]. apply f_equal. apply IH. discriminate.
Qed.
Lemma unspaced_trimmed : forall s, unspaced s -> trimmed s s.
Proof. intros s U. exists [], []. rewrite app_nil_r. repeat split; try constructor; apply U. Qed.
Lemma last_app : forall (a b r : str) c, b <> [] -> a ++ b = r ++ [c] -> exists b', b = b' ++ [c].
Proof.
  intros a b r c Nb E. destruct (exists_last Nb) as (b' & c' & ->). exists b'. rewrite app_assoc in E. apply app_inj_tail in E as [_ ->]. reflexivity.
Qed.
Lemma unspaced_prefix : forall a b, unspaced a -> a <> [] -> unspaced b -> b <> [] -> unspaced (a ++ b).
Proof.
  intros a b [A _] Na [_ B] Nb. split.
  - intros c r E. destruct a as [|c' a]; [contradiction|]. injection E as <- _. now apply (A c' a).
  - intros r c E. destruct (last_app a b r c Nb E) as [b' ->]. now apply (B b' c).
Qed.
Lemma bearer_supplies : forall before tok after body, unspaced tok -> tok <> [] ->
  Forall a_line (before ++ (lit "Authorization: Bearer " ++ tok) :: after) -> Forall no_authorization before ->
  supplies (request (before ++ (lit "Authorization: Bearer " ++ tok) :: after) body) tok.
Proof.
  intros before tok after body U Ne F Nb. left. rewrite lines_request; [|assumption|now destruct before].
  assert (Ub : unspaced (lit "Bearer " ++ tok)).
  { split; [intros c r E; injection E as <- _; reflexivity|]. intros r c E. destruct U as [_ B]. destruct (last_app (lit "Bearer ") tok r c Ne E) as [b' ->]. now apply (B b' c). }
  exists before, (lit "Authorization: Bearer " ++ tok), (after ++ [] :: lines body), (lit "Authorization: Bearer " ++ tok), (lit " Bearer " ++ tok), (lit "Bearer " ++ tok).
  split; [now rewrite <- app_assoc|]. split; [assumption|]. split; [|split; [|split]].
  - apply unspaced_trimmed. split; [intros c r E; injection E as <- _; reflexivity|]. intros r c E. destruct U as [_ B]. destruct (last_app (lit "Authorization: Bearer ") tok r c Ne E) as [b' ->]. now apply (B b' c).
  - exists (lit "Authorization"). now split.
  - exists [32], []. rewrite app_nil_r. repeat split; try (repeat constructor; fail); apply Ub.
  - left. exists (lit "Bearer "), tok. repeat split. now apply unspaced_trimmed.
Qed.
Lemma bare_supplies : forall before tok after body, unspaced tok -> tok <> [] -> (forall b rest, tok = b ++ rest -> map lower_ascii b <> lit "bearer ") ->
  Forall a_line (before ++ (lit "Authorization: " ++ tok) :: after) -> Forall no_authorization before ->
  supplies (request (before ++ (lit "Authorization: " ++ tok) :: after) body) tok.
Proof.
  intros before tok after body U Ne NB F Nb. left. rewrite lines_request; [|assumption|now destruct before].
  exists before, (lit "Authorization: " ++ tok), (after ++ [] :: lines body), (lit "Authorization: " ++ tok), (lit " " ++ tok), tok.
  split; [now rewrite <- app_assoc|]. split; [assumption|]. split; [|split; [|split]].
  - apply unspaced_trimmed. split; [intros c r E; injection E as <- _; reflexivity|]. intros r c E. destruct U as [_ B]. destruct (last_app (lit "Authorization: ") tok r c Ne E) as [b' ->]. now apply (B b' c).
  - exists (lit "Authorization"). now split.
  - exists [32], []. rewrite app_nil_r. repeat split; try (repeat constructor; fail); apply U.
  - right. now split.
Qed.

(** ** The theorems *)
Section Auth_theorems.
  Context {X : Ext} {H : Host}.
  Ltac endpoint I := repeat (destruct I as [I|I]; [injection I as <- <-|]); [..|contradiction].
  Lemma eval_refused : forall m p q text token admin tok, unicode X -> In (m, p) eval_endpoints -> asks m p q text -> supplies text tok -> tok <> token ->
    exists answer, handle_http_request (Some token) admin (inl text) = Reply (Some answer) /\ status_is "401" answer.
  Proof.
    intros m p q text token admin tok U I A T Ne. rewrite (routed_in _ _ _ _ _ _ _ eval_listed I A). eexists.
    endpoint I; (split; [unfold handler; cbn [is_route]; apply guarded_no with (tok := tok); assumption|apply status_is_response; reflexivity]).
  Qed.
  Lemma admin_refused : forall m p q text token admin tok, unicode X -> In (m, p) admin_endpoints -> asks m p q text -> supplies text tok -> tok <> admin ->
    exists answer, handle_http_request token (Some admin) (inl text) = Reply (Some answer) /\ status_is "401" answer.
  Proof.
    intros m p q text token admin tok U I A T Ne. rewrite (routed_in _ _ _ _ _ _ _ admin_listed I A).
    endpoint I; eexists; (split; [unfold handler; apply guarded_no with (tok := tok); assumption|apply status_is_response; reflexivity]).
  Qed.
  Lemma eval_accepted : forall m p q text token admin, unicode X -> In (m, p) eval_endpoints -> asks m p q text -> supplies text token ->
    handle_http_request (Some token) admin (inl text) = handle_http_request None None (inl text).
  Proof.
    intros m p q text token admin U I A T. rewrite !(routed_in _ _ _ _ _ _ _ eval_listed I A). endpoint I; unfold handler; apply guarded_yes; assumption.
  Qed.
  Lemma admin_accepted : forall m p q text token admin, unicode X -> In (m, p) admin_endpoints -> asks m p q text -> supplies text admin ->
    handle_http_request token (Some admin) (inl text) = handle_http_request None None (inl text).
  Proof.
    intros m p q text token admin U I A T. rewrite !(routed_in _ _ _ _ _ _ _ admin_listed I A). endpoint I; unfold handler; apply guarded_yes; assumption.
  Qed.
  Lemma public_open : forall m p q text token admin, In (m, p) public_endpoints -> asks m p q text ->
    handle_http_request token admin (inl text) = handle_http_request None None (inl text).
  Proof. intros m p q text token admin I A. rewrite !(routed_in _ _ _ _ _ _ _ public_listed I A). endpoint I; reflexivity. Qed.

  Lemma stranger_harmless : forall text token admin tok, unicode X -> supplies text tok -> tok <> token -> tok <> admin ->
    within unchanged (handle_http_request (Some token) (Some admin) (inl text)).
  Proof.
    intros text token admin tok U T N1 N2. cbn [handle_http_request]. unfold route. destruct (lines text) as [|l ls]; [constructor|]. destruct (split_whitespace l) as [|m [|p [|v r]]]; try constructor.
    repeat match goal with |- within _ (if ?b then _ else _) => destruct b end; try constructor;
      try (unfold handle_eval_post, handle_eval_get, handle_upload_js, handle_update_js, handle_delete_js, handle_list_js, handle_reload_hooks, handle_cache_clear, check_authentication, check_admin_authentication;
           rewrite (guarded_no _ text tok) by assumption; constructor).
    all: intros w; try reflexivity; constructor; intros w1; try reflexivity; constructor; intros w2; try reflexivity; constructor.
  Qed.
  (** the tokens the server starts with *)
  Lemma both_or_none : forall token admin,
    (token <> None \/ admin <> None <-> auth_token (token_config_new token admin) <> None) /\ (token <> None \/ admin <> None <-> admin_token (token_config_new token admin) <> None)
    /\ (forall t, token = Some t -> auth_token (token_config_new token admin) = Some t) /\ (forall a, admin = Some a -> admin_token (token_config_new token admin) = Some a)
    /\ (admin = None -> admin_token (token_config_new token admin) = token) /\ (token = None -> auth_token (token_config_new token admin) = admin).
  Proof. intros [t|] [a|]; cbn; repeat split; intros; try discriminate; auto; try tauto; destruct H0; congruence. Qed.
  Lemma supplied_unspaced : forall text tok, supplies text tok -> unspaced tok.
  Proof.
    intros text tok [(before & l & after & t & value & core & _ & _ & _ & _ & (w1 & w2 & _ & _ & _ & U) & C)|[_ ->]].
    - destruct C as [(b & rest & _ & _ & (u1 & u2 & _ & _ & _ & U'))|[_ ->]]; assumption.
    - split; intros; [discriminate|]. now destruct r.
  Qed.
End Auth_theorems.
