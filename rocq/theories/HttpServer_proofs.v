(** The handlers under every interleaving of the worker threads. *)
From Coq Require Import String List ZArith NArith Bool Lia.
From Verif Require Import Base F64 F64Text Syntax Utf8 Ext Json Registry Methods Api Lines Host HttpRead HttpAuth HttpCache JsPlugin Multipart HttpServer HttpThreads Spec_syntax Spec_text Spec_http Base_proofs Utf8_proofs Parse_proofs Display_proofs HttpRead_proofs HttpAuth_proofs.
Import ListNotations.
Local Open Scope N_scope.

Lemma nth_replace : forall {A} (l : list A) i k x, nth_error (replace i x l) k = if Nat.eqb i k then match nth_error l k with Some _ => Some x | None => None end else nth_error l k.
Proof.
  intros A l. induction l as [|y l IH]; intros [|i] [|k] x; cbn [replace nth_error Nat.eqb]; try reflexivity; try apply IH.
  - now destruct (Nat.eqb i k).
Qed.
Lemma replace_length : forall {A} (l : list A) i x, length (replace i x l) = length l.
Proof. intros A l. induction l as [|y l IH]; intros [|i] x; cbn; auto. Qed.

Section Within.
  Context {X : Ext} {H : Host}.
  Lemma within_weaken : forall (G G' : world -> world -> Prop) p, (forall w w', G w w' -> G' w w') -> within G p -> within G' p.
  Proof. intros G G' p K W. induction W as [r|f F _ IH]; constructor; auto. Qed.
  Lemma within_move : forall (G : world -> world -> Prop) p w, within G p -> (forall w, G w w) -> G w (fst (move p w)) /\ within G (snd (move p w)).
  Proof. intros G p w W R. destruct W as [r|f F F']; cbn; [split; [apply R|constructor]|auto]. Qed.
  Lemma within_act' : forall (G : world -> world -> Prop) B (f : world -> world * B) k, (forall w, G w (fst (f w))) -> (forall b, within G (k b)) -> within G (act f k).
  Proof. intros G B f k Hf Hk. constructor; intros w; specialize (Hf w); destruct (f w) as [w' b]; cbn in *; auto. Qed.
  Lemma within_unless : forall G A (r : res A) ok bad, (forall a, within G (ok a)) -> (forall e, within G (bad e)) -> within G (unless_panic r ok bad).
  Proof. intros G A [a|e|p] ok bad K1 K2; cbn; auto. constructor. Qed.
  Lemma within_guarded : forall G c k, within G k -> within G (guarded c k).
  Proof. intros G c k K. unfold guarded. apply within_unless; [intros [b|]; [constructor|assumption]|auto]. Qed.

  Lemma keeps_finish : forall req vars id r, within keeps_functions (finish req vars id r).
  Proof. intros req vars id r. unfold finish, record_request. apply within_act'; [now split|]. intros _. apply within_act'; [now split|]. intros _. constructor. Qed.
  Lemma keeps_process : forall req, within keeps_functions (process_eval_request req).
  Proof.
    intros req. unfold process_eval_request. apply within_act'; [now split|]. intros id. cbv zeta. apply within_act'; [intros w; destruct (cache_get _ (w_cache w)); now split|].
    intros [e|]; [apply keeps_finish|]. apply within_act'; [now split|]. intros r. apply within_unless; intros; [|apply keeps_finish]. apply within_act'; [now split|]. intros _. apply keeps_finish.
  Qed.
  Lemma keeps_eval : forall m p q text token admin, In (m, p) eval_endpoints -> asks m p q text -> within keeps_functions (handle_http_request token admin (inl text)).
  Proof.
    intros m p q text token admin I A. rewrite (routed_in _ _ _ _ _ _ _ eval_listed I A). repeat (destruct I as [I|I]; [injection I as <- <-|]); [..|contradiction]; unfold handler; cbn [is_route str_eqb].
    - change (within keeps_functions (handle_eval_post text token)). apply within_guarded. destruct (parse_json_body _ _ _); [apply keeps_process|constructor].
    - change (within keeps_functions (handle_eval_get text token)). apply within_guarded. destruct (split_whitespace _) as [|? [|? ?]]; try constructor. cbv zeta. destruct (q_expression _); [constructor|apply keeps_process].
  Qed.
  Lemma public_unchanged : forall m p q text token admin, In (m, p) (("GET", "/list-js")%string :: public_endpoints) -> asks m p q text -> within unchanged (handle_http_request token admin (inl text)).
  Proof.
    assert (L : listed (("GET", "/list-js")%string :: public_endpoints)) by (constructor; [apply (proj1 (Forall_forall _ _) admin_listed); cbn; tauto|apply public_listed]).
    intros m p q text token admin I A. rewrite (routed_in _ _ _ _ _ _ _ L I A). repeat (destruct I as [I|I]; [injection I as <- <-|]); [..|contradiction].
    - change (within unchanged (handle_list_js text admin)). apply within_guarded, within_act'; [reflexivity|]. intros [fs|e]; constructor.
    - change (within unchanged handle_health). repeat (apply within_act'; [reflexivity|intros ?]). constructor.
    - constructor.
    - constructor.
    - constructor.
  Qed.
  Lemma save_changes : forall name code w, changes_file (js_path name) w (let (fs, e) := save_js_file name code (w_files w) in set_files fs w).
  Proof.
    intros name code w. unfold save_js_file. destruct h_mkdir_fails; [now repeat split|]. destruct h_write_fails; [now repeat split|]. repeat split; try reflexivity. intros p Ne. cbn. now apply mget_minsert_other.
  Qed.
  Lemma delete_changes : forall name w, changes_file (js_path name) w (let (fs, e) := delete_js_file name (w_files w) in set_files fs w).
  Proof.
    intros name w. unfold delete_js_file. destruct mhas; [|now repeat split]. destruct h_remove_fails; [now repeat split|]. repeat split; try reflexivity. intros p Ne. cbn. now apply mget_mremove_other.
  Qed.
  Lemma store_changes : forall v1 v2 name code, within (changes_file (js_path name)) (store_js v1 v2 name code).
  Proof.
    intros v1 v2 name code. unfold store_js. apply within_unless; [|constructor]. intros [f v]. apply within_act'; [intros w; pose proof (save_changes name code w) as K; destruct (save_js_file name code (w_files w)); exact K|]. intros [e|]; constructor.
  Qed.
  Lemma changes_file_refl : forall p w, changes_file p w w.
  Proof. now repeat split. Qed.
  Lemma files_changed : forall m p q text token admin, In (m, p) [("POST", "/upload-js"); ("PUT", "/update-js"); ("DELETE", "/delete-js")]%string -> asks m p q text ->
    exists path, within (changes_file path) (handle_http_request token admin (inl text)).
  Proof.
    intros m p q text token admin I A. assert (I' : In (m, p) admin_endpoints) by (cbn in I |- *; tauto). rewrite (routed_in _ _ _ _ _ _ _ admin_listed I' A). clear I'.
    repeat (destruct I as [I|I]; [injection I as <- <-|]); [..|contradiction].
    - change (exists path, within (changes_file path) (handle_upload_js text admin)). unfold handle_upload_js. destruct (parse_upload_request text) as [r|e|x]; [|exists []; apply within_guarded; constructor..].
      exists (js_path (j_filename r)). apply within_guarded. cbn [unless_panic]. destruct (ends_with _ _); [|constructor]. destruct (js_source r); [apply store_changes|constructor].
    - change (exists path, within (changes_file path) (handle_update_js text admin)). unfold handle_update_js. destruct (parse_upload_request text) as [r|e|x]; [|exists []; apply within_guarded; constructor..].
      exists (js_path (j_filename r)). apply within_guarded. cbn [unless_panic]. destruct (ends_with _ _); [|constructor]. apply within_act'; [intros; apply changes_file_refl|]. intros [|]; [|constructor]. destruct (js_source r); [apply store_changes|constructor].
    - change (exists path, within (changes_file path) (handle_delete_js text admin)). unfold handle_delete_js. destruct (parse_json_body _ _ _) as [name|e]; [|exists []; apply within_guarded; constructor].
      exists (js_path name). apply within_guarded. destruct (ends_with _ _); [|constructor]. apply within_act'; [intros w; pose proof (delete_changes name w) as K; destruct (delete_js_file name (w_files w)); exact K|]. intros [e|]; constructor.
  Qed.
  Lemma register_changes : forall fs ok bad, within changes_functions ok -> (forall e, within changes_functions (bad e)) -> within changes_functions (register_all fs ok bad).
  Proof.
    intros fs ok bad K1 K2. induction fs as [|f fs IH]; [assumption|]. apply within_act'; [intros w; destruct (reg_register _ _); now repeat split|]. intros [e|]; auto.
  Qed.
  Lemma reload_changes : forall q text token admin, asks "POST" "/reload-hooks" q text -> within changes_functions (handle_http_request token admin (inl text)).
  Proof.
    intros q text token admin A. assert (I : In ("POST", "/reload-hooks")%string admin_endpoints) by (cbn; tauto). rewrite (routed_in _ _ _ _ _ _ _ admin_listed I A).
    change (within changes_functions (handle_reload_hooks text admin)). apply within_guarded. unfold auto_register. apply within_act'; [now repeat split|]. intros r. apply within_unless; [|constructor]. intros fs. apply register_changes; constructor.
  Qed.
  Lemma clear_changes : forall q text token admin, asks "DELETE" "/cache" q text -> within changes_cache (handle_http_request token admin (inl text)).
  Proof.
    intros q text token admin A. assert (I : In ("DELETE", "/cache")%string admin_endpoints) by (cbn; tauto). rewrite (routed_in _ _ _ _ _ _ _ admin_listed I A).
    change (within changes_cache (handle_cache_clear text admin)). apply within_guarded, within_act'; [now repeat split|]. constructor.
  Qed.
End Within.

(** ** Every run *)
Section Runs.
  Context {X : Ext} {H : Host} (token admin : option str).
  Lemma serving_ind : forall (P : server -> Prop) w, P (mkServer w []) -> (forall s ev, P s -> P (sv_step token admin s ev)) -> forall evs, P (serving token admin w evs).
  Proof. intros P w P0 PS evs. unfold serving, sv_run. revert P0. generalize (mkServer w []). induction evs as [|ev evs IH]; intros s P0; cbn; auto. Qed.
  (** a property of jobs that holds at first and that steps keep *)
  Lemma job_invariant : forall (Q : str + io_error -> prog -> Prop) w,
    (forall r, Q r (handle_http_request token admin r)) -> (forall r p w', Q r p -> Q r (snd (move p w'))) ->
    forall evs i r p, job_at (serving token admin w evs) i r p -> Q r p.
  Proof.
    intros Q w Q0 QS evs. apply (serving_ind (fun s => forall i r p, job_at s i r p -> Q r p)); unfold job_at.
    - intros [|i]; discriminate.
    - intros s [r0|k] IH i r p E; cbn in E.
      + destruct (Nat.lt_ge_cases i (length (sv_jobs s))) as [L|G].
        * rewrite nth_error_app1 in E by assumption. eauto.
        * rewrite nth_error_app2 in E by assumption. destruct (i - length (sv_jobs s))%nat as [|[|]]; try discriminate. cbn in E. injection E as <- <-. apply Q0.
      + destruct (nth_error (sv_jobs s) k) as [j|] eqn:J; [|eauto]. destruct (move (jb_prog j) (sv_world s)) as [w' p'] eqn:M. cbn in E. rewrite nth_replace in E. destruct (Nat.eqb_spec k i) as [->|Ne]; [|eauto].
        rewrite J in E. injection E as <- <-. destruct j as [r0 p0]. cbn in *. replace p' with (snd (move p0 (sv_world s))) by now rewrite M. apply QS. eauto.
  Qed.
  (** what a request's program may do, its job does, whatever the others do *)
  Lemma job_within : forall (G : world -> world -> Prop) w evs i r p, (forall w, G w w) -> within G (handle_http_request token admin r) ->
    job_at (serving token admin w evs) i r p ->
    G (sv_world (serving token admin w evs)) (sv_world (sv_step token admin (serving token admin w evs) (Move i))).
  Proof.
    intros G w evs i r p R W J. assert (Wp : within G p).
    { revert W. apply (job_invariant (fun r p => within G (handle_http_request token admin r) -> within G p) w) with (evs := evs) (i := i); auto. intros r0 p0 w0 K W. apply within_move; auto. }
    unfold job_at in J. cbn. rewrite J. cbn [jb_prog]. pose proof (within_move G p (sv_world (serving token admin w evs)) Wp R) as [K _]. destruct (move p _). exact K.
  Qed.
End Runs.
