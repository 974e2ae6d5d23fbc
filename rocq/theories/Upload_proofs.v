(** Uploads and the files of functions: proofs. *)
From Coq Require Import String List ZArith NArith Bool Lia Permutation.
From Verif Require Import Base F64 Utf8 Syntax Ext Json Lines Host HttpRead HttpAuth Multipart Registry JsPlugin HttpServer Spec Spec_syntax Spec_text Spec_args Spec_registry Spec_json Spec_http Spec_js Spec_form.
From Verif Require Import Base_proofs Text_proofs HttpRead_proofs HttpAuth_proofs HttpRoutes_proofs HttpCache_proofs HttpServer_proofs Command_proofs JsPlugin_proofs Multipart_proofs Registry_proofs Hooks_proofs Example_proofs.
Import ListNotations.
Local Open Scope N_scope.
Local Opaque json_parse.

Section Uploads.
  Context {X : Ext} {H : Host}.
  Hypothesis U : unicode X.

  Lemma type_ok : name_ok "content-type".
  Proof. repeat constructor; discriminate. Qed.
  Lemma type_header : forall l, starts_with (lit "content-type:") (to_lowercase l) = true <-> exists value, is_header "content-type" l value.
  Proof. intros l. exact (header_starts "content-type" l U type_ok). Qed.
  Lemma type_skip : forall before rest, Forall (not_header "content-type") before -> content_type_in (before ++ rest) = content_type_in rest.
  Proof.
    intros before rest F. induction F as [|l before N F IH]; [reflexivity|]. cbn [app content_type_in]. destruct (starts_with _ _) eqn:E; [|exact IH]. apply type_header in E as [v E]. now apply N in E.
  Qed.
  Lemma type_read : forall text o, content_type text o -> content_type_in (lines text) = o.
  Proof.
    intros text o C. destruct C as [before l after value rest ct E F I N R T|F].
    - rewrite E, type_skip by assumption. cbn [content_type_in]. rewrite (proj2 (type_header l)) by eauto. destruct I as (n & -> & M). rewrite split_char_app by exact (no_colon_name _ _ type_ok M).
      assert (exists r, split_char 58 (value ++ rest) = value :: r) as [r ->]. { destruct R as [-> | R]; [rewrite app_nil_r; exists []; now apply split_char_none|]. destruct rest as [|c rest]; [discriminate|]. cbn in R. subst c. eexists. now apply split_char_app. }
      f_equal. symmetry. now apply trimmed_iff.
    - rewrite <- (app_nil_r (lines text)), type_skip by assumption. reflexivity.
  Qed.
  Lemma form_ok : Forall (fun c => c < 128 /\ c <> 107) (lit "multipart/form-data").
  Proof. repeat constructor; discriminate. Qed.
  Lemma form_type_iff : forall ct, is_multipart ct = true <-> form_type ct.
  Proof.
    intros ct. unfold is_multipart, form_type. split.
    - intros K. destruct (lower_starts (lit "multipart/form-data") [] ct U) as (q & r & E & M); [exact form_ok|discriminate|exact K|]. now exists q, r.
    - intros (a & r & -> & M). destruct (lower_ascii_prefix a [] r) as [t E]; [rewrite M; repeat constructor|]. unfold to_lowercase. rewrite E, M. apply starts_with_spec. now exists t.
  Qed.
  Lemma boundary_read : forall b, proper_boundary b -> extract_boundary (lit "multipart/form-data; boundary=" ++ b) = Some b.
  Proof.
    intros b [Ne F]. unfold extract_boundary. change (lit "multipart/form-data; boundary=" ++ b) with (lit "multipart/form-data" ++ 59 :: 32 :: lit "boundary=" ++ b). rewrite split_char_app by (now apply not_in_lit). rewrite split_char_none.
    - cbn [boundary_in]. change (strip_prefix (lit "boundary=") (trim (lit "multipart/form-data"))) with (@None str). cbn iota. assert (trim (32 :: lit "boundary=" ++ b) = lit "boundary=" ++ b) as ->.
      + pose proof (trim_pad [32] (lit "boundary=" ++ b) []) as T. rewrite app_nil_r in T. apply T; [repeat constructor|constructor|]. destruct (exists_last Ne) as (b' & c & ->). change (lit "boundary=" ++ b' ++ [c]) with (98 :: (lit "oundary=" ++ b' ++ [c])). rewrite app_assoc. apply unspaced_ends; [reflexivity|].
        rewrite Forall_forall in F. apply F. apply in_or_app. right. now left.
      + now rewrite (proj2 (strip_prefix_spec (lit "boundary=") (lit "boundary=" ++ b) b) eq_refl).
    - intros [I|I]; [discriminate|]. apply in_app_or in I as [I|I]; [revert I; now apply not_in_lit|]. rewrite Forall_forall in F. apply F in I as [_ I]. apply I. cbn. auto.
  Qed.
  Lemma last_field_read : forall fs name f, last_field fs name f ->
    mget (lit name) (fold_left (fun m nv => minsert (fst nv) (snd nv) m) (map (fun f => (ff_name f, read_field f)) fs) []) = Some (read_field f).
  Proof.
    intros fs name f (before & after & E & N). apply last_inserted. left. exists (map (fun nf => (fst nf, read_field (snd nf))) before), (map (fun nf => (fst nf, read_field (snd nf))) after).
    apply (f_equal (map (fun nf : str * form_field => (fst nf, read_field (snd nf))))) in E. rewrite map_map in E. cbn [fst snd] in E. rewrite E, map_app. split; [reflexivity|]. intros I. apply N. rewrite map_map in I. exact I.
  Qed.
  Lemma no_field_read : forall fs name, no_field fs name -> mget (lit name) (fold_left (fun m nv => minsert (fst nv) (snd nv) m) (map (fun f => (ff_name f, read_field f)) fs) []) = None.
  Proof.
    intros fs name N. destruct (mget _ _) as [v|] eqn:E; [exfalso|reflexivity]. apply last_inserted in E as [(before & after & E & _)|[_ E]]; [|discriminate]. apply N. assert (In (lit name, v) (map (fun f => (ff_name f, read_field f)) fs)) as I by (rewrite E; apply in_or_app; right; now left).
    apply in_map_iff in I as (f & Ef & I). injection Ef as <- _. now apply in_map.
  Qed.
  Lemma upload_read : forall text filename source, brings text filename source -> exists r, parse_upload_request text = Ok r /\ j_filename r = filename /\ js_source r = Some source.
  Proof.
    intros text filename source B. unfold parse_upload_request. destruct B as [ls body kvs o -> F Ne C Nt P Mf D|ls b fs f g -> F Ne C Pb Pf Lf -> -> D].
    - rewrite (type_read _ _ C). assert (is_multipart (match o with Some t => t | None => [] end) = false) as ->.
      { destruct (is_multipart _) eqn:E; [exfalso|reflexivity]. apply form_type_iff in E. destruct o as [ct|]; [now apply (Nt ct)|]. destruct E as (a & r & E & M). destruct a; discriminate. }
      unfold parse_json_body. rewrite once_request by assumption. rewrite P. cbn [js_request_of]. rewrite Mf. cbn [js_fields].
      destruct D as [[-> [D|[s ->]]]|[D ->]].
      + destruct D as [<- |[<- |[]]]; eexists; (split; [reflexivity|now split]).
      + eexists; (split; [reflexivity|now split]).
      + destruct D as [<- |[<- |[]]]; eexists; (split; [reflexivity|now split]).
    - rewrite (type_read _ _ C). assert (is_multipart (lit "multipart/form-data; boundary=" ++ b) = true) as ->. { apply form_type_iff. exists (lit "multipart/form-data"), (lit "; boundary=" ++ b). now split. }
      rewrite boundary_read by assumption. cbn [ok_or bind]. unfold extract_request_body. rewrite once_request by assumption. cbn [ok_or bind]. rewrite form_read by assumption. cbn [bind]. rewrite (last_field_read fs "filename" f Lf). cbn [option_map ok_or bind read_field fd_content].
      destruct D as [D|(N & D & n & En)].
      + rewrite (last_field_read fs "js_code" g D). eexists; (split; [reflexivity|now split]).
      + rewrite (no_field_read fs "js_code" N), (last_field_read fs "file" g D). unfold read_field. rewrite En. eexists; (split; [reflexivity|now split]).
  Qed.

  Lemma let_in : forall m text cfg k, authorised cfg text -> guarded (check_token m text cfg) k = k.
  Proof. intros m text [cfg|] k A; [|reflexivity]. cbn in A. rewrite guarded_yes by assumption. reflexivity. Qed.
  Lemma reply_answers : forall n s kvs, lit s = N_to_str n -> answers s (http_response n json_type (json_print (JObj kvs))) kvs.
  Proof.
    intros n s kvs E. split; [now apply status_is_response|]. unfold http_response, line, crlf. exists ((lit "HTTP/1.1 " ++ N_to_str n ++ lit " " ++ status_text n) ++ [13; 10] ++ cors ++ (lit "Content-Type: " ++ json_type) ++ [13; 10] ++ (lit "Content-Length: " ++ N_to_str (byte_len (json_print (JObj kvs)))) ++ [13; 10] ++ lit "Connection: close").
    rewrite <- !app_assoc. reflexivity.
  Qed.
  Lemma remove_keys : forall V k (m : smap V) x, In x (map fst (mremove k m)) -> In x (map fst m) /\ x <> k.
  Proof.
    intros V k m x. induction m as [|[j v] m IH]; cbn [mremove map]; [contradiction|]. destruct (str_eqb k j) eqn:E; cbn [map fst].
    - intros I. destruct (IH I). split; [now right|assumption].
    - intros [<- |I]; [split; [now left|intros ->; now rewrite str_eqb_refl in E]|]. destruct (IH I). split; [now right|assumption].
  Qed.
  Lemma remove_nodup : forall V k (m : smap V), NoDup (map fst m) -> NoDup (map fst (mremove k m)).
  Proof.
    intros V k m N. induction m as [|[j v] m IH]; [constructor|]. cbn [map fst] in N. inversion N as [|? ? N1 N2]; subst. cbn [mremove]. destruct (str_eqb k j); [now apply IH|]. cbn [map fst]. constructor; [|now apply IH]. intros I. apply remove_keys in I as [I _]. contradiction.
  Qed.
  Lemma insert_nodup : forall V k v (m : smap V), NoDup (map fst m) -> NoDup (map fst (minsert k v m)).
  Proof. intros V k v m N. unfold minsert. cbn [map fst]. constructor; [|now apply remove_nodup]. intros I. apply remove_keys in I as [_ I]. congruence. Qed.
  Lemma stored : forall verb failed name path source f w, writable -> js_returns -> file_name name -> hook_path name path -> says source f -> bounds_read source -> ~ lone_quote f ->
    exists w' answer, run (store_js verb failed name source) w = (w', Some answer) /\ stored_answer answer f /\ changes_file path w w' /\ mget path (w_files w') = Some source /\ (distinct_files w -> distinct_files w').
  Proof.
    intros verb failed name path source f w [Wm Wf] R Fn Hp Sf Bf L. assert (parse_js_function source = Ok f) as P by (apply source_read; auto). destruct (reported f source P R L) as (v & V & Rv). unfold store_js. rewrite V. cbn [unless_panic run act]. unfold save_js_file. rewrite Wm, Wf. cbn [run].
    rewrite (hook_path_unique name path (js_path name) Hp (hook_path_is name Fn)). eexists. eexists. split; [reflexivity|]. split.
    - eexists. eexists. exists (v_passed v). split; [now apply reply_answers|]. do 4 (split; [reflexivity|]). assumption.
    - split; [do 5 (split; [reflexivity|]); intros p Np; cbn [set_files w_files]; now rewrite mget_minsert_other|]. split; [apply mget_minsert_same|]. intros Nd. unfold distinct_files. cbn [set_files w_files]. now apply insert_nodup.
  Qed.
  Lemma uploaded : forall (token admin : option str) q text name path source f w, asks "POST" "/upload-js" q text -> authorised admin text -> writable -> js_returns -> brings text name source ->
    file_name name -> (exists r, name = r ++ lit ".js") -> hook_path name path -> says source f -> bounds_read source -> ~ lone_quote f ->
    exists w' answer, serves token admin text w w' answer /\ stored_answer answer f /\ changes_file path w w' /\ mget path (w_files w') = Some source /\ (distinct_files w -> distinct_files w').
  Proof.
    intros token admin q text name path source f w A Au Wr R B Fn Js Hp Sf Bf L. unfold serves. rewrite (routed_in admin_endpoints token admin "POST" "/upload-js" q text admin_listed ltac:(cbn; tauto) A). change (handler token admin "POST" "/upload-js" text) with (handle_upload_js text admin). unfold handle_upload_js, check_admin_authentication. rewrite let_in by assumption.
    destruct (upload_read text name source B) as (r & P & <- & Sr). rewrite P. cbn [unless_panic]. rewrite (proj2 (ends_with_iff (lit ".js") (j_filename r)) Js), Sr. now apply stored.
  Qed.
  Lemma updated : forall (token admin : option str) q text name path source f w, asks "PUT" "/update-js" q text -> authorised admin text -> writable -> js_returns -> brings text name source ->
    file_name name -> (exists r, name = r ++ lit ".js") -> hook_path name path -> says source f -> bounds_read source -> ~ lone_quote f -> mget path (w_files w) <> None ->
    exists w' answer, serves token admin text w w' answer /\ stored_answer answer f /\ changes_file path w w' /\ mget path (w_files w') = Some source /\ (distinct_files w -> distinct_files w').
  Proof.
    intros token admin q text name path source f w A Au Wr R B Fn Js Hp Sf Bf L Th. unfold serves. rewrite (routed_in admin_endpoints token admin "PUT" "/update-js" q text admin_listed ltac:(cbn; tauto) A). change (handler token admin "PUT" "/update-js" text) with (handle_update_js text admin). unfold handle_update_js, check_admin_authentication. rewrite let_in by assumption.
    destruct (upload_read text name source B) as (r & P & <- & Sr). rewrite P. cbn [unless_panic]. rewrite (proj2 (ends_with_iff (lit ".js") (j_filename r)) Js), Sr. cbn [run act].
    rewrite (hook_path_unique _ path (js_path (j_filename r)) Hp (hook_path_is _ Fn)) in Th |- *. unfold mhas. destruct (mget (js_path (j_filename r)) (w_files w)) eqn:E; [|congruence]. apply stored; try assumption. now apply hook_path_is.
  Qed.
  Lemma update_missing : forall (token admin : option str) q text name path source w, asks "PUT" "/update-js" q text -> authorised admin text -> brings text name source ->
    file_name name -> (exists r, name = r ++ lit ".js") -> hook_path name path -> mget path (w_files w) = None ->
    exists answer kvs, serves token admin text w w answer /\ answers "404" answer kvs /\ has_entry kvs "success" (JBool false).
  Proof.
    intros token admin q text name path source w A Au B Fn Js Hp Th. unfold serves. rewrite (routed_in admin_endpoints token admin "PUT" "/update-js" q text admin_listed ltac:(cbn; tauto) A). change (handler token admin "PUT" "/update-js" text) with (handle_update_js text admin). unfold handle_update_js, check_admin_authentication. rewrite let_in by assumption.
    destruct (upload_read text name source B) as (r & P & <- & Sr). rewrite P. cbn [unless_panic]. rewrite (proj2 (ends_with_iff (lit ".js") (j_filename r)) Js). cbn [run act].
    rewrite (hook_path_unique _ path (js_path (j_filename r)) Hp (hook_path_is _ Fn)) in Th. unfold mhas. rewrite Th. cbn [run reply]. eexists. eexists. split; [reflexivity|]. split; [now apply reply_answers|reflexivity].
  Qed.
  (** an upload or update that is refused changes nothing *)
  Lemma upload_refused : forall (token admin : option str) m p q text name source w, In (m, p) [("POST", "/upload-js"); ("PUT", "/update-js")]%string -> asks m p q text -> authorised admin text -> brings text name source ->
    (~ exists r, name = r ++ lit ".js") \/ (forall f, ~ (says source f /\ bounds_read source)) ->
    exists answer status kvs, serves token admin text w w answer /\ In status ["400"; "404"]%string /\ answers status answer kvs /\ has_entry kvs "success" (JBool false).
  Proof.
    intros token admin m p q text name source w I A Au B Bad. unfold serves. destruct (upload_read text name source B) as (r & P & <- & Sr).
    assert ((forall f, ~ (says source f /\ bounds_read source)) -> exists e, validate_js_function source = Err e) as Bs.
    { intros Nf. unfold validate_js_function. destruct (source_outcome source) as [[f Ef]|[e Ee]]; [apply source_read in Ef; now apply Nf in Ef|]. rewrite Ee. eauto. }
    destruct I as [I|[I|[]]]; injection I as <- <-.
    - rewrite (routed_in admin_endpoints token admin "POST" "/upload-js" q text admin_listed ltac:(cbn; tauto) A). change (handler token admin "POST" "/upload-js" text) with (handle_upload_js text admin). unfold handle_upload_js, check_admin_authentication. rewrite let_in by assumption. rewrite P. cbn [unless_panic].
      destruct (ends_with (lit ".js") (j_filename r)) eqn:E; [|cbn [run reply]; eexists; exists "400"%string; eexists; split; [reflexivity|]; split; [now left|]; split; [now apply reply_answers|reflexivity]].
      destruct Bad as [Bad|Bad]; [exfalso; apply Bad; now apply ends_with_iff|]. destruct (Bs Bad) as [e Ve]. rewrite Sr. unfold store_js. rewrite Ve. cbn [run reply unless_panic]. eexists; exists "400"%string; eexists; split; [reflexivity|]; split; [now left|]; split; [now apply reply_answers|reflexivity].
    - rewrite (routed_in admin_endpoints token admin "PUT" "/update-js" q text admin_listed ltac:(cbn; tauto) A). change (handler token admin "PUT" "/update-js" text) with (handle_update_js text admin). unfold handle_update_js, check_admin_authentication. rewrite let_in by assumption. rewrite P. cbn [unless_panic].
      destruct (ends_with (lit ".js") (j_filename r)) eqn:E; [|cbn [run reply]; eexists; exists "400"%string; eexists; split; [reflexivity|]; split; [now left|]; split; [now apply reply_answers|reflexivity]].
      destruct Bad as [Bad|Bad]; [exfalso; apply Bad; now apply ends_with_iff|]. destruct (Bs Bad) as [e Ve]. cbn [run act]. destruct (mhas _ _).
      + rewrite Sr. unfold store_js. rewrite Ve. cbn [run reply unless_panic]. eexists; exists "400"%string; eexists; split; [reflexivity|]; split; [now left|]; split; [now apply reply_answers|reflexivity].
      + cbn [run reply]. eexists; exists "404"%string; eexists; split; [reflexivity|]; split; [right; now left|]; split; [now apply reply_answers|reflexivity].
  Qed.
End Uploads.
