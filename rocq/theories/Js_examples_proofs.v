(** Functions written in JavaScript: examples. *)
From Coq Require Import String List ZArith NArith Bool Lia Permutation Sorted.
From Verif Require Import Base F64 Utf8 Syntax Ext Json Lines Host HttpRead HttpAuth HttpCache Multipart Registry JsPlugin HttpServer HttpThreads Spec Spec_syntax Spec_text Spec_args Spec_registry Spec_json Spec_http Spec_js Spec_form.
From Verif Require Import Base_proofs Text_proofs HttpRead_proofs HttpAuth_proofs HttpRoutes_proofs HttpCache_proofs Command_proofs JsPlugin_proofs Multipart_proofs Registry_proofs Hooks_proofs Example_proofs Upload_proofs Lifecycle_proofs HttpExamples_proofs.
From Verif Require Struct.
Import ListNotations.
Local Open Scope N_scope.

Definition double_function : js_function := mkJs (lit "DOUBLE") 1 (Some 1) None (Some (lit "DOUBLE(4) returns 8")) double_source.
Lemma double_says : says double_source double_function /\ bounds_read double_source.
Proof. apply source_read. vm_compute. reflexivity. Qed.
Lemma source_example : exists f, says double_source f /\ bounds_read double_source /\ js_name f = lit "DOUBLE" /\ js_min f = 1 /\ js_max f = Some 1 /\ js_example f = Some (lit "DOUBLE(4) returns 8") /\ js_description f = None.
Proof. exists double_function. destruct double_says. split; [assumption|]. split; [assumption|]. do 4 (split; [reflexivity|]). reflexivity. Qed.
Lemma double_quiet : ~ lone_quote double_function.
Proof.
  intros (args & expected & ps & p & E & P & I & T). apply example_iff in E as (ex & call & rest & Ex & S1 & C & _). cbn in Ex. injection Ex as <-. vm_compute in S1. injection S1 as <- <-. vm_compute in C. injection C as <-. apply pieces_iff in P as ->. apply trimmed_iff in T. vm_compute in I. destruct I as [<- |[]]. vm_compute in T. discriminate.
Qed.
Lemma plain_by : forall s, forallb (fun c => negb (existsb (N.eqb c) [10; 13; 34; 58; 59])) s = true -> plain_name s.
Proof. intros s E. unfold plain_name. rewrite forallb_forall in E. apply Forall_forall. intros c I K. apply E in I. apply negb_true_iff in I. assert (existsb (N.eqb c) [10; 13; 34; 58; 59] = true); [|congruence]. apply existsb_exists. exists c. split; [assumption|apply N.eqb_refl]. Qed.
Lemma unspaced_by : forall s, trim s = s -> unspaced s.
Proof. intros s E. rewrite <- E. destruct (trim_trimmed s) as (_ & _ & _ & _ & _ & K). exact K. Qed.
Lemma undashed_by : forall s, ends_with (lit "--") s = false -> forall r, s <> r ++ lit "--".
Proof. intros s E r K. assert (ends_with (lit "--") s = true) by (apply ends_with_iff; eauto). congruence. Qed.
Lemma unmarked_by : forall p s, contains p s = false -> ~ occurs p s.
Proof. intros p s E K. apply contains_iff in K. congruence. Qed.
Lemma type_by : forall l, starts_with (lit "content-type:") (@to_lowercase example_ext l) = false -> not_header "content-type" l.
Proof. intros l E v K. pose proof (proj2 (@type_header example_ext example_unicode l) (ex_intro _ v K)). congruence. Qed.
Lemma asks_by : forall m p l ls body, l = lit m ++ 32 :: lit p ++ 32 :: lit "HTTP/1.1" -> asks m p [] (request (l :: ls) body).
Proof.
  intros m p l ls body ->. split; [|split; [constructor|now left]]. exists (lit "HTTP/1.1"). unfold request. destruct ls as [|l' ls]; cbn [join].
  - exists (crlf ++ body). split; [rewrite app_nil_r, <- !app_assoc; cbn [app]; now rewrite <- !app_assoc|]. split; [repeat constructor|discriminate].
  - exists (join crlf (l' :: ls) ++ crlf ++ crlf ++ body). split; [rewrite app_nil_r, <- !app_assoc; cbn [app]; now rewrite <- !app_assoc|]. split; [repeat constructor|discriminate].
Qed.
Lemma boundary_ok : proper_boundary (lit "XyZ").
Proof. split; [discriminate|]. repeat constructor; cbn; intuition discriminate. Qed.
Lemma fields_ok : Forall (proper_field (lit "XyZ")) (double_form double_source).
Proof.
  constructor; [|constructor; [|constructor]].
  - split; cbn [ff_name ff_file ff_type ff_content].
    + split; [discriminate|now apply plain_by].
    + discriminate.
    + discriminate.
    + split; [discriminate|]. split; [now apply unspaced_by|now apply undashed_by].
    + intros s I. cbn in I. destruct I as [<- |[<- |[]]]; apply unmarked_by; vm_compute; reflexivity.
  - split; cbn [ff_name ff_file ff_type ff_content].
    + split; [discriminate|now apply plain_by].
    + intros n E. injection E as <-. now apply plain_by.
    + intros t E. injection E as <-. split; [discriminate|]. split; [now apply unspaced_by|now apply plain_by].
    + split; [discriminate|]. split; [now apply unspaced_by|now apply undashed_by].
    + intros s I. cbn in I. destruct I as [<- |[<- |[<- |[]]]]; apply unmarked_by; vm_compute; reflexivity.
Qed.
Lemma a_line_by : forall l, match l with [] => false | _ => forallb (fun c => negb (existsb (N.eqb c) [10; 13])) l end = true -> a_line l.
Proof.
  intros l E. assert (forall c, In c l -> ~ In c [10; 13]) as K. { destruct l; [discriminate|]. rewrite forallb_forall in E. intros c I J. apply E in I. apply negb_true_iff in I. assert (existsb (N.eqb c) [10; 13] = true); [|congruence]. apply existsb_exists. exists c. split; [assumption|apply N.eqb_refl]. }
  split; [destruct l; discriminate|]. split; intros I; apply K in I; apply I; cbn; auto.
Qed.
Lemma form_brings : brings (form_of (lit "XyZ") (lit "XyZ") (double_form double_source)) (lit "double.js") double_source.
Proof.
  set (ls := [lit "POST /upload-js HTTP/1.1"; lit "Content-Type: multipart/form-data; boundary=XyZ"]). assert (Forall a_line ls) as La by (repeat constructor; now apply a_line_by).
  apply (brings_form _ _ _ ls (lit "XyZ") (double_form double_source) (mkForm (lit "filename") None None (lit "double.js")) (mkForm (lit "js_code") (Some (lit "double.js")) (Some (lit "text/javascript")) double_source)).
  - reflexivity.
  - exact La.
  - discriminate.
  - change (form_of (lit "XyZ") (lit "XyZ") (double_form double_source)) with (request ls (form_body (lit "XyZ") (double_form double_source))).
    apply (typed _ [lit "POST /upload-js HTTP/1.1"] (lit "Content-Type: multipart/form-data; boundary=XyZ") ([] :: lines (form_body (lit "XyZ") (double_form double_source))) (lit " multipart/form-data; boundary=XyZ") []).
    + rewrite lines_request by (assumption || discriminate). reflexivity.
    + repeat constructor. now apply type_by.
    + exists (lit "Content-Type"). split; reflexivity.
    + now apply not_in_lit.
    + now left.
    + apply trimmed_iff. reflexivity.
  - exact boundary_ok.
  - exact fields_ok.
  - exists [], [(lit "js_code", mkForm (lit "js_code") (Some (lit "double.js")) (Some (lit "text/javascript")) double_source)]. split; [reflexivity|]. cbn. intuition discriminate.
  - reflexivity.
  - reflexivity.
  - left. exists [(lit "filename", mkForm (lit "filename") None None (lit "double.js"))], []. split; [reflexivity|]. cbn. tauto.
Qed.
Lemma json_brings : forall name source kvs, Struct.struct_parse Struct.upload_names (@json_print example_ext (JObj [(lit "filename", JStr name); (lit "js_code", JStr source)])) = Some (JObj kvs) ->
  mget (lit "filename") kvs = Some (JStr name) -> mget (lit "js_code") kvs = Some (JStr source) -> mget (lit "file_content") kvs = None -> brings (upload_of name source) name source.
Proof.
  intros name source kvs P M1 M2 M3. set (ls := [lit "POST /upload-js HTTP/1.1"; lit "Content-Type: application/json"]). assert (Forall a_line ls) as La by (repeat constructor; now apply a_line_by).
  apply (brings_json _ _ _ ls (@json_print example_ext (JObj [(lit "filename", JStr name); (lit "js_code", JStr source)])) kvs (Some (lit "application/json"))).
  - reflexivity.
  - exact La.
  - discriminate.
  - change (upload_of name source) with (request ls (@json_print example_ext (JObj [(lit "filename", JStr name); (lit "js_code", JStr source)]))).
    apply (typed _ [lit "POST /upload-js HTTP/1.1"] (lit "Content-Type: application/json") ([] :: lines (@json_print example_ext (JObj [(lit "filename", JStr name); (lit "js_code", JStr source)]))) (lit " application/json") []).
    + rewrite lines_request by (assumption || discriminate). reflexivity.
    + repeat constructor. now apply type_by.
    + exists (lit "Content-Type"). split; reflexivity.
    + now apply not_in_lit.
    + now left.
    + apply trimmed_iff. reflexivity.
  - intros ct E. injection E as <-. intros (a & r & E & M). destruct a; [discriminate|]. injection E as <- _. discriminate.
  - exact P.
  - exact M1.
  - left. split; [exact M2|]. left. rewrite M3. now left.
Qed.
Lemma name_by : forall cs, match cs with [] => false | _ => forallb (fun c => negb (existsb (str_eqb c) [[]; lit "."; lit ".."]) && negb (existsb (N.eqb 47) c)) cs end = true -> file_name (join [47] cs).
Proof.
  intros cs E. exists cs. split; [destruct cs; discriminate|]. split; [reflexivity|]. destruct cs as [|c0 cs]; [constructor|]. rewrite forallb_forall in E. apply Forall_forall. intros c I. apply E in I. apply andb_true_iff in I as [I1 I2]. apply negb_true_iff in I1, I2. split; intros K.
  - assert (existsb (str_eqb c) [[]; lit "."; lit ".."] = true); [|congruence]. apply existsb_exists. exists c. split; [assumption|apply str_eqb_refl].
  - assert (existsb (N.eqb 47) c = true); [|congruence]. apply existsb_exists. exists 47. split; [assumption|apply N.eqb_refl].
Qed.
Lemma hooks_at : @leads example_host (lit "hooks") (lit "/srv/hooks").
Proof. apply (@leads_iff example_host). reflexivity. Qed.
Lemma upload_example : let X := example_ext in let H := example_host in let text := form_of (lit "XyZ") (lit "XyZ") (double_form double_source) in
  unicode X /\ asks "POST" "/upload-js" [] text /\ writable /\ js_returns /\ brings text (lit "double.js") double_source /\ brings (upload_of (lit "sub/double.js") double_source) (lit "sub/double.js") double_source
  /\ file_name (lit "sub/double.js") /\ file_name (lit "double.js") /\ hook_path (lit "double.js") (lit "/srv/hooks/double.js")
  /\ exists f, says double_source f /\ bounds_read double_source /\ ~ lone_quote f.
Proof.
  intros X H text. split; [exact example_unicode|]. split; [now apply asks_by|]. split; [now split|]. split; [intros code args r E L; injection E as <-; inversion L|]. split; [exact form_brings|]. split.
  - apply (json_brings _ _ [(lit "filename", JStr (lit "sub/double.js")); (lit "js_code", JStr double_source)]); [vm_compute|..]; reflexivity.
  - split; [now apply (name_by [lit "sub"; lit "double.js"])|]. split; [now apply (name_by [lit "double.js"])|]. split; [exists (lit "/srv/hooks"); split; [exact hooks_at|reflexivity]|]. exists double_function. destruct double_says. split; [assumption|]. split; [assumption|exact double_quiet].
Qed.
Lemma contents_example : exists code path answer s, let X := example_ext in let H := example_host in
  let text := form_of (lit "XyZ") (lit "XyZ") (double_form code) in
  asks "POST" "/upload-js" [] text /\ hook_path (lit "double.js") path /\ status_is "200" answer
  /\ exists w', serves None None text (first_world []) w' answer /\ mget path (w_files w') = Some s /\ s <> code.
Proof.
  exists (double_source ++ lit "//--" ++ [10]), (lit "/srv/hooks/double.js").
  set (r := @HttpServer.run (@handle_http_request example_ext example_host None None (inl (form_of (lit "XyZ") (lit "XyZ") (double_form (double_source ++ lit "//--" ++ [10]))))) (first_world [])).
  assert (E : exists a, snd r = Some a /\ status_is "200" a /\ mget (lit "/srv/hooks/double.js") (w_files (fst r)) = Some (double_source ++ lit "//")).
  { eexists. split; [vm_compute; reflexivity|]. split; [apply status_by; vm_compute; reflexivity|vm_compute; reflexivity]. }
  destruct E as (a & E1 & E2 & E3). exists a, (double_source ++ lit "//"). intros X H text. split; [now apply asks_by|]. split; [exists (lit "/srv/hooks"); split; [exact hooks_at|reflexivity]|]. split; [exact E2|]. exists (fst r). split; [|split; [exact E3|intros K; apply (f_equal (@length N)) in K; vm_compute in K; discriminate]].
  unfold serves. change (r = (fst r, Some a)). rewrite <- E1. now destruct r.
Qed.
Lemma boundary_example : exists text answer, let X := example_ext in let H := example_host in
  text = form_of (lit """XyZ""") (lit "XyZ") (double_form double_source) /\ asks "POST" "/upload-js" [] text /\ serves None None text (first_world []) (first_world []) answer /\ status_is "400" answer.
Proof.
  set (r := @HttpServer.run (@handle_http_request example_ext example_host None None (inl (form_of (lit """XyZ""") (lit "XyZ") (double_form double_source)))) (first_world [])).
  assert (E : exists a, snd r = Some a /\ status_is "400" a /\ fst r = first_world []).
  { eexists. split; [vm_compute; reflexivity|]. split; [apply status_by; vm_compute; reflexivity|vm_compute; reflexivity]. }
  destruct E as (a & E1 & E2 & E3). eexists. exists a. intros X H. split; [reflexivity|]. split; [now apply asks_by|]. split; [|exact E2]. unfold serves. change (r = (first_world [], Some a)). rewrite <- E1, <- E3. now destruct r.
Qed.
Definition quote_source : str := join [10] [lit "// @name: DOUBLE"; lit "// @example: DOUBLE("") returns 8"; lit "return 8;"].
Definition quote_function : js_function := mkJs (lit "DOUBLE") 1 None None (Some (lit "DOUBLE("") returns 8")) quote_source.
Lemma quote_example : exists source f, says source f /\ bounds_read source /\ let X := example_ext in let H := example_host in
  HttpServer.run (handle_http_request None None (inl (upload_of (lit "double.js") source))) (first_world []) = (first_world [], None).
Proof. exists quote_source, quote_function. apply and_assoc. split; [apply source_read; vm_compute; reflexivity|]. vm_compute. reflexivity. Qed.

(** ** Files *)
Definition two : list str := [upload_of (lit "double.js") double_source; upload_of (lit "sub/triple.js") triple_source].
Definition triple_function : js_function := mkJs (lit "TRIPLE") 1 None None None triple_source.
Lemma two_files : w_files (sv_world (example_run two)) = [(lit "/srv/hooks/sub/triple.js", triple_source); (lit "/srv/hooks/double.js", double_source)].
Proof. vm_compute. reflexivity. Qed.
Lemma readable_example : @readable example_host.
Proof. split; [reflexivity|]. split; [reflexivity|]. intros l. reflexivity. Qed.
Lemma files_example : let X := example_ext in let H := example_host in let w := sv_world (example_run [upload_of (lit "double.js") double_source; upload_of (lit "sub/triple.js") triple_source]) in
  readable /\ distinct_files w /\ hook_file (w_files w) (lit "double.js") double_source /\ hook_file (w_files w) (lit "sub/triple.js") triple_source /\ (forall f, found (w_files w) f -> registrable f)
  /\ (forall name, In name [lit "DOUBLE"; lit "TRIPLE"] <-> In name (reg_list (w_registry (fst (HttpServer.run (handle_http_request None None (inl reload_request)) w)))))
  /\ names_file (delete_of (lit "double.js")) (lit "double.js") /\ asks "DELETE" "/delete-js" [] (delete_of (lit "double.js")) /\ asks "GET" "/list-js" [] list_request /\ asks "POST" "/reload-hooks" [] reload_request.
Proof.
  intros X H w. assert (w_files w = [(lit "/srv/hooks/sub/triple.js", triple_source); (lit "/srv/hooks/double.js", double_source)]) as Ew by exact two_files. split; [exact readable_example|].
  assert (distinct_files w) as Nd. { unfold distinct_files. rewrite Ew. repeat constructor; cbn; intuition discriminate. } split; [exact Nd|]. split; [|split; [|split; [|split]]].
  - split; [exists (lit "doubl"), 101; split; [reflexivity|discriminate]|]. exists (lit "/srv/hooks/double.js"). split; [exists (lit "/srv/hooks"); split; [exact hooks_at|reflexivity]|]. now rewrite Ew.
  - split; [exists (lit "sub/tripl"), 101; split; [reflexivity|discriminate]|]. exists (lit "/srv/hooks/sub/triple.js"). split; [exists (lit "/srv/hooks"); split; [exact hooks_at|reflexivity]|]. now rewrite Ew.
  - intros f Ff. apply (proj2 (@loaded_found example_host (w_files w) f readable_example Nd)) in Ff. rewrite Ew in Ff. vm_compute in Ff. destruct Ff as [<- |[<- |[]]]; (split; [vm_compute; discriminate|]); cbn; intros m K; [discriminate|injection K as <-; reflexivity].
  - intros name. assert (reg_list (w_registry (fst (HttpServer.run (handle_http_request None None (inl reload_request)) w))) = [lit "DOUBLE"; lit "TRIPLE"]) as ->; [vm_compute; reflexivity|reflexivity].
  - split.
    + exists [lit "DELETE /delete-js HTTP/1.1"], (@json_print example_ext (JObj [(lit "filename", JStr (lit "double.js"))])), [(lit "filename", JStr (lit "double.js"))]. split; [reflexivity|]. split; [repeat constructor; now apply a_line_by|]. split; [discriminate|]. split; [vm_compute; reflexivity|reflexivity].
    + split; [now apply asks_by|]. split; now apply asks_by.
Qed.
Lemma outside_example : exists name dir, let X := example_ext in let H := example_host in let w := sv_world (example_run [upload_of name double_source]) in
  leads h_hooks dir /\ exists path, mget path (w_files w) = Some double_source /\ forall rest, path <> dir ++ [47] ++ rest.
Proof.
  exists (lit "../x.js"), (lit "/srv/hooks"). intros X H w. split; [exact hooks_at|]. exists (lit "/srv/x.js"). split; [vm_compute; reflexivity|]. intros rest K. cbn in K. discriminate.
Qed.
Lemma deleted_example : exists name, let X := example_ext in let H := example_host in let w := sv_world (example_run [upload_of name double_source; reload_request; delete_of name; reload_request]) in
  w_files w = [] /\ exists g, reg_get (w_registry w) (lit "DOUBLE") = Some g.
Proof. exists (lit "double.js"). intros X H w. split; [vm_compute; reflexivity|]. exists (js_custom double_function). vm_compute. reflexivity. Qed.
Definition bad_source : str := join [10] [lit "// @name: BAD"; lit "// @min_args: 2"; lit "// @max_args: 1"; lit "return 8;"].
Definition bad_function : js_function := mkJs (lit "BAD") 2 (Some 1) None None bad_source.
Lemma blocked_example : exists source f, says source f /\ bounds_read source /\ ~ @registrable example_ext f /\ let X := example_ext in let H := example_host in
  let w := sv_world (example_run [upload_of (lit "good.js") triple_source; upload_of (lit "bad.js") source; reload_request]) in
  hook_file (w_files w) (lit "bad.js") source /\ hook_file (w_files w) (lit "good.js") triple_source /\ reg_get (w_registry w) (lit "TRIPLE") = None.
Proof.
  exists bad_source, bad_function. apply and_assoc. split; [apply source_read; vm_compute; reflexivity|]. split; [intros [_ K]; specialize (K 1 eq_refl); vm_compute in K; now apply K|]. intros X H w.
  assert (w_files w = [(lit "/srv/hooks/bad.js", bad_source); (lit "/srv/hooks/good.js", triple_source)]) as Ew by (vm_compute; reflexivity). split; [|split].
  - split; [exists (lit "ba"), 100; split; [reflexivity|discriminate]|]. exists (lit "/srv/hooks/bad.js"). split; [exists (lit "/srv/hooks"); split; [exact hooks_at|reflexivity]|]. now rewrite Ew.
  - split; [exists (lit "goo"), 100; split; [reflexivity|discriminate]|]. exists (lit "/srv/hooks/good.js"). split; [exists (lit "/srv/hooks"); split; [exact hooks_at|reflexivity]|]. now rewrite Ew.
  - vm_compute. reflexivity.
Qed.
Lemma nameless_example : exists path, let X := example_ext in let H := example_host in let w := sv_world (example_run [upload_of (lit ".js") double_source]) in
  mget path (w_files w) = Some double_source /\ hook_path (lit ".js") path /\ forall f, ~ found (w_files w) f.
Proof.
  exists (lit "/srv/hooks/.js"). intros X H w. assert (w_files w = [(lit "/srv/hooks/.js", double_source)]) as Ew by (vm_compute; reflexivity). split; [now rewrite Ew|]. split; [exists (lit "/srv/hooks"); split; [exact hooks_at|reflexivity]|].
  intros f Ff. assert (distinct_files w) as Nd. { unfold distinct_files. rewrite Ew. repeat constructor; cbn; intuition discriminate. } apply (proj2 (@loaded_found example_host (w_files w) f readable_example Nd)) in Ff. rewrite Ew in Ff. vm_compute in Ff. exact Ff.
Qed.
