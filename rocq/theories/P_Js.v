(** Properties of functions written in JavaScript: their sources, uploads, files and loading. *)
From Coq Require Import String List ZArith NArith Bool Permutation Sorted.
From Verif Require Import Base F64 Utf8 Syntax Ext Json Lines Host HttpRead HttpAuth Multipart Utils Registry Dispatch Methods Core Evaluator JsPlugin HttpServer HttpThreads Spec Spec_syntax Spec_text Spec_args Spec_registry Spec_json Spec_http Spec_js Spec_form.
From Verif Require JsPlugin_proofs Upload_proofs Hooks_proofs Lifecycle_proofs Js_examples_proofs.
Import ListNotations.
Local Open Scope N_scope.

(** * C56 An upload stores the source that was sent, as JSON or as a form *)

Theorem C56_upload : forall (X : Ext) (H : Host), unicode X -> forall (token admin : option str) q text name path source f w, asks "POST" "/upload-js" q text -> authorised admin text -> writable -> js_returns -> brings text name source ->
  file_name name -> (exists r, name = r ++ lit ".js") -> hook_path name path -> says source f -> bounds_read source -> ~ lone_quote f ->
  exists w' answer, serves token admin text w w' answer /\ stored_answer answer f /\ changes_file path w w' /\ mget path (w_files w') = Some source /\ (distinct_files w -> distinct_files w').
Proof. exact @Upload_proofs.uploaded. Qed.
Print Assumptions C56_upload.

Theorem C56_update : forall (X : Ext) (H : Host), unicode X -> forall (token admin : option str) q text name path source f w, asks "PUT" "/update-js" q text -> authorised admin text -> writable -> js_returns -> brings text name source ->
  file_name name -> (exists r, name = r ++ lit ".js") -> hook_path name path -> says source f -> bounds_read source -> ~ lone_quote f -> mget path (w_files w) <> None ->
  exists w' answer, serves token admin text w w' answer /\ stored_answer answer f /\ changes_file path w w' /\ mget path (w_files w') = Some source /\ (distinct_files w -> distinct_files w').
Proof. exact @Upload_proofs.updated. Qed.
Print Assumptions C56_update.

Theorem C56_update_missing : forall (X : Ext) (H : Host), unicode X -> forall (token admin : option str) q text name path source w, asks "PUT" "/update-js" q text -> authorised admin text -> brings text name source ->
  file_name name -> (exists r, name = r ++ lit ".js") -> hook_path name path -> mget path (w_files w) = None ->
  exists answer kvs, serves token admin text w w answer /\ answers "404" answer kvs /\ has_entry kvs "success" (JBool false).
Proof. exact @Upload_proofs.update_missing. Qed.
Print Assumptions C56_update_missing.

(** a name that does not end with ".js", or a source that is no function, changes nothing *)
Theorem C56_refused : forall (X : Ext) (H : Host), unicode X -> forall (token admin : option str) m p q text name source w, In (m, p) [("POST", "/upload-js"); ("PUT", "/update-js")]%string -> asks m p q text -> authorised admin text -> brings text name source ->
  (~ exists r, name = r ++ lit ".js") \/ (forall f, ~ (says source f /\ bounds_read source)) ->
  exists answer status kvs, serves token admin text w w answer /\ In status ["400"; "404"]%string /\ answers status answer kvs /\ has_entry kvs "success" (JBool false).
Proof. exact @Upload_proofs.upload_refused. Qed.
Print Assumptions C56_refused.

Example C56_nonvacuous : let X := example_ext in let H := example_host in let text := form_of (lit "XyZ") (lit "XyZ") (double_form double_source) in
  unicode X /\ asks "POST" "/upload-js" [] text /\ writable /\ js_returns /\ brings text (lit "double.js") double_source /\ brings (upload_of (lit "sub/double.js") double_source) (lit "sub/double.js") double_source
  /\ file_name (lit "sub/double.js") /\ file_name (lit "double.js") /\ hook_path (lit "double.js") (lit "/srv/hooks/double.js")
  /\ exists f, says double_source f /\ bounds_read double_source /\ ~ lone_quote f.
Proof. exact Js_examples_proofs.upload_example. Qed.

(** contents of a field that end with a line break or with dashes are not stored as they are *)
Theorem C56_contents_refuted : exists code path answer s, let X := example_ext in let H := example_host in
  let text := form_of (lit "XyZ") (lit "XyZ") (double_form code) in
  asks "POST" "/upload-js" [] text /\ hook_path (lit "double.js") path /\ status_is "200" answer
  /\ exists w', serves None None text (first_world []) w' answer /\ mget path (w_files w') = Some s /\ s <> code.
Proof. exact Js_examples_proofs.contents_example. Qed.
Print Assumptions C56_contents_refuted.

(** a boundary in quotes, as the standard allows, is not understood *)
Theorem C56_boundary_refuted : exists text answer, let X := example_ext in let H := example_host in
  text = form_of (lit """XyZ""") (lit "XyZ") (double_form double_source) /\ asks "POST" "/upload-js" [] text /\ serves None None text (first_world []) (first_world []) answer /\ status_is "400" answer.
Proof. exact Js_examples_proofs.boundary_example. Qed.
Print Assumptions C56_boundary_refuted.

(** * C57 The annotations of a source decide name, numbers of arguments and documentation *)

Theorem C57_read : forall source f, parse_js_function source = Ok f <-> says source f /\ bounds_read source.
Proof. exact JsPlugin_proofs.source_read. Qed.
Print Assumptions C57_read.

Theorem C57_rejected : forall source, Forall (fun l => forall v, ~ annotates "name" l v) (lines source) \/ ~ bounds_read source -> exists e, parse_js_function source = Err e.
Proof. exact JsPlugin_proofs.source_rejected. Qed.
Print Assumptions C57_rejected.

Example C57_nonvacuous : exists f, says double_source f /\ bounds_read double_source /\ js_name f = lit "DOUBLE" /\ js_min f = 1 /\ js_max f = Some 1 /\ js_example f = Some (lit "DOUBLE(4) returns 8") /\ js_description f = None.
Proof. exact Js_examples_proofs.source_example. Qed.

(** an example with an argument that is one quotation mark ends the request without an answer *)
Theorem C57_quote_refuted : exists source f, says source f /\ bounds_read source /\ let X := example_ext in let H := example_host in
  HttpServer.run (handle_http_request None None (inl (upload_of (lit "double.js") source))) (first_world []) = (first_world [], None).
Proof. exact Js_examples_proofs.quote_example. Qed.
Print Assumptions C57_quote_refuted.

(** * C58 Listing, deleting and loading act on exactly the JavaScript files of the hooks directory *)

Theorem C58_list : forall (X : Ext) (H : Host), unicode X -> forall (token admin : option str) q text w, asks "GET" "/list-js" q text -> authorised admin text -> readable -> distinct_files w ->
  exists answer kvs l js, serves token admin text w w answer /\ answers "200" answer kvs /\ has_entry kvs "success" (JBool true) /\ has_entry kvs "functions" (JArr js) /\ has_entry kvs "total_count" (optional_count (Some (N.of_nat (length l))))
    /\ StronglySorted (fun a b => alphabetical (fst a) (fst b)) l /\ (forall name source, In (name, source) l <-> hook_file (w_files w) name source) /\ Forall2 (fun ns j => describes (fst ns) (snd ns) j) l js.
Proof. exact @Lifecycle_proofs.listed_files. Qed.
Print Assumptions C58_list.

Theorem C58_delete : forall (X : Ext) (H : Host), unicode X -> forall (token admin : option str) q text name path w, asks "DELETE" "/delete-js" q text -> authorised admin text -> names_file text name -> file_name name -> (exists r, name = r ++ lit ".js") -> hook_path name path ->
  (forall p, h_remove_fails p = None) -> mget path (w_files w) <> None ->
  exists w' answer kvs, serves token admin text w w' answer /\ answers "200" answer kvs /\ has_entry kvs "success" (JBool true) /\ changes_file path w w' /\ mget path (w_files w') = None /\ (distinct_files w -> distinct_files w').
Proof. exact @Lifecycle_proofs.deleted. Qed.
Print Assumptions C58_delete.

Theorem C58_delete_missing : forall (X : Ext) (H : Host), unicode X -> forall (token admin : option str) q text name path w, asks "DELETE" "/delete-js" q text -> authorised admin text -> names_file text name -> file_name name -> hook_path name path -> mget path (w_files w) = None ->
  exists answer status kvs, serves token admin text w w answer /\ In status ["400"; "500"]%string /\ answers status answer kvs /\ has_entry kvs "success" (JBool false).
Proof. exact @Lifecycle_proofs.delete_missing. Qed.
Print Assumptions C58_delete_missing.

Theorem C58_reload : forall (X : Ext) (H : Host), unicode X -> forall (token admin : option str) q text w, asks "POST" "/reload-hooks" q text -> authorised admin text -> readable -> distinct_files w -> (forall f, found (w_files w) f -> registrable f) ->
  exists w' answer kvs l, serves token admin text w w' answer /\ answers "200" answer kvs /\ has_entry kvs "success" (JBool true) /\ has_entry kvs "functions_loaded" (optional_count (Some (N.of_nat (length l))))
    /\ NoDup (map fst l) /\ (forall name source, In (name, source) l <-> hook_file (w_files w) name source /\ exists f, says source f /\ bounds_read source)
    /\ changes_functions w w'
    /\ forall name, (exists f g, found (w_files w) f /\ same_name (js_name f) name /\ reg_get (w_registry w') name = Some g /\ runs_as g f)
                    \/ (~ (exists f, found (w_files w) f /\ same_name (js_name f) name) /\ reg_get (w_registry w') name = reg_get (w_registry w) name).
Proof. exact @Lifecycle_proofs.reloaded. Qed.
Print Assumptions C58_reload.

Theorem C58_reload_fails : forall (X : Ext) (H : Host), unicode X -> forall (token admin : option str) q text w, asks "POST" "/reload-hooks" q text -> authorised admin text -> readable -> distinct_files w -> (exists f, found (w_files w) f /\ ~ registrable f) ->
  exists w' answer kvs, serves token admin text w w' answer /\ answers "500" answer kvs /\ has_entry kvs "success" (JBool false) /\ changes_functions w w'.
Proof. exact @Lifecycle_proofs.reload_fails. Qed.
Print Assumptions C58_reload_fails.

(** an uploaded function, once the functions are loaded, can be called *)
Theorem C58_usable : forall (X : Ext) (H : Host), unicode X -> forall (token admin : option str) q q' up rel name path source f w w1 a1, asks "POST" "/upload-js" q up -> asks "POST" "/reload-hooks" q' rel -> authorised admin up -> authorised admin rel -> writable -> readable -> js_returns ->
  distinct_files w -> brings up name source -> file_name name -> js_file name -> hook_path name path -> says source f -> bounds_read source -> ~ lone_quote f -> registrable f ->
  (forall g, found (w_files w) g -> registrable g) ->
  (forall name' source' g, hook_file (w_files w) name' source' -> name' <> name -> says source' g -> bounds_read source' -> ~ same_name (js_name g) (js_name f)) ->
  serves token admin up w w1 a1 ->
  exists w2 a2, serves token admin rel w1 w2 a2 /\ status_is "200" a2
    /\ forall call es vs vars, same_name call (js_name f) -> ~ In call (map lit ["__TERNARY__"; "__CONST_TRUE__"; "__CONST_FALSE__"]%string) -> evaluate_to (custom_ctx vars (w_registry w2)) es vs ->
         js_min f <= N.of_nat (length vs) -> (forall m, js_max f = Some m -> N.of_nat (length vs) <= m) ->
         eval (EFunctionCall call es) (custom_ctx vars (w_registry w2)) = js_execute source vs.
Proof. exact @Lifecycle_proofs.usable. Qed.
Print Assumptions C58_usable.

Example C58_nonvacuous : let X := example_ext in let H := example_host in let w := sv_world (example_run [upload_of (lit "double.js") double_source; upload_of (lit "sub/triple.js") triple_source]) in
  readable /\ distinct_files w /\ hook_file (w_files w) (lit "double.js") double_source /\ hook_file (w_files w) (lit "sub/triple.js") triple_source /\ (forall f, found (w_files w) f -> registrable f)
  /\ (forall name, In name [lit "DOUBLE"; lit "TRIPLE"] <-> In name (reg_list (w_registry (fst (HttpServer.run (handle_http_request None None (inl reload_request)) w)))))
  /\ names_file (delete_of (lit "double.js")) (lit "double.js") /\ asks "DELETE" "/delete-js" [] (delete_of (lit "double.js")) /\ asks "GET" "/list-js" [] list_request /\ asks "POST" "/reload-hooks" [] reload_request.
Proof. exact Js_examples_proofs.files_example. Qed.

(** a name with ".." is a file outside the hooks directory *)
Theorem C58_outside_refuted : exists name dir, let X := example_ext in let H := example_host in let w := sv_world (example_run [upload_of name double_source]) in
  leads h_hooks dir /\ exists path, mget path (w_files w) = Some double_source /\ forall rest, path <> dir ++ [47] ++ rest.
Proof. exact Js_examples_proofs.outside_example. Qed.
Print Assumptions C58_outside_refuted.

(** a function whose file was deleted can still be called after loading again *)
Theorem C58_deleted_refuted : exists name, let X := example_ext in let H := example_host in let w := sv_world (example_run [upload_of name double_source; reload_request; delete_of name; reload_request]) in
  w_files w = [] /\ exists g, reg_get (w_registry w) (lit "DOUBLE") = Some g.
Proof. exact Js_examples_proofs.deleted_example. Qed.
Print Assumptions C58_deleted_refuted.

(** a function that cannot be registered is stored all the same, and keeps others from being loaded *)
Theorem C58_blocked_refuted : exists source f, says source f /\ bounds_read source /\ ~ @registrable example_ext f /\ let X := example_ext in let H := example_host in
  let w := sv_world (example_run [upload_of (lit "good.js") triple_source; upload_of (lit "bad.js") source; reload_request]) in
  hook_file (w_files w) (lit "bad.js") source /\ hook_file (w_files w) (lit "good.js") triple_source /\ reg_get (w_registry w) (lit "TRIPLE") = None.
Proof. exact Js_examples_proofs.blocked_example. Qed.
Print Assumptions C58_blocked_refuted.

(** a file ".js" is stored but never found *)
Theorem C58_nameless_refuted : exists path, let X := example_ext in let H := example_host in let w := sv_world (example_run [upload_of (lit ".js") double_source]) in
  mget path (w_files w) = Some double_source /\ hook_path (lit ".js") path /\ forall f, ~ found (w_files w) f.
Proof. exact Js_examples_proofs.nameless_example. Qed.
Print Assumptions C58_nameless_refuted.
