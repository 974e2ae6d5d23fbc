(** Requests written in JSON: which texts are read, and what repeated and unknown fields do. *)
From Coq Require Import String List ZArith NArith Bool Lia Permutation.
From Verif Require Import Base F64 F64Text Syntax Utf8 Ext Json Struct Registry Core Methods Api Lines Host HttpRead HttpAuth HttpCache HttpServer Command LineServer Spec Spec_syntax Spec_text Spec_http Spec_json Spec_struct Spec_command Spec_js Spec_lines
  Base_proofs Struct_proofs JsonShape_proofs StructRead_proofs Query_proofs Reply_proofs Lines_proofs Twice_proofs.
From Verif Require Import Spec_eval.
Import ListNotations.
Local Open Scope N_scope.

(** * C86 Requests with repeated and unknown fields
    [json_document s]: [s] is a JSON text by the grammar of RFC 8259;
    [object_with names kvs s]: [s] is an object that gives the known fields [kvs], each
    once, between members with other names whose values may be anything of JSON's form;
    [given_twice names k s]: [s] gives the known field [k] a second time. *)

(** nothing but JSON is read *)
Theorem C86_only_json : forall s j, json_parse s = Some j -> json_document s.
Proof. exact @parsed_shape. Qed.
Print Assumptions C86_only_json.
Theorem C86_line_json : forall line r, requested line r -> json_document line.
Proof. exact @line_json. Qed.
Print Assumptions C86_line_json.

(** members with other names do not matter, whatever their values *)
Theorem C86_line : forall (X : Ext) kvs line r, object_with [lit "expression"; lit "variables"; lit "output_json"; lit "token"] kvs line ->
  fields (mget (lit "expression") kvs) (mget (lit "variables") kvs) (mget (lit "output_json") kvs) (mget (lit "token") kvs) r -> requested line r.
Proof. exact @line_fields_read. Qed.
Print Assumptions C86_line.
Theorem C86_post : forall (X : Ext) q v more text body kvs e t, first_words text (lit "POST" :: (lit "/eval" ++ q) :: v :: more) -> q = [] \/ hd 0 q = 63 -> body_of text body ->
  object_with [lit "expression"; lit "arguments"; lit "output_json"; lit "include_variables"] kvs body ->
  mget (lit "expression") kvs = Some e -> expression_json e (t_expression t) -> arguments_json (mget (lit "arguments") kvs) (t_arguments t) ->
  structured_json (mget (lit "output_json") kvs) (t_structured t) -> included_json (mget (lit "include_variables") kvs) (t_included t) -> wants text t.
Proof. exact @post_fields_read. Qed.
Print Assumptions C86_post.

(** a field given twice is not understood, even twice with the same value *)
Theorem C86_line_twice : forall (X : Ext) k line, In k [lit "expression"; lit "variables"; lit "output_json"; lit "token"] ->
  given_twice [lit "expression"; lit "variables"; lit "output_json"; lit "token"] k line -> (forall r, ~ requested line r) /\
  forall reg token id j, Spec_lines.answers reg token id line j -> exists why time, j = answer_json false JNull (JStr (lit "Invalid JSON request: " ++ why)) time id.
Proof. exact @line_twice. Qed.
Print Assumptions C86_line_twice.
Theorem C86_post_twice : forall (X : Ext) (H : Host) token admin q text body k w, unicode X -> asks "POST" "/eval" q text -> authorised token text -> body_of text body ->
  In k [lit "expression"; lit "arguments"; lit "output_json"; lit "include_variables"] -> given_twice [lit "expression"; lit "arguments"; lit "output_json"; lit "include_variables"] k body ->
  exists answer kvs, serves token admin text w w answer /\ Spec_js.answers "400" answer kvs /\ has_entry kvs "success" (JBool false).
Proof. exact @post_twice. Qed.
Print Assumptions C86_post_twice.

(** the same for every list of fields: what is read, what is refused, and nothing else is read *)
Theorem C86_fields : forall (X : Ext) names kvs s, object_with names kvs s -> struct_parse names s = Some (JObj kvs).
Proof. exact @struct_read. Qed.
Print Assumptions C86_fields.
Theorem C86_twice : forall (X : Ext) names k s, In k names -> given_twice names k s -> struct_parse names s = None.
Proof. exact @struct_twice. Qed.
Print Assumptions C86_twice.
Theorem C86_read : forall names s j, struct_parse names s = Some j ->
  json_document s /\ forall kvs, j = JObj kvs -> NoDup (map fst kvs) /\ Forall (fun kv => In (fst kv) names) kvs.
Proof. exact @struct_only. Qed.
Print Assumptions C86_read.

Example C86_line_nonvacuous : exists r, l_expression r = lit "=1+1" /\ requested odd_line r.
Proof.
  exists (mkLine (lit "=1+1") None None None). split; [reflexivity|]. eapply C86_line; [apply odd_object; [now left|intros [K|[K|[K|[K|[]]]]]; discriminate]|]. split; [reflexivity|]. split; [now left|]. split; now left.
Qed.
(** the same value would not be read in a known field *)
Example C86_line_limits : struct_parse line_names (lit "{""expression"":""=1+1"",""variables"":{""note"":1e999}}") = None.
Proof. vm_compute. reflexivity. Qed.
Example C86_twice_nonvacuous : @given_twice example_ext line_names (lit "expression") twice_line /\ json_document twice_line.
Proof.
  split; [apply twice_given; now left|]. exists [], twice_line, []. split; [constructor|]. split; [apply shape_by; [reflexivity|vm_compute; reflexivity]|]. split; [constructor|now rewrite app_nil_r].
Qed.
Example C86_post_nonvacuous : asks "POST" "/eval" [] (to "POST /eval HTTP/1.1" "{""expression"":""=1+1"",""expression"":""=1+2""}") /\ body_of (to "POST /eval HTTP/1.1" "{""expression"":""=1+1"",""expression"":""=1+2""}") twice_line
  /\ @given_twice example_ext eval_names (lit "expression") twice_line.
Proof.
  split; [|split; [apply body_iff; eexists; vm_compute; reflexivity|apply twice_given; now left]].
  split; [exists (lit "HTTP/1.1"), (crlf ++ twice_line); split; [reflexivity|split; [repeat constructor|discriminate]]|split; [constructor|now left]].
Qed.
