(** Requests with repeated and unknown fields, for both servers. *)
From Coq Require Import String List ZArith NArith Bool Lia Permutation.
From Verif Require Import Base F64 F64Text Syntax Utf8 Ext Json Struct Registry Core Methods Api Lines Host HttpRead HttpAuth HttpCache HttpServer Command LineServer Spec Spec_syntax Spec_text Spec_http Spec_json Spec_struct Spec_command Spec_js Spec_lines
  Base_proofs HttpRead_proofs HttpAuth_proofs HttpCache_proofs HttpExamples_proofs Upload_proofs Struct_proofs JsonShape_proofs StructRead_proofs Query_proofs Reply_proofs Lines_proofs.
From Verif Require Import Spec_eval.
Import ListNotations.
Local Open Scope N_scope.
Local Opaque json_parse struct_parse.

(** a text is of JSON's form if all of it is skipped *)
Lemma shape_by : forall s, match s with c :: _ => json_ws c = false | [] => False end -> skip_value (length s) s = Some [] -> json_shape s.
Proof.
  intros s W K. apply value_shape in K as (w & v & B & V & E). rewrite app_nil_r in E. destruct w as [|c w]; [now rewrite E|]. rewrite E in W. cbn in W. inversion B as [|? ? Bc]; subst. apply Layout_proofs.blank_ws in Bc. congruence.
Qed.

Section Requests.
  Context {X : Ext} {H : Host}.
  Lemma line_fields_read : forall kvs line r, object_with line_names kvs line -> fields (mget (lit "expression") kvs) (mget (lit "variables") kvs) (mget (lit "output_json") kvs) (mget (lit "token") kvs) r -> requested line r.
  Proof. intros kvs line r O F. exists (JObj kvs). split; [now apply struct_read|now apply as_object]. Qed.
  Lemma line_json : forall line r, requested line r -> json_document line.
  Proof. intros line r (j & P & _). now apply struct_only in P. Qed.
  Lemma line_twice : forall k line, In k line_names -> given_twice line_names k line -> (forall r, ~ requested line r) /\
    forall reg token id j, Spec_lines.answers reg token id line j -> exists why time, j = answer_json false JNull (JStr (lit "Invalid JSON request: " ++ why)) time id.
  Proof.
    intros k line I G. assert (N : forall r, ~ requested line r) by (intros r (j & P & _); rewrite (struct_twice line_names k line I G) in P; discriminate). split; [exact N|].
    intros reg token id j [why time _|r time R _|r vars v j' time R _ _ _ _|r vars e time R _ _ _]; [now exists why, time|destruct (N r R)|destruct (N r R)|destruct (N r R)].
  Qed.
  Lemma post_fields_read : forall q v more text body kvs e t, first_words text (lit "POST" :: (lit "/eval" ++ q) :: v :: more) -> q = [] \/ hd 0 q = 63 -> body_of text body -> object_with eval_names kvs body ->
    mget (lit "expression") kvs = Some e -> expression_json e (t_expression t) -> arguments_json (mget (lit "arguments") kvs) (t_arguments t) ->
    structured_json (mget (lit "output_json") kvs) (t_structured t) -> included_json (mget (lit "include_variables") kvs) (t_included t) -> wants text t.
  Proof.
    intros q v more text body kvs e t W Q B Ob E Ex A O I0. eapply wants_post; [exact W|exact Q|exact B|exact (struct_read eval_names kvs body Ob)|left; exists kvs; split; [reflexivity|]; split; [symmetry; exact E|]; split; [reflexivity|]; split; reflexivity|exact Ex|exact A|exact O|exact I0].
  Qed.
  Lemma post_twice : forall token admin q text body k w, unicode X -> asks "POST" "/eval" q text -> authorised token text -> body_of text body -> In k eval_names -> given_twice eval_names k body ->
    exists answer kvs, serves token admin text w w answer /\ Spec_js.answers "400" answer kvs /\ has_entry kvs "success" (JBool false).
  Proof.
    intros token admin q text body k w U A Au B I G. apply (eval_refused token admin "POST" q text w U); [cbn; tauto|exact A|exact Au|]. intros t [q' v more body' j e a o i W _ B' P _ _ _ _ _|q' v more ps kvs W _ _ _ _ _ _ _].
    - apply body_iff in B as (h & B). apply body_iff in B' as (h' & B'). rewrite B in B'. injection B' as _ <-. rewrite (struct_twice eval_names k body I G) in P. discriminate.
    - destruct (asked "POST" "/eval" q text A) as (l & ls & v' & L & W' & _); [split; [repeat constructor|discriminate]|split; [repeat constructor|discriminate]|cbn; intuition discriminate|]. destruct W as (l' & ls' & L' & W). rewrite L in L'. injection L' as <- _. rewrite W' in W. discriminate.
  Qed.
End Requests.

(** ** Examples *)
Definition odd_line : str := lit "{""expression"":""=1+1"", ""note"":[1e999,""\ud800"",{""expression"":0}]}".
Definition twice_line : str := lit "{""expression"":""=1+1"",""expression"":""=1+2""}".
Definition odd_member : str := lit " ""note"":[1e999,""\ud800"",{""expression"":0}]".
Definition plain_member : str := lit """expression"":""=1+1""".
Lemma plain_known : forall names, In (lit "expression") names -> @member_gives example_ext names plain_member [(lit "expression", JStr (lit "=1+1"))].
Proof.
  intros names I. change plain_member with ([] ++ @json_print example_ext (JStr (lit "expression")) ++ [] ++ lit ":" ++ [] ++ @json_print example_ext (JStr (lit "=1+1")) ++ []). apply (known_member _ (lit "expression")); [exact I|apply Layout_proofs.quote_spelled|apply text_document|cbn; lia|apply (@atom_text example_ext); exact (fun f => f)|constructor|constructor|constructor|constructor].
Qed.
Lemma odd_skipped : forall names, ~ In (lit "note") names -> @member_gives example_ext names odd_member [].
Proof.
  intros names I. change odd_member with ([32] ++ @json_print example_ext (JStr (lit "note")) ++ [] ++ lit ":" ++ [] ++ lit "[1e999,""\ud800"",{""expression"":0}]" ++ []). apply (other_member _ (lit "note")); [exact I|apply Layout_proofs.quote_spelled|apply shape_by; [reflexivity|vm_compute; reflexivity]|repeat constructor|constructor|constructor|constructor].
Qed.
Lemma odd_object : forall names, In (lit "expression") names -> ~ In (lit "note") names -> @object_with example_ext names [(lit "expression", JStr (lit "=1+1"))] odd_line.
Proof.
  intros names I J. exists [], [], (join (lit ",") [plain_member; odd_member]). split; [constructor|]. split; [constructor|]. split; [reflexivity|]. right. exists [plain_member; odd_member], [[(lit "expression", JStr (lit "=1+1"))]; []].
  split; [discriminate|]. split; [|split; [reflexivity|]; split; [repeat constructor; intros []|reflexivity]]. constructor; [now apply plain_known|]. constructor; [now apply odd_skipped|constructor].
Qed.
Lemma twice_given : forall names, In (lit "expression") names -> @given_twice example_ext names (lit "expression") twice_line.
Proof.
  intros names I. exists [], [plain_member], [[(lit "expression", JStr (lit "=1+1"))]], [], (json_quote (lit "expression")), [], (lit """=1+2""}"). split; [constructor|]. split; [discriminate|]. split; [constructor; [now apply plain_known|constructor]|]. split; [repeat constructor; intros []|]. split; [now left|]. split; [constructor|]. split; [apply Layout_proofs.quote_spelled|]. split; [constructor|reflexivity].
Qed.
