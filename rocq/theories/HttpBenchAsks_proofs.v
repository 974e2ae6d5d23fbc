(** The program that measures the HTTP server: proofs about the requests it sends. *)
From Coq Require Import String List ZArith NArith Bool Lia Sorting.
From Verif Require Import Base Utf8 F64 Syntax Ext Json Strings Lines Host HttpServer ServerArgs HttpBench Spec Spec_syntax Spec_text Spec_json Spec_http Spec_bench Spec_eval Spec_httpbench
  Base_proofs Utf8_proofs String_proofs Display_proofs Json_proofs HttpRead_proofs HttpAuth_proofs HttpRoutes_proofs HttpIds_proofs Multipart_proofs Query_proofs Reply_proofs Client_proofs HttpBench_proofs.
From Verif Require Import Spec_eval Spec_httpbench.
Import ListNotations.
Local Open Scope N_scope.

(** ** Texts without "{}" *)
Definition no_braces (s : str) : Prop := ~ exists a b, s = a ++ [123; 125] ++ b.
Lemma no_braces_by : forall s, contains_str (lit "{}") s = false -> no_braces s.
Proof. intros s E K. apply contains_says in K. change (contains_str (lit "{}") s = true) in K. congruence. Qed.
Lemma no_open : forall s, ~ In 123 s -> no_braces s.
Proof. intros s N1 (a & b & ->). apply N1. apply in_or_app. right. now left. Qed.
Lemma no_braces_app : forall x y, no_braces x -> no_braces y -> hd 0 y <> 125 -> no_braces (x ++ y).
Proof.
  intros x y X Y B (a & b & E). revert a E X. induction x as [|c x IH]; intros a E X; cbn [app] in E; [apply Y; exists a, b; exact E|].
  destruct a as [|d a]; cbn [app] in E.
  - injection E as -> E. destruct x as [|d x]; cbn [app] in E; [subst y; now apply B|]. injection E as -> E. apply X. exists [], x. reflexivity.
  - injection E as -> E. apply (IH a E). intros (a1 & b1 & ->). apply X. exists (d :: a1), b1. reflexivity.
Qed.
Lemma unreplaced : forall host s, no_braces s -> made_request host s = s.
Proof.
  intros host s N1. unfold made_request. assert (K : substituted (lit "{}") host s (replace_aux (lit "{}") host 0 s)) by (apply replace_substituted with (n := length s); [discriminate|lia]).
  change (replace_str (lit "{}") host s) with (replace_aux (lit "{}") host 0 s). remember (replace_aux (lit "{}") host 0 s) as t eqn:Et. clear Et. destruct K as [t N2|a b out N2 S0]; [reflexivity|]. exfalso. apply N1. exists a, b. reflexivity.
Qed.

(** ** By GET *)
Lemma hex_upper_digit : forall n, n < 16 -> hex_digit (hex_upper n) n.
Proof.
  intros n L. unfold hex_upper. destruct (N.ltb_spec n 10) as [K|K]; [now apply decimal_digit|]. replace (55 + n) with (65 + (n - 10)) by lia. replace n with (10 + (n - 10)) at 2 by lia. apply large_digit. lia.
Qed.
Lemma encoded_char : forall c bs r, c < 128 -> escaped bs r -> escaped (c :: bs) (url_encode_char c ++ r).
Proof.
  intros c bs r L E. unfold url_encode_char. destruct (((48 <=? c) && (c <=? 57)) || ((65 <=? c) && (c <=? 90)) || ((97 <=? c) && (c <=? 122)) || existsb (N.eqb c) (lit "-_.~")) eqn:K.
  - cbn [app]. assert (33 <= c <= 126 /\ c <> 37 /\ c <> 38) as (A & B & C); [|now apply escaped_kept].
    rewrite !orb_true_iff, !andb_true_iff, !N.leb_le in K. destruct K as [[[K|K]|K]|K]; [lia|lia|lia|]. cbn in K. rewrite !orb_true_iff, !N.eqb_eq in K. lia.
  - cbn [app]. rewrite N.mod_small with (a := c) (b := 256) by lia. rewrite (N.div_mod c 16) at 1 by lia. rewrite N.mul_comm. apply escaped_byte; [apply hex_upper_digit..|exact E]; [apply N.div_lt_upper_bound; lia|apply N.mod_lt; lia].
Qed.
Lemma encoded : forall e, Forall (fun c => c < 128) e -> escaped e (url_encode e).
Proof. intros e F. induction F as [|c e L F IH]; [constructor|]. cbn [url_encode flat_map]. now apply encoded_char. Qed.
Lemma hex_upper_visible : forall n, n < 16 -> 48 <= hex_upper n <= 57 \/ 65 <= hex_upper n <= 70.
Proof. intros n L. unfold hex_upper. destruct (N.ltb_spec n 10); lia. Qed.
(** nothing in it could be mistaken, whatever the text *)
Definition visible (c : N) : Prop := 33 <= c <= 126 /\ c <> 123.
Lemma encoded_visible : forall e, Forall visible (url_encode e).
Proof.
  intros e. induction e as [|c e IH]; [constructor|]. cbn [url_encode flat_map]. apply Forall_app. split; [|exact IH]. unfold url_encode_char.
  destruct (((48 <=? c) && (c <=? 57)) || ((65 <=? c) && (c <=? 90)) || ((97 <=? c) && (c <=? 122)) || existsb (N.eqb c) (lit "-_.~")) eqn:K.
  - constructor; [|constructor]. rewrite !orb_true_iff, !andb_true_iff, !N.leb_le in K. unfold visible. destruct K as [[[K|K]|K]|K]; [lia|lia|lia|]. cbn in K. rewrite !orb_true_iff, !N.eqb_eq in K. lia.
  - pose proof (hex_upper_visible (c mod 256 / 16) ltac:(apply N.div_lt_upper_bound; [lia|]; pose proof (N.mod_lt c 256); lia)). pose proof (hex_upper_visible (c mod 16) ltac:(apply N.mod_lt; lia)). unfold visible. repeat constructor; lia.
Qed.
Lemma visible_word : forall w, Forall visible w -> spaceless w /\ ~ In 123 w /\ ~ In 13 w /\ ~ In 10 w /\ valid_str w.
Proof.
  intros w F. rewrite Forall_forall in F. split; [apply Forall_forall; intros c I0; apply F in I0 as [L _]|].
  - unfold is_whitespace. repeat match goal with |- context [?a =? ?b] => replace (a =? b) with false by (symmetry; apply N.eqb_neq; lia) | |- context [?a <=? ?b] => destruct (N.leb_spec a b); try lia end; reflexivity.
  - repeat split; try (intros I0; apply F in I0 as [L Ne]; lia). apply Forall_forall. intros c I0. apply F in I0 as [L _]. unfold is_scalar. destruct (N.ltb_spec c 55296); [reflexivity|lia].
Qed.
Definition eval_lines (host e : str) : list str := [lit "GET /eval?expr=" ++ url_encode e ++ lit " HTTP/1.1"; lit "Host: " ++ host; lit "Connection: close"].
Ltac not_there := intros K; cbn in K; repeat (destruct K as [K|K]; [discriminate|]); exact K.
Lemma valid_by : forall s : str, forallb is_scalar s = true -> valid_str s.
Proof. intros s F. apply Forall_forall. apply forallb_forall. exact F. Qed.
Lemma valid_app : forall a b, valid_str a -> valid_str b -> valid_str (a ++ b).
Proof. intros a b A B. apply Forall_app. now split. Qed.
Lemma no_in_app : forall (c : N) a b, ~ In c a -> ~ In c b -> ~ In c (a ++ b).
Proof. intros c a b A B I0. apply in_app_or in I0 as [I0|I0]; auto. Qed.
Lemma eval_shape : forall host e, host_name host -> eval_text host e = request (eval_lines host e) [] /\ Forall a_line (eval_lines host e) /\ valid_str (request (eval_lines host e) []) /\ announces (eval_lines host e) 0.
Proof.
  intros host e (V & N1 & N2 & N3). destruct (visible_word _ (encoded_visible e)) as (U1 & U2 & U3 & U4 & U5). assert (E : line (lit "GET /eval?expr=" ++ url_encode e ++ lit " HTTP/1.1") ++ line (lit "Host: " ++ host) ++ line (lit "Connection: close") ++ line [] = request (eval_lines host e) []).
  { unfold line, request, eval_lines, crlf. cbn [join]. rewrite app_nil_r, <- !app_assoc. reflexivity. }
  assert (No : ~ In 123 (request (eval_lines host e) [])).
  { unfold request, eval_lines. cbn [join]. repeat apply no_in_app; try assumption; not_there. }
  split; [unfold eval_text; rewrite E; apply unreplaced; now apply no_open|]. split; [|split].
  - unfold eval_lines. repeat constructor; try discriminate; repeat apply no_in_app; try assumption; not_there.
  - unfold request, eval_lines. cbn [join]. repeat apply valid_app; try assumption; apply valid_by; reflexivity.
  - right. split; [|reflexivity]. unfold eval_lines. repeat constructor; apply not_header_by; cbn; discriminate.
Qed.
Lemma eval_first : forall host e, first_words (request (eval_lines host e) []) [lit "GET"; lit "/eval?expr=" ++ url_encode e; lit "HTTP/1.1"].
Proof.
  intros host e. destruct (visible_word _ (encoded_visible e)) as (U1 & U2 & U3 & U4 & U5). unfold first_words, request, eval_lines. cbn [join]. rewrite <- app_assoc. eexists. eexists. split.
  - apply lines_cons. repeat apply no_in_app; try assumption; intros K; cbn in K; repeat (destruct K as [K|K]; [discriminate|]); exact K.
  - change (lit "GET /eval?expr=" ++ url_encode e ++ lit " HTTP/1.1") with (lit "GET" ++ 32 :: lit "/eval?expr=" ++ url_encode e ++ 32 :: lit "HTTP/1.1"). rewrite split_word by (repeat constructor || discriminate).
    rewrite app_assoc, split_word; [reflexivity| |discriminate]. apply Forall_app. split; [repeat constructor|exact U1].
Qed.
Lemma eval_asks : forall host e, host_name host -> e <> [] -> Forall (fun c => c < 128) e -> requests (eval_text host e) (just e nothing).
Proof.
  intros host e V Ne A. destruct (eval_shape host e V) as (E & L & Va & An). exists (eval_lines host e), []. split; [exact E|]. split; [discriminate|]. split; [exact L|]. split; [exact An|]. rewrite E. split; [exact Va|].
  assert (valid_str e) as Ve by (apply Forall_forall; intros c I0; rewrite Forall_forall in A; apply A in I0; unfold is_scalar; destruct (N.ltb_spec c 55296); [reflexivity|lia]).
  apply query_wanted with [(lit "expr", e)] [lit "expr=" ++ url_encode e] (lit "HTTP/1.1") []; cbn [just t_expression t_arguments t_structured t_included].
  - cbn [join]. change (lit "/eval?" ++ lit "expr=" ++ url_encode e) with (lit "/eval?expr=" ++ url_encode e). apply eval_first.
  - constructor; [|constructor]. exists (url_encode e). split; [reflexivity|]. split; [cbn; intuition discriminate|]. split; [cbn; intuition discriminate|]. split; [exact Ve|]. cbn [snd].
    rewrite Utf8_proofs.encode_ascii; [now apply encoded|]. apply forallb_forall. intros c I0. rewrite Forall_forall in A. apply A in I0. unfold is_ascii. destruct (N.ltb_spec c 128); [reflexivity|lia].
  - exists [], (lit "expr"), []. split; [reflexivity|]. split; [now left|constructor].
  - exact Ne.
  - constructor; [now left|constructor].
  - split; [discriminate|]. intros (before & after & E1 & _). exfalso. destruct before as [|x before]; [discriminate E1|]. destruct before; discriminate E1.
  - left. split; [|reflexivity]. cbn. intuition discriminate.
Qed.

(** ** By POST *)
Lemma quoted_plain : forall s, means_itself s -> json_quote s = 34 :: s ++ [34].
Proof.
  intros s F. unfold json_quote. f_equal. f_equal. induction F as [|c s (L & N1 & N2) F IH]; [reflexivity|]. cbn [map concat]. rewrite IH. unfold json_escape_char.
  repeat match goal with |- context [?a =? ?b] => replace (a =? b) with false by (symmetry; apply N.eqb_neq; lia) end. destruct (N.ltb_spec c 32); [lia|reflexivity].
Qed.
Definition include_text (v : str) (j : json) : Prop :=
  v = lit "true" /\ j = JBool true \/ v = lit "false" /\ j = JBool false \/ v <> lit "true" /\ v <> lit "false" /\ means_itself v /\ j = JStr v.
Lemma body_printed : forall (X : Ext) e v j, means_itself e -> include_text v j -> json_body e v = json_print (JObj [(lit "expression", JStr e); (lit "include_variables", j)]).
Proof.
  intros X e v j Ue I0. unfold json_body. cbn [json_print map join]. rewrite (quoted_plain e Ue). change (json_quote (lit "expression")) with (lit """expression"""). change (json_quote (lit "include_variables")) with (lit """include_variables""").
  destruct I0 as [[-> ->]|[[-> ->]|(N1 & N2 & Uv & ->)]].
  - change (str_eqb (lit "true") (lit "true") || str_eqb (lit "true") (lit "false")) with true. cbn [json_print]. cbn. rewrite <- !app_assoc. reflexivity.
  - change (str_eqb (lit "false") (lit "true") || str_eqb (lit "false") (lit "false")) with true. cbn [json_print]. cbn. rewrite <- !app_assoc. reflexivity.
  - destruct (str_eqb v (lit "true")) eqn:E1; [apply str_eqb_eq in E1; contradiction|]. destruct (str_eqb v (lit "false")) eqn:E2; [apply str_eqb_eq in E2; contradiction|]. cbn [orb json_print]. rewrite (quoted_plain v Uv). cbn. rewrite <- !app_assoc. cbn. rewrite <- !app_assoc. reflexivity.
Qed.
Definition json_lines (host : str) (n : N) : list str := [lit "POST /eval HTTP/1.1"; lit "Host: " ++ host; lit "Content-Type: application/json"; lit "Content-Length: " ++ N_to_str n; lit "Connection: close"].
Lemma digits_absent : forall n c, c < 48 \/ 57 < c -> ~ In c (N_to_str n).
Proof.
  intros n c O0 I0. destruct (N_to_str_spec n) as [[_ D] _]. rewrite forallb_forall in D. apply D in I0. unfold is_digit in I0. apply andb_true_iff in I0 as [A B]. apply N.leb_le in A, B. lia.
Qed.
Lemma json_head : forall host n, host_name host -> Forall a_line (json_lines host n) /\ valid_str (request (json_lines host n) []) /\ ~ In 123 (request (json_lines host n) []) /\ announces (json_lines host n) n.
Proof.
  intros host n (V & N1 & N2 & N3). split; [|split; [|split]].
  - unfold json_lines. repeat constructor; try discriminate; repeat apply no_in_app; try assumption; try (apply digits_absent; lia); not_there.
  - unfold request, json_lines. cbn [join]. repeat apply valid_app; try assumption; try (apply valid_by; reflexivity). apply Forall_forall. intros c I0. destruct (N_to_str_spec n) as [[_ D] _]. rewrite forallb_forall in D. apply D in I0. unfold is_digit in I0. apply andb_true_iff in I0 as [A B]. apply N.leb_le in A, B. unfold is_scalar. destruct (N.ltb_spec c 55296); [reflexivity|lia].
  - unfold request, json_lines. cbn [join]. repeat apply no_in_app; try assumption; try (apply digits_absent; lia); not_there.
  - change (json_lines host n) with ([lit "POST /eval HTTP/1.1"; lit "Host: " ++ host; lit "Content-Type: application/json"] ++ [] ++ (lit "Content-Length: " ++ N_to_str n) :: [lit "Connection: close"]). apply announces_skip; [|apply length_value]. repeat constructor; apply not_header_by; cbn; discriminate.
Qed.
Lemma request_head : forall ls body, request ls body = request ls [] ++ body.
Proof. intros ls body. unfold request. rewrite app_nil_r, <- !app_assoc. reflexivity. Qed.
Lemma no_braces_end : forall x y, (forall a, x <> a ++ [123]) -> no_braces x -> no_braces y -> no_braces (x ++ y).
Proof.
  intros x y L X Y (a & b & E). revert a E X L. induction x as [|c x IH]; intros a E X L; cbn [app] in E; [apply Y; exists a, b; exact E|].
  destruct a as [|d a]; cbn [app] in E.
  - injection E as -> E. destruct x as [|d x]; cbn [app] in E; [now apply (L [])|]. injection E as -> E. apply X. exists [], x. reflexivity.
  - injection E as -> E. apply (IH a E); [intros (a1 & b1 & ->); apply X; exists (d :: a1), b1; reflexivity|]. intros a1 ->. now apply (L (d :: a1)).
Qed.
Lemma body_braces : forall e v, no_braces e -> no_braces v -> no_braces (json_body e v).
Proof.
  intros e v Ne Nv. unfold json_body. change (lit "{""expression"":""") with (lit "{""expression"":" ++ lit """"). rewrite <- app_assoc.
  apply no_braces_end; [intros a E; apply (f_equal (fun l => last l 0)) in E; rewrite last_last in E; discriminate E|apply no_braces_by; reflexivity|].
  apply no_braces_end; [intros a E; apply (f_equal (fun l => last l 0)) in E; rewrite last_last in E; discriminate E|apply no_braces_by; reflexivity|].
  apply no_braces_app; [exact Ne| |discriminate]. apply no_braces_end; [intros a E; apply (f_equal (fun l => last l 0)) in E; rewrite last_last in E; discriminate E|apply no_braces_by; reflexivity|].
  destruct (str_eqb v (lit "true") || str_eqb v (lit "false")) eqn:E.
  - apply orb_true_iff in E as [E|E]; apply str_eqb_eq in E as ->; apply no_braces_by; reflexivity.
  - rewrite <- !app_assoc. apply no_braces_end; [intros a E1; apply (f_equal (fun l => last l 0)) in E1; rewrite last_last in E1; discriminate E1|apply no_braces_by; reflexivity|]. apply no_braces_app; [exact Nv|apply no_braces_by; reflexivity|discriminate].
Qed.
Lemma json_shape : forall host e v, host_name host -> no_braces e -> no_braces v -> json_request host e v = request (json_lines host (byte_len (json_body e v))) (json_body e v).
Proof.
  intros host e v Vh Ne Nv. unfold json_request. set (body := json_body e v). set (n := byte_len body).
  assert (E : line (lit "POST /eval HTTP/1.1") ++ line (lit "Host: " ++ host) ++ line (lit "Content-Type: application/json") ++ line (lit "Content-Length: " ++ N_to_str n) ++ line (lit "Connection: close") ++ line [] ++ body = request (json_lines host n) body).
  { unfold line, request, json_lines, crlf. cbn [join]. rewrite <- !app_assoc. reflexivity. }
  cbv zeta. rewrite E. apply unreplaced. rewrite request_head. destruct (json_head host n Vh) as (_ & _ & N1 & _). apply no_braces_end.
  - intros a K. apply N1. rewrite K. apply in_or_app. right. now left.
  - now apply no_open.
  - now apply body_braces.
Qed.
Lemma json_asks : forall host e v i, host_name host -> valid_str e -> means_itself e -> ~ mentions "{}" e ->
  (v = lit "true" /\ i = everything \/ v = lit "false" /\ i = nothing \/ v <> lit "true" /\ v <> lit "false" /\ valid_str v /\ means_itself v /\ ~ mentions "{}" v /\ listed v i) ->
  requests (json_request host e v) (just e i).
Proof.
  intros host e v i Vh Ve Ue Ne Hv. assert (Nv : no_braces v) by (destruct Hv as [[-> _]|[[-> _]|(_ & _ & _ & _ & K & _)]]; [apply no_braces_by; reflexivity..|exact K]).
  assert (exists j, include_text v j /\ included_json (Some j) i /\ document (X := example_ext) j /\ nesting j = 0%nat) as (j & Ij & Jj & Dj & Nj).
  { destruct Hv as [[-> ->]|[[-> ->]|(N1 & N2 & Vv & Uv & _ & Li)]].
    - exists (JBool true). repeat split; [now left|right; now left|constructor].
    - exists (JBool false). repeat split; [right; now left|right; right; now left|constructor].
    - exists (JStr v). repeat split; [right; right; tauto|right; right; right; eauto|constructor]. }
  pose proof (json_shape host e v Vh Ne Nv) as E. set (body := json_body e v) in *. destruct (json_head host (byte_len body) Vh) as (A1 & A2 & A3 & A4). exists (json_lines host (byte_len body)), body. split; [exact E|]. split; [discriminate|]. split; [exact A1|]. split; [exact A4|].
  assert (Vb : valid_str body).
  { unfold body, json_body. repeat apply valid_app; try assumption; try (apply valid_by; reflexivity). destruct (str_eqb v (lit "true") || str_eqb v (lit "false")) eqn:K; [apply orb_true_iff in K as [K|K]; apply str_eqb_eq in K as ->; apply valid_by; reflexivity|].
    destruct Hv as [[-> _]|[[-> _]|(_ & _ & Vv & _)]]; [discriminate..|]. repeat apply valid_app; try assumption; apply valid_by; reflexivity. }
  rewrite E. split; [rewrite request_head; now apply valid_app|].
  apply (@body_wanted example_ext []) with (lit "HTTP/1.1") [] [] body [] [(lit "expression", JStr e); (lit "include_variables", j)] (JStr e).
  - unfold first_words, request, json_lines. cbn [join]. rewrite <- app_assoc. eexists. eexists. split; [apply lines_cons; not_there|reflexivity].
  - now left.
  - cbn [app]. rewrite app_nil_r. apply body_iff. exists (join crlf (json_lines host (byte_len body))). apply once_request; [exact A1|discriminate].
  - constructor.
  - constructor.
  - unfold body. rewrite (body_printed example_ext e v j Ue Ij). apply print_text.
  - constructor; [|repeat constructor; exact Dj]. repeat constructor.
  - clear - Nj. cbn [nesting map snd list_max fold_right]. rewrite Nj. cbn. lia.
  - reflexivity.
  - constructor.
  - left. split; [now left|reflexivity].
  - left. split; [now left|reflexivity].
  - exact Jj.
Qed.
