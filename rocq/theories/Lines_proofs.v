(** The server of JSON lines under every interleaving. *)
From Coq Require Import String List ZArith NArith Bool Lia Sorted.
From Verif Require Import Base F64 F64Text Syntax Utf8 Ext Json Registry Core Methods Api Lines Host HttpServer HttpThreads Command LineServer Spec Spec_syntax Spec_text Spec_json Spec_http Spec_command Spec_lines
  Base_proofs Utf8_proofs Text_proofs Display_proofs Debug_proofs Parse_proofs Json_proofs Object_proofs Layout_proofs HttpRead_proofs HttpAuth_proofs HttpServer_proofs HttpIds_proofs HttpCache_proofs Command_proofs.
From Verif Require Import Spec_lines.
From Verif Require Struct.
Import ListNotations.
Local Open Scope N_scope.
Local Opaque json_parse Struct.struct_parse.

(** ** Lines of bytes *)
Lemma enc1_high : forall c b, 128 <= c -> In b (enc1 c) -> 128 <= b.
Proof. intros c b L K. unfold enc1 in K. destruct (N.ltb_spec c 128); [lia|]. repeat match type of K with context [if ?x then _ else _] => destruct x end; cbn [In] in K; repeat destruct K as [<-|K]; try contradiction; lia. Qed.
Lemma encode_in : forall b l, b < 128 -> In b (encode l) -> In b l.
Proof. intros b l L K. unfold encode in K. apply in_flat_map in K as (c & I0 & K). destruct (N.ltb_spec c 128) as [Lc|Lc]; [|apply enc1_high in K; lia]. rewrite enc1_ascii in K by assumption. destruct K as [<-|[]]. assumption. Qed.
Lemma encode_end : forall l r, encode l = r ++ [13] -> exists l', l = l' ++ [13].
Proof. intros l r E. destruct l as [|c l] using rev_ind; [destruct r; discriminate|]. clear IHl. unfold encode in E. rewrite flat_map_app in E. cbn [flat_map] in E. rewrite app_nil_r in E.
  destruct (N.ltb_spec c 128) as [Lc|Lc].
  - rewrite enc1_ascii in E by assumption. apply app_inj_tail in E as [_ ->]. now exists l.
  - assert (Ne : enc1 c <> []) by (unfold enc1; repeat match goal with |- context [if ?x then _ else _] => destruct x end; discriminate). destruct (exists_last Ne) as (x & b & Eb). rewrite Eb, app_assoc in E. apply app_inj_tail in E as [_ ->].
    assert (In 13 (enc1 c)) by (rewrite Eb; apply in_or_app; right; now left). apply enc1_high in H; lia. Qed.
Lemma strip_cr_none : forall l, (forall r, l <> r ++ [13]) -> strip_cr l = l.
Proof. intros l K. unfold strip_cr, strip_suffix. destruct (rev l) as [|c r] eqn:E; [reflexivity|]. cbn [rev app strip_prefix]. destruct (N.eqb_spec 13 c) as [<-|]; [|reflexivity]. exfalso. apply (K (rev r)). rewrite <- (rev_involutive l), E. reflexivity. Qed.
Lemma split_ne : forall c s, split_char c s <> [].
Proof. intros c [|x s]; cbn; [discriminate|]. destruct (x =? c); [discriminate|]. destruct (split_char c s); discriminate. Qed.
Lemma lines_cons : forall a s, ~ In 10 a -> lines (a ++ [10] ++ s) = strip_cr a :: lines s.
Proof. intros a s K. unfold lines. cbn [app]. rewrite split_char_app by assumption. pose proof (split_ne 10 s). destruct (split_char 10 s); [congruence|reflexivity]. Qed.
Lemma lines_plain : forall l s, plain_line l -> lines (encode l ++ [10] ++ s) = encode l :: lines s.
Proof. intros l s (V & N10 & N13). rewrite lines_cons; [|intros K; apply encode_in in K; [tauto|lia]]. f_equal. apply strip_cr_none. intros r E. apply encode_end in E as [l' E]. now apply N13 in E. Qed.
Lemma lines_crlf_plain : forall l s, plain_line l -> lines (encode l ++ [13; 10] ++ s) = encode l :: lines s.
Proof. intros l s (V & N10 & N13). change ([13; 10] ++ s) with ([13] ++ [10] ++ s). rewrite app_assoc, lines_cons; [|intros K; apply in_app_or in K as [K|[K|[]]]; [apply encode_in in K; [tauto|lia]|discriminate]]. f_equal. apply strip_cr_app. Qed.
Lemma decoded_lines : forall ls bs rest, written ls bs -> decoded (lines (bs ++ rest)) = ls ++ decoded (lines rest).
Proof. intros ls bs rest W. induction W as [|l ls bs P W IH|l ls bs P W IH]; [reflexivity| |]; rewrite <- !app_assoc; [rewrite lines_plain by assumption|rewrite lines_crlf_plain by assumption]; cbn [decoded]; destruct P as (V & _); rewrite decode_encode by assumption; now rewrite IH. Qed.
Lemma complete_nil : forall rest, ~ In 10 rest -> complete_part rest = [].
Proof. intros rest K. unfold complete_part. now rewrite split_char_none. Qed.
Lemma complete_cons : forall a s, ~ In 10 a -> complete_part (a ++ [10] ++ s) = a ++ [10] ++ complete_part s.
Proof. intros a s K. unfold complete_part. cbn [app]. rewrite split_char_app by assumption. pose proof (split_ne 10 s) as Ne. destruct (split_char 10 s) as [|h t] eqn:E; [congruence|]. cbn [removelast map concat]. now rewrite <- app_assoc. Qed.
Lemma complete_written : forall ls bs rest, written ls bs -> ~ In 10 rest -> complete_part (bs ++ rest) = bs.
Proof. intros ls bs rest W K. induction W as [|l ls bs P W IH|l ls bs P W IH]; [now apply complete_nil| |]; rewrite <- !app_assoc; destruct P as (V & N10 & N13).
  - rewrite complete_cons by (intros Q; apply encode_in in Q; [tauto|lia]). now rewrite IH.
  - change ([13; 10] ++ bs ++ rest) with ([13] ++ [10] ++ bs ++ rest). rewrite app_assoc, complete_cons by (intros Q; apply in_app_or in Q as [Q|[Q|[]]]; [apply encode_in in Q; [tauto|lia]|discriminate]). rewrite IH, <- app_assoc. reflexivity. Qed.

Lemma complete_all : forall ls bs rest, written ls bs -> complete_part (bs ++ rest) = bs ++ complete_part rest.
Proof. intros ls bs rest W. induction W as [|l ls bs P W IH|l ls bs P W IH]; [reflexivity| |]; rewrite <- !app_assoc; destruct P as (V & N10 & N13).
  - rewrite complete_cons by (intros Q; apply encode_in in Q; [tauto|lia]). now rewrite IH.
  - change ([13; 10] ++ bs ++ rest) with ([13] ++ [10] ++ bs ++ rest). rewrite app_assoc, complete_cons by (intros Q; apply in_app_or in Q as [Q|[Q|[]]]; [apply encode_in in Q; [tauto|lia]|discriminate]). rewrite IH, <- app_assoc. reflexivity. Qed.
Lemma exists_last_cr : forall l : list N, (exists r, l = r ++ [13]) \/ (forall r, l <> r ++ [13]).
Proof. intros l. destruct l as [|c l _] using rev_ind; [right; intros [|] E; discriminate|]. destruct (N.eq_dec c 13) as [-> |Ne]; [left; now exists l|]. right. intros r E. apply app_inj_tail in E as [_ E]. congruence. Qed.

Section Received.
  Context {X : Ext} {H : Host}.
  Lemma received_written : forall ls bs broken, written ls bs -> received (mkConn bs broken) = ls.
  Proof. intros ls bs broken W. unfold received. cbn [cn_bytes cn_broken]. assert (C : complete_part bs = bs) by (rewrite <- (app_nil_r bs) at 1; eapply complete_written; [exact W|auto]). destruct broken; [rewrite C|]; rewrite <- (app_nil_r bs), (decoded_lines ls) by assumption; cbn; apply app_nil_r. Qed.
  Lemma received_cut : forall ls bs rest, written ls bs -> ~ In 10 rest -> received (mkConn (bs ++ rest) true) = ls.
  Proof. intros ls bs rest W K. unfold received. cbn [cn_bytes cn_broken]. rewrite (complete_written ls) by assumption. rewrite <- (app_nil_r bs), (decoded_lines ls) by assumption. cbn. apply app_nil_r. Qed.
  Lemma received_rest : forall ls bs l, written ls bs -> valid_str l -> ~ In 10 l -> l <> [] -> received (mkConn (bs ++ encode l) false) = ls ++ [l].
  Proof. intros ls bs l W V K Ne. unfold received. cbn [cn_bytes cn_broken]. rewrite (decoded_lines ls) by assumption. f_equal. unfold lines. rewrite split_char_none by (intros Q; apply encode_in in Q; [tauto|lia]). cbn [end_lines].
    pose proof (decode_encode l V) as D. destruct (encode l) eqn:E; [cbn in D; congruence|]. cbn [decoded]. now rewrite D. Qed.
  Lemma not_text : forall junk, (forall u, valid_str u -> encode u <> junk) -> decode junk = None /\ decode (strip_cr junk) = None.
  Proof.
    intros junk K. split.
    - destruct (decode junk) as [u|] eqn:D; [|reflexivity]. apply encode_decode in D as [E V]. now destruct (K u V).
    - destruct (decode (strip_cr junk)) as [u|] eqn:D; [|reflexivity]. apply encode_decode in D as [E V]. exfalso. destruct (exists_last_cr junk) as [(r & ->)|N].
      + rewrite strip_cr_app in E. apply (K (u ++ [13])); [apply Forall_app; split; [assumption|now constructor]|]. rewrite encode_app, E. reflexivity.
      + rewrite strip_cr_none in E by assumption. now apply (K u V).
  Qed.
  Lemma received_junk : forall ls bs junk rest, written ls bs -> ~ In 10 junk -> (forall u, valid_str u -> encode u <> junk) ->
    (forall broken, received (mkConn (bs ++ junk ++ [10] ++ rest) broken) = ls) /\ received (mkConn (bs ++ junk) false) = ls.
  Proof.
    intros ls bs junk rest W N K. destruct (not_text junk K) as [D D']. split.
    - assert (G : forall r, decoded (lines (bs ++ junk ++ [10] ++ r)) = ls).
      { intros r. rewrite (decoded_lines ls) by assumption. rewrite lines_cons by assumption. cbn [decoded]. rewrite D'. apply app_nil_r. }
      intros [|]; unfold received; cbn [cn_bytes cn_broken]; [|apply G]. rewrite complete_all with (ls := ls) by assumption. rewrite complete_cons by assumption. apply G.
    - unfold received. cbn [cn_bytes cn_broken]. rewrite (decoded_lines ls) by assumption. unfold lines. rewrite split_char_none by assumption. cbn [end_lines]. destruct junk as [|b junk]; [discriminate|]. cbn [decoded]. rewrite D. apply app_nil_r.
  Qed.
End Received.
Lemma all_received : forall ls bs rest, written ls bs -> ~ In 10 rest -> valid_str rest -> (forall broken, received (mkConn bs broken) = ls) /\ received (mkConn (bs ++ encode rest) true) = ls
  /\ (rest <> [] -> received (mkConn (bs ++ encode rest) false) = ls ++ [rest]).
Proof. intros ls bs rest W K V. split; [intros; now apply received_written|]. split; [apply received_cut; [assumption|]; intros Q; apply encode_in in Q; [tauto|lia]|]. intros Ne. now apply received_rest. Qed.

(** ** One line *)
Section Line.
  Context {X : Ext} {H : Host}.
  Lemma field_iff : forall A (f : json -> option A) mk j, (forall j a, f j = Some a <-> j = mk a) -> (forall a, mk a <> JNull) ->
    forall x, json_optional f j = Some x <-> field j mk x.
  Proof. intros A f mk j F Nn x. unfold json_optional, field. destruct j as [j|]; [|destruct x; split; intros K; auto; try discriminate; try (injection K as K; discriminate)].
    assert (D : j = JNull \/ j <> JNull) by (destruct j; auto; right; discriminate). destruct D as [->|D].
    - destruct x as [a|]; split; intros K; auto; try discriminate. injection K as K. exfalso. now apply (Nn a).
    - assert (E : match j with JNull => Some None | _ => option_map Some (f j) end = option_map Some (f j)) by (destruct j; congruence).
      transitivity (option_map Some (f j) = Some x); [destruct j; try (cbn in *; tauto); congruence|]. destruct x as [a|].
      + split; [destruct (f j) eqn:Fj; cbn; [|discriminate]; intros K; injection K as ->; f_equal; now apply F|]. intros K. injection K as ->. assert (Fj : f (mk a) = Some a) by now apply F. now rewrite Fj.
      + split; [destruct (f j); discriminate|]. intros [K|K]; [discriminate|]. injection K as K. congruence. Qed.
  Lemma object_iff : forall j kvs, json_object j = Some kvs <-> j = JObj kvs.
  Proof. intros j kvs. destruct j; cbn; split; congruence. Qed.
  Lemma bool_iff : forall j b, json_bool j = Some b <-> j = JBool b.
  Proof. intros j b. destruct j; cbn; split; congruence. Qed.
  Lemma text_iff : forall j s, HttpServer.json_text j = Some s <-> j = JStr s.
  Proof. intros j s. destruct j; cbn; split; congruence. Qed.
  Lemma fields_iff : forall e v o t r, line_fields e v o t = Some r <-> fields e v o t r.
  Proof. intros e v o t r. unfold line_fields, fields. destruct e as [e|]; [|split; [discriminate|intros [K _]; discriminate]].
    destruct e as [| | |e| |]; try (split; [discriminate|intros [K _]; discriminate]).
    rewrite <- (field_iff _ json_object JObj v object_iff), <- (field_iff _ json_bool JBool o bool_iff), <- (field_iff _ HttpServer.json_text JStr t text_iff) by discriminate.
    split.
    - destruct (json_optional json_object v); [|discriminate]. destruct (json_optional json_bool o); [|discriminate]. destruct (json_optional HttpServer.json_text t); [|discriminate]. intros K. injection K as <-. auto.
    - intros (E & -> & -> & ->). injection E as ->. now destruct r. Qed.
  Lemma asks_iff : forall j r, line_request_of j = Some r <-> asks_for j r.
  Proof. intros j r. split.
    - destruct j as [| | | |xs|kvs]; cbn [line_request_of]; try discriminate.
      + destruct xs as [|e [|v [|o [|t [|? ?]]]]]; try discriminate. intros K. apply as_array. now apply fields_iff.
      + intros K. apply as_object. now apply fields_iff.
    - intros [kvs r' F|e v o t r' F]; cbn [line_request_of]; now apply fields_iff. Qed.
  Lemma requested_iff : forall line r, match Struct.struct_parse Struct.line_names line with Some j => line_request_of j | None => None end = Some r <-> requested line r.
  Proof. intros line r. unfold requested. split.
    - destruct (Struct.struct_parse Struct.line_names line) as [j|]; [|discriminate]. intros K. exists j. split; [reflexivity|]. now apply asks_iff.
    - intros (j & -> & A). now apply asks_iff. Qed.
  Lemma mget_map : forall A B (f : A -> B) (kvs : list (str * A)) name, mget name (map (fun kv => (fst kv, f (snd kv))) kvs) = option_map f (mget name kvs).
  Proof. intros A B f kvs name. induction kvs as [|[k v] kvs IH]; [reflexivity|]. cbn. destruct (str_eqb name k); [reflexivity|exact IH]. Qed.
  Lemma env_made : forall r, request_env r (line_vars (l_variables r)).
  Proof. intros r name v. unfold line_vars. destruct (l_variables r) as [kvs|].
    - rewrite mget_map. split.
      + destruct (mget name kvs) as [j|] eqn:E; [|discriminate]. intros K. injection K as <-. exists kvs, j. repeat split; auto. now apply stands_iff.
      + intros (kvs' & j & K & E & St). injection K as <-. rewrite E. cbn. f_equal. now apply stands_iff.
    - cbn. split; [discriminate|intros (? & ? & K & _); discriminate]. Qed.
  Lemma env_same : forall r m1 m2, request_env r m1 -> request_env r m2 -> same_vars m1 m2.
  Proof. intros r m1 m2 E1 E2 k. destruct (mget k m1) as [v|] eqn:A.
    - symmetry. apply E2. now apply E1.
    - destruct (mget k m2) as [v|] eqn:B; [|reflexivity]. apply E2 in B. apply E1 in B. congruence. Qed.
  Lemma result_gives : forall reg r, Spec_http.gives reg (l_expression r) (line_vars (l_variables r)) (line_result reg r).
  Proof. intros reg r. unfold line_result, Spec_http.gives. destruct (statements (l_expression r)) eqn:S1; [left|right]; (split; [|reflexivity]); [now apply statements_bool|]. intros K. apply statements_bool in K. congruence. Qed.
  Lemma gives_unique : forall reg s m r1 r2, Spec_http.gives reg s m r1 -> Spec_http.gives reg s m r2 -> r1 = r2.
  Proof. intros reg s m r1 r2 [[A ->]|[A ->]] [[B ->]|[B ->]]; auto; contradiction. Qed.
  Lemma simple_made : forall v, simple_result v (line_value v).
  Proof. assert (El : forall v, simple_element v (line_element v)). { intros v. pose proof (element_is v) as K. destruct v as [n|xs|b|s| |n|t|s]; try (apply other_element; [discriminate|exact K]). apply date_element. }
    intros v. destruct v as [n|xs|b|s| |n|t|s].
    2: { apply (many_results xs (map line_element xs)). induction xs; constructor; auto. }
    all: apply one_result; [discriminate|]; apply El. Qed.
  Lemma wanted_made : forall r v ms, wanted r v (if match l_output_json r with Some b => b | None => false end then typed_output v ms else line_value v).
  Proof. intros r v ms. unfold wanted. destruct (match l_output_json r with Some b => b | None => false end); [apply output_described|apply simple_made]. Qed.
  Lemma answer_made : forall s r e ms id, line_answer s r e ms id = json_print (answer_json s (match r with Some j => j | None => JNull end) (opt_text e) (json_of_f64 ms) id).
  Proof. reflexivity. Qed.
  Lemma let_in_iff : forall t r, str_eqb (match l_token r with Some s => s | None => [] end) t = true <-> let_in (Some t) r.
  Proof. intros t r. rewrite str_eqb_eq. cbn. destruct (l_token r) as [s|]; split.
    - intros ->. now left.
    - intros [K|[_ K]]; congruence.
    - intros <-. now right.
    - intros [K|[-> _]]; [discriminate|reflexivity]. Qed.
  Definition timely (reg : registry) (token : option str) (id : N) (line a : str) : Prop := exists success result error ms, (ms = f_zero \/ ms = h_ms id) /\
    let d := answer_json success result error (json_of_f64 ms) id in answers reg token id line d /\ a = json_print d.
  Lemma process_cases : forall reg token id line r, requested line r -> let_in token r -> match process_request reg r id with
    | Ok a => timely reg token id line a
    | Err _ => False
    | Panic p => crashes reg token line
    end.
  Proof. intros reg token id line r Rq L. unfold process_request. pose proof (result_gives reg r) as G. pose proof (env_made r) as E. destruct (line_result reg r) as [v|e|p].
    - rewrite answer_made. do 4 eexists. split; [right; reflexivity|]. split; [|reflexivity]. eapply evaluated_to; eauto. apply wanted_made.
    - rewrite answer_made. do 4 eexists. split; [right; reflexivity|]. split; [|reflexivity]. eapply evaluation_failed; eauto.
    - exists r, (line_vars (l_variables r)), p. auto. Qed.
  Lemma line_timely : forall reg token id line, match answer_line reg token id line with
    | Ok a => timely reg token id line a
    | Err _ => False
    | Panic p => crashes reg token line
    end.
  Proof. intros reg token id line. unfold answer_line. destruct (match Struct.struct_parse Struct.line_names line with Some j => line_request_of j | None => None end) as [r|] eqn:E.
    - apply requested_iff in E. destruct token as [t|]; [|apply process_cases; [assumption|exact I]]. destruct (str_eqb _ t) eqn:T.
      + apply let_in_iff in T. now apply process_cases.
      + rewrite answer_made. do 4 eexists. split; [left; reflexivity|]. split; [|reflexivity]. eapply not_let_in; [exact E|]. intros K. apply let_in_iff in K. congruence.
    - rewrite answer_made. do 4 eexists. split; [left; reflexivity|]. split; [|reflexivity]. apply not_understood. intros r K. apply requested_iff in K. congruence. Qed.
  Lemma line_cases : forall reg token id line, match answer_line reg token id line with
    | Ok a => exists d, answers reg token id line d /\ a = json_print d
    | Err _ => False
    | Panic p => crashes reg token line
    end.
  Proof. intros reg token id line. pose proof (line_timely reg token id line) as K. destruct (answer_line reg token id line); auto. destruct K as (s & r & e & ms & _ & K). eauto. Qed.
  Lemma crash_line : forall reg token id line a, crashes reg token line -> answer_line reg token id line = Ok a -> False.
  Proof. intros reg token id line a (r & vars & p & Rq & L & Ev & G) E. unfold answer_line in E. apply requested_iff in Rq as Rq'. rewrite Rq' in E.
    assert (K : process_request reg r id = Ok a). { destruct token as [t|]; [|assumption]. rewrite (proj2 (let_in_iff t r) L) in E. exact E. }
    unfold process_request in K. pose proof (result_gives reg r) as G'. pose proof (gives_same reg _ _ _ _ (env_same r _ _ Ev (env_made r)) G) as G2. rewrite (gives_unique _ _ _ _ _ G' G2) in K. discriminate. Qed.
End Line.

(** ** Runs *)
Section Runs.
  Context {X : Ext} {H : Host} (reg : registry) (token : option str).
  Definition answered (id : N) (line a : str) : Prop := exists d, answers reg token id line d /\ a = json_print d.
  Definition timing (id : N) (a : str) (k : line_prog) : line_prog :=
    LAct (fun w => (mkLines (lw_counter w) (lw_processed w) (u64_wrap (lw_micros w + u64_wrap (h_micros id))), LSend a k)).
  Definition counting (id : N) (a : str) (k : line_prog) : line_prog :=
    LAct (fun w => (mkLines (lw_counter w) (u64_wrap (lw_processed w + 1)) (lw_micros w), timing id a k)).
  Definition begun (l : str) (k : line_prog) : line_prog :=
    LAct (fun w => (mkLines (u64_wrap (lw_counter w + 1)) (lw_processed w) (lw_micros w),
      match answer_line reg token (lw_counter w) l with Ok a => counting (lw_counter w) a k | _ => LDone end)).
  Lemma blank_iff : forall l, trim l = [] <-> forallb is_whitespace l = true.
  Proof. intros l. rewrite trim_white. unfold white. rewrite forallb_forall, Forall_forall. tauto. Qed.
  Lemma serve_cases : forall ls, (asked ls = [] /\ serve_lines reg token ls = LDone) \/
    exists l rest, asked ls = l :: asked rest /\ serve_lines reg token ls = begun l (serve_lines reg token rest).
  Proof. induction ls as [|l ls IH]; [now left|]. cbn [asked filter serve_lines]. fold (asked ls). destruct (forallb is_whitespace l) eqn:B.
    - apply blank_iff in B. rewrite B. exact IH.
    - right. exists l, ls. split; [reflexivity|]. destruct (trim l) eqn:T; [apply blank_iff in T; congruence|]. reflexivity. Qed.

  (** what is known of a connection: the numbers its requests took *)
  Inductive phase (evs : list line_event) (i : nat) (qs : list str) (sent : list str) (ids : list N) : line_prog -> Prop :=
  | ready : forall rest, length ids = length sent -> qs = firstn (length sent) qs ++ asked rest -> (length sent <= length qs)%nat -> phase evs i qs sent ids (serve_lines reg token rest)
  | busy : forall before id l a rest p, ids = before ++ [id] -> length before = length sent -> qs = firstn (length sent) qs ++ l :: asked rest -> (length sent <= length qs)%nat -> answered id l a ->
      let k := serve_lines reg token rest in p = counting id a k \/ p = timing id a k \/ p = LSend a k -> phase evs i qs sent ids p
  | crashed : forall l, length ids = S (length sent) -> In l qs -> crashes reg token l -> phase evs i qs sent ids LDone
  | hung_up : length ids = S (length sent) -> In (HangUp i) evs -> phase evs i qs sent ids LDone.
  Definition past (qs sent : list str) (ids : list N) : Prop := forall k a, nth_error sent k = Some a -> exists id l, nth_error ids k = Some id /\ nth_error qs k = Some l /\ answered id l a.
  Definition job_ok (evs : list line_event) (i : nat) (j : line_job) (ids : list N) : Prop :=
    past (asked (received (lj_conn j))) (lj_sent j) ids /\ StronglySorted N.lt ids /\ phase evs i (asked (received (lj_conn j))) (lj_sent j) ids (lj_prog j).
  Definition fresh (counter : N) (gs : list (list N)) : Prop :=
    (forall i ids id, nth_error gs i = Some ids -> In id ids -> id < counter) /\
    (forall i j ids ids' id, nth_error gs i = Some ids -> nth_error gs j = Some ids' -> In id ids -> In id ids' -> i = j).
  Definition inv (evs : list line_event) (s : line_server) : Prop := exists gs, length gs = length (ls_jobs s) /\
    (forall i j ids, nth_error (ls_jobs s) i = Some j -> nth_error gs i = Some ids -> job_ok evs i j ids) /\
    fresh (lw_counter (ls_world s)) gs /\ lw_counter (ls_world s) <= N.of_nat (length evs).

  Lemma job_more : forall evs e i j ids, job_ok evs i j ids -> job_ok (evs ++ [e]) i j ids.
  Proof. intros evs e i j ids (P & St & Ph). split; [assumption|]. split; [assumption|]. destruct Ph; [now apply ready|eapply busy; eauto|eapply crashed; eauto|]. apply hung_up; [assumption|]. apply in_or_app. now left. Qed.
  Lemma inv_more : forall evs e s, inv evs s -> inv (evs ++ [e]) s.
  Proof. intros evs e s (gs & L & J & F & B). exists gs. split; [assumption|]. split; [intros; now apply job_more, J|]. split; [assumption|]. rewrite app_length. cbn [length]. lia. Qed.
  Lemma inv_put : forall evs s w gs i j j' ids ids', length gs = length (ls_jobs s) ->
    (forall i j ids, nth_error (ls_jobs s) i = Some j -> nth_error gs i = Some ids -> job_ok evs i j ids) ->
    nth_error (ls_jobs s) i = Some j -> nth_error gs i = Some ids -> job_ok evs i j' ids' -> fresh (lw_counter w) (replace i ids' gs) -> lw_counter w <= N.of_nat (length evs) ->
    inv evs (mkLServer w (replace i j' (ls_jobs s))).
  Proof. intros evs s w gs i j j' ids ids' L J Ej Eg J' F B. exists (replace i ids' gs). cbn [ls_jobs ls_world]. rewrite !replace_length. split; [assumption|]. split; [|split; assumption].
    intros k x y Ex Ey. rewrite nth_replace in Ex; rewrite nth_replace in Ey. destruct (Nat.eqb_spec i k) as [<-|Nk]; [|now apply J]. rewrite Ej in Ex. rewrite Eg in Ey. injection Ex as <-. injection Ey as <-. exact J'. Qed.
  Lemma fresh_same : forall c gs i ids, fresh c gs -> nth_error gs i = Some ids -> fresh c (replace i ids gs).
  Proof. intros c gs i ids F E. assert (R : forall k, nth_error (replace i ids gs) k = nth_error gs k). { intros k. rewrite nth_replace. destruct (Nat.eqb_spec i k) as [<-|]; [now rewrite E|reflexivity]. }
    split; intros *; rewrite ?R; apply F. Qed.
  Lemma fresh_next : forall c gs i ids, fresh c gs -> nth_error gs i = Some ids -> fresh (c + 1) (replace i (ids ++ [c]) gs).
  Proof. intros c gs i ids (F1 & F2) E. split.
    - intros k x id Ex K. rewrite nth_replace in Ex. destruct (Nat.eqb_spec i k) as [<-|Nk]; [|specialize (F1 _ _ _ Ex K); lia]. rewrite E in Ex. injection Ex as <-. apply in_app_or in K as [K|[<-|[]]]; [specialize (F1 _ _ _ E K)|]; lia.
    - intros k k' x x' id Ex Ex' K K'. rewrite nth_replace in Ex; rewrite nth_replace in Ex'. destruct (Nat.eqb_spec i k) as [<-|Nk], (Nat.eqb_spec i k') as [<-|Nk']; auto.
      + rewrite E in Ex. injection Ex as <-. apply in_app_or in K as [K|[<-|[]]]; [now apply (F2 _ _ _ _ _ E Ex' K)|]. specialize (F1 _ _ _ Ex' K'). lia.
      + rewrite E in Ex'. injection Ex' as <-. apply in_app_or in K' as [K'|[<-|[]]]; [symmetry; now apply (F2 _ _ _ _ _ E Ex K')|]. specialize (F1 _ _ _ Ex K). lia.
      + now apply (F2 _ _ _ _ id Ex Ex'). Qed.
  Lemma sorted_snoc : forall ids c, StronglySorted N.lt ids -> (forall id, In id ids -> id < c) -> StronglySorted N.lt (ids ++ [c]).
  Proof. induction ids as [|x ids IH]; intros c St K; cbn; [repeat constructor|]. inversion St as [|? ? S1 S2]; subst. constructor; [apply IH; [assumption|]; intros; apply K; now right|]. apply Forall_app. split; [assumption|]. constructor; [|constructor]. apply K. now left. Qed.
  Lemma past_more : forall qs sent ids c, past qs sent ids -> past qs sent (ids ++ [c]).
  Proof. intros qs sent ids c P k a E. destruct (P k a E) as (id & l & E1 & E2 & A). exists id, l. repeat split; auto. rewrite nth_error_app1; [assumption|]. apply nth_error_Some. congruence. Qed.
  Lemma firstn_next : forall A (qs : list A) n l r, qs = firstn n qs ++ l :: r -> (n <= length qs)%nat -> qs = firstn (S n) qs ++ r /\ nth_error qs n = Some l /\ (S n <= length qs)%nat.
  Proof. intros A qs n l r E L. assert (Ln : length (firstn n qs) = n) by now rewrite firstn_length_le. assert (En : nth_error qs n = Some l) by (rewrite E, nth_error_app2, Ln, Nat.sub_diag by lia; reflexivity).
    assert (Lq : (n < length qs)%nat) by (apply nth_error_Some; congruence). split; [|split; [assumption|lia]].
    assert (F : firstn (S n) qs = firstn n qs ++ [l]). { rewrite E at 1. rewrite firstn_app, Ln, firstn_all2 by lia. now replace (S n - n)%nat with 1%nat by lia. }
    rewrite F, <- app_assoc. exact E. Qed.

  Theorem run_inv : forall evs, numbers_left evs -> inv evs (line_run reg token evs).
  Proof. induction evs as [|e evs IH] using rev_ind; intros Nl.
    - exists []. split; [reflexivity|]. split; [intros [|?]; discriminate|]. split; [|cbn; lia]. split; intros [|?]; discriminate.
    - assert (Nl' : numbers_left evs) by (unfold numbers_left in *; rewrite app_length in Nl; lia). specialize (IH Nl'). unfold line_run in *. rewrite fold_left_app. cbn [fold_left]. set (s := fold_left (line_step reg token) evs (mkLServer line_start [])) in *.
      assert (Stay : inv (evs ++ [e]) s) by now apply inv_more.
      assert (Wr : lw_counter (ls_world s) + 1 < 2 ^ 64). { destruct IH as (_ & _ & _ & _ & B). unfold numbers_left in Nl. rewrite app_length in Nl. cbn [length] in Nl. lia. }
      assert (B1 : lw_counter (ls_world s) + 1 <= N.of_nat (length (evs ++ [e]))). { destruct IH as (_ & _ & _ & _ & B). rewrite app_length. cbn [length]. lia. }
      destruct Stay as (gs & L & J & F & B). destruct e as [c|i|i]; cbn [line_step].
      + exists (gs ++ [[]]). cbn [ls_jobs ls_world]. split; [rewrite !app_length; cbn; lia|]. split; [|split; [|assumption]].
        * intros k j ids Ej Eg. destruct (Nat.lt_ge_cases k (length gs)) as [Lk|Lk].
          -- rewrite nth_error_app1 in Ej, Eg by lia. now apply J.
          -- rewrite nth_error_app2 in Ej, Eg by lia. rewrite L in Eg. destruct (k - length (ls_jobs s))%nat as [|[|n]]; try discriminate. cbn in Ej, Eg. injection Ej as <-. injection Eg as <-. split; [intros [|?] ? ?; discriminate|]. split; [constructor|]. apply ready; cbn; auto; lia.
        * assert (Nth : forall k ids, nth_error (gs ++ [[]]) k = Some ids -> ids = [] \/ nth_error gs k = Some ids). { intros k ids E. destruct (Nat.lt_ge_cases k (length gs)); [rewrite nth_error_app1 in E by lia; now right|]. rewrite nth_error_app2 in E by lia. destruct (k - length gs)%nat as [|[|n]]; try discriminate. injection E as <-. now left. }
          split; intros *; intros E; apply Nth in E as [->|E]; try (cbn; tauto); [intros; now eapply F; eauto|]. intros E'; apply Nth in E' as [->|E']; [cbn; tauto|]. intros. now eapply F; eauto.
      + destruct (nth_error (ls_jobs s) i) as [[c sent p]|] eqn:Ej; [|exists gs; auto].
        destruct (nth_error gs i) as [ids|] eqn:Eg; [|apply nth_error_None in Eg; assert (i < length (ls_jobs s))%nat by (apply nth_error_Some; congruence); lia].
        pose proof (J _ _ _ Ej Eg) as (P & St & Ph). cbn [lj_conn lj_sent lj_prog] in *.
        remember (asked (received c)) as qs eqn:Eq. destruct Ph as [rest Li Eqs Lq|before id l a rest p Ei Li Eqs Lq A k Ps|l Li Il Cr|Li Ih].
        * destruct (serve_cases rest) as [[E ->]|(l & rest' & E & ->)]; [exists gs; auto|]. cbn [begun]. unfold begun.
          rewrite E in Eqs. destruct (firstn_next _ _ _ _ _ Eqs Lq) as (E1 & E2 & E3).
          assert (Wc : u64_wrap (lw_counter (ls_world s) + 1) = lw_counter (ls_world s) + 1). { unfold u64_wrap. apply N.mod_small. exact Wr. }
          eapply (inv_put _ _ _ gs i _ _ ids (ids ++ [lw_counter (ls_world s)])); eauto; cbn [lw_counter]; rewrite ?Wc; [|apply fresh_next; assumption|assumption].
          split; [|split]; cbn [lj_conn lj_sent lj_prog]; rewrite <- ?Eq; [now apply past_more|apply sorted_snoc; [assumption|intros; now eapply F; eauto]|].
          pose proof (line_cases reg token (lw_counter (ls_world s)) l) as K. destruct (answer_line reg token (lw_counter (ls_world s)) l) as [a|er|pn]; [|contradiction|].
          -- eapply busy; eauto; exact Li.
          -- apply (crashed _ _ _ _ _ l); [rewrite app_length; cbn; lia| |assumption]. eapply nth_error_In; eauto.
        * destruct Ps as [-> |[-> | ->]]; cbn [counting timing].
          -- unfold counting. eapply (inv_put _ _ _ gs i _ _ ids ids); eauto; cbn [lw_counter]; [|apply fresh_same; assumption]. split; [|split]; cbn [lj_conn lj_sent lj_prog]; rewrite <- ?Eq; auto. eapply busy; eauto.
          -- unfold timing. eapply (inv_put _ _ _ gs i _ _ ids ids); eauto; cbn [lw_counter]; [|apply fresh_same; assumption]. split; [|split]; cbn [lj_conn lj_sent lj_prog]; rewrite <- ?Eq; auto. eapply busy; eauto.
          -- destruct (firstn_next _ _ _ _ _ Eqs Lq) as (E1 & E2 & E3). eapply (inv_put _ _ _ gs i _ _ ids ids); eauto; cbn [lw_counter]; [|apply fresh_same; assumption]. split; [|split]; cbn [lj_conn lj_sent lj_prog]; rewrite <- ?Eq; auto.
             ++ intros m b Em. destruct (Nat.lt_ge_cases m (length sent)) as [Lm|Lm]; [rewrite nth_error_app1 in Em by lia; now apply P|]. rewrite nth_error_app2 in Em by lia. destruct (m - length sent)%nat as [|[|?]] eqn:Dm; try discriminate. injection Em as <-. assert (m = length sent) as -> by lia. exists id, l. split; [|auto]. rewrite Ei, <- Li, nth_error_app2, Nat.sub_diag by lia. reflexivity.
             ++ apply ready; rewrite ?app_length; cbn [length]; [rewrite Ei, app_length; cbn; lia| |lia]. replace (length sent + 1)%nat with (S (length sent)) by lia. exact E1.
        * exists gs. auto.
        * exists gs. auto.
      + destruct (nth_error (ls_jobs s) i) as [[c sent p]|] eqn:Ej; [|exists gs; auto].
        destruct p as [|f|a k]; try (exists gs; auto; fail).
        destruct (nth_error gs i) as [ids|] eqn:Eg; [|apply nth_error_None in Eg; assert (i < length (ls_jobs s))%nat by (apply nth_error_Some; congruence); lia].
        pose proof (J _ _ _ Ej Eg) as (P & St & Ph). cbn [lj_conn lj_sent lj_prog] in *.
        eapply (inv_put _ _ _ gs i _ _ ids ids); eauto; [|apply fresh_same; assumption]. split; [|split]; cbn [lj_conn lj_sent lj_prog]; auto. apply hung_up; [|apply in_or_app; right; now left].
        remember (asked (received c)) as qs eqn:Eq. remember (LSend a k) as p eqn:Ep. destruct Ph as [rest Li Eqs Lq|before id l a' rest p Ei Li Eqs Lq A k' Ps|l Li Il Cr|Li Ih]; try discriminate.
        * destruct (serve_cases rest) as [[E E']|(l & rest' & E & E')]; rewrite E' in Ep; discriminate.
        * rewrite Ei, app_length. cbn. lia. Qed.
End Runs.

(** ** JSON is written on one line *)
Section OneLine.
  Context {X : Ext}.
  Definition visible (s : str) : Prop := Forall (fun c => 32 <= c) s.
  Lemma visible_app : forall a b, visible a -> visible b -> visible (a ++ b).
  Proof. intros a b A B. apply Forall_app. now split. Qed.
  Lemma visible_digits : forall s, forallb is_digit s = true -> visible s.
  Proof. intros s K. rewrite forallb_forall in K. apply Forall_forall. intros c I0. specialize (K c I0). unfold is_digit in K. apply andb_true_iff in K as [K _]. apply N.leb_le in K. lia. Qed.
  Lemma visible_N : forall n, visible (N_to_str n).
  Proof. intros n. apply visible_digits. destruct (N_to_str_spec n) as [[_ D] _]. exact D. Qed.
  Lemma visible_Z : forall z, visible (Z_to_str z).
  Proof. intros [|p|p]; cbn [Z_to_str]; [repeat constructor; lia|apply visible_N|]. constructor; [lia|]. apply visible_N. Qed.
  Lemma visible_zeros : forall n, visible (zeros n).
  Proof. intros n. induction n; cbn; constructor; [lia|assumption]. Qed.
  Lemma visible_float : forall f, visible (json_float f).
  Proof. assert (Sg : forall s t, visible t -> visible (with_sign s t)) by (intros [|] t V; cbn; [constructor; [lia|assumption]|assumption]).
    intros [z|z| |s m e]; cbn [json_float]; try (apply Sg); try (repeat constructor; cbn; lia). destruct (digits_of m e) as [ds k] eqn:D. apply Sg.
    assert (Dd : visible ds). { unfold digits_of in D. destruct (shortest m e) as [d x]. injection D as <- _. apply visible_digits, forallb_strip. apply N_to_str_spec. }
    destruct ((-4 <=? k)%Z && (k <=? 16)%Z).
    - destruct (place_point ds k) as [ip fp] eqn:P. assert (V : visible ip /\ visible fp). { unfold place_point in P. destruct (k <=? 0)%Z; [|destruct (_ <=? k)%Z]; injection P as <- <-; split; try apply visible_app; try apply visible_zeros; try assumption; try (repeat constructor; lia); try constructor.
        - apply (Forall_app (fun c => 32 <= c) (firstn (Z.to_nat k) ds) (skipn (Z.to_nat k) ds)). now rewrite firstn_skipn.
        - apply (Forall_app (fun c => 32 <= c) (firstn (Z.to_nat k) ds) (skipn (Z.to_nat k) ds)). now rewrite firstn_skipn. }
      destruct V as [Vi Vf]. apply visible_app; [assumption|]. constructor; [lia|]. destruct fp; [repeat constructor; lia|assumption].
    - unfold sci. apply visible_app; [destruct ds as [|d [|d' r]]; [repeat constructor; lia|assumption|]; inversion Dd; subst; constructor; [assumption|]; constructor; [lia|assumption]|].
      constructor; [lia|]. destruct (x_json_exp_plus && _); [constructor; [lia|]|]; apply visible_Z. Qed.
  Lemma visible_quote : forall s, visible (json_quote s).
  Proof. intros s. unfold json_quote. constructor; [lia|]. apply visible_app; [|repeat constructor; lia]. induction s as [|c s IH]; [constructor|]. cbn [map concat]. apply visible_app; [|exact IH].
    unfold json_escape_char. repeat match goal with |- context [if ?x then _ else _] => destruct x eqn:? end; try (repeat constructor; lia).
    - assert (Hx : forall d, 32 <= hex_digit d) by (intros d; unfold hex_digit; destruct (d <? 10); lia). repeat (constructor; [try lia; apply Hx|]). constructor.
    - match goal with E : (c <? 32) = false |- _ => apply N.ltb_ge in E end. repeat constructor; assumption. Qed.
  Lemma visible_join : forall l, Forall visible l -> visible (join [44] l).
  Proof. intros l F. induction F as [|x l Vx F IH]; [constructor|]. destruct l as [|y l]; [exact Vx|]. change (visible (x ++ [44] ++ join [44] (y :: l))). apply visible_app; [assumption|]. apply visible_app; [repeat constructor; lia|exact IH]. Qed.
  Lemma visible_print : forall j, visible (json_print j).
  Proof. intros j. induction j as [| | n| s| xs IH|kvs IH] using json_ind'; cbn [json_print].
    - unfold visible. cbn. repeat constructor; lia.
    - destruct b; unfold visible; cbn; repeat constructor; lia.
    - destruct n; cbn [json_num]; [apply visible_N|apply visible_Z|apply visible_float].
    - apply visible_quote.
    - constructor; [lia|]. apply visible_app; [|repeat constructor; lia]. apply visible_join. apply Forall_forall. intros t I0. apply in_map_iff in I0 as (j & <- & I0). rewrite Forall_forall in IH. now apply IH.
    - constructor; [lia|]. apply visible_app; [|repeat constructor; lia]. apply visible_join. apply Forall_forall. intros t I0. apply in_map_iff in I0 as ([k j] & <- & I0). apply visible_app; [apply visible_quote|]. constructor; [lia|]. rewrite Forall_forall in IH. now apply (IH _ I0). Qed.
  Lemma one_line : forall j, ~ In 10 (json_print j).
  Proof. intros j K. pose proof (visible_print j) as V. unfold visible in V. rewrite Forall_forall in V. specialize (V 10 K). lia. Qed.
End OneLine.

Section Served.
  Context {X : Ext} {H : Host} (reg : registry) (token : option str).
  Local Notation run := (line_run reg token).
  Lemma answer_ends : forall s r e t id, ends_with_id id (json_print (answer_json s r e t id)).
  Proof. intros s r e t id. unfold answer_json. cbn [json_print]. destruct (N_to_str_spec id) as (D & V & _).
    match goal with |- context [map ?f _] => set (pr := f) end. set (front := [(lit "success", JBool s); (lit "result", r); (lit "error", e); (lit "execution_time_ms", t)]).
    change (ends_with_id id (123 :: join [44] (map pr (front ++ [(lit "request_id", JNum (JPos id))])) ++ [125])). rewrite map_app. cbn [map]. rewrite join_snoc by (unfold front; cbn; discriminate).
    exists (123 :: join [44] (map pr front) ++ [44]), (N_to_str id). split; [|now split]. rewrite <- !app_assoc. cbn [app]. rewrite <- !app_assoc. reflexivity. Qed.
  Lemma answers_end : forall id line d, answers reg token id line d -> ends_with_id id (json_print d).
  Proof. intros id line d A. destruct A; apply answer_ends. Qed.
  Lemma got_ids : forall evs, numbers_left evs -> exists gs, fresh (lw_counter (ls_world (run evs))) gs /\ lw_counter (ls_world (run evs)) <= N.of_nat (length evs) /\ forall i k a, got (run evs) i k a ->
    exists ids id l d c sent p, nth_error gs i = Some ids /\ StronglySorted N.lt ids /\ connected (run evs) i c sent p /\ nth_error ids k = Some id /\ nth_error (asked (received c)) k = Some l /\ answers reg token id l d /\ a = json_print d.
  Proof. intros evs Nl. destruct (run_inv reg token evs Nl) as (gs & L & J & F & B). exists gs. split; [exact F|]. split; [exact B|]. intros i k a (c & sent & p & C & E).
    destruct (nth_error gs i) as [ids|] eqn:Eg; [|apply nth_error_None in Eg; unfold connected in C; assert (i < length (ls_jobs (run evs)))%nat by (apply nth_error_Some; congruence); lia].
    destruct (J _ _ _ C Eg) as (P & St & _). destruct (P k a E) as (id & l & E1 & E2 & d & A & Ea). exists ids, id, l, d, c, sent, p. auto 10. Qed.
  Lemma lines_answered : forall evs i c sent p k a, numbers_left evs -> connected (run evs) i c sent p -> nth_error sent k = Some a ->
    exists id l d, nth_error (asked (received c)) k = Some l /\ answers reg token id l d /\ a = json_print d.
  Proof. intros evs i c sent p k a Nl C E. destruct (got_ids evs Nl) as (gs & _ & _ & G). destruct (G i k a) as (ids & id & l & d & c' & sent' & p' & _ & _ & C' & _ & El & A & Ea); [now exists c, sent, p|]. unfold connected in *. rewrite C in C'. injection C' as <- <- <-. now exists id, l, d. Qed.
  Lemma sorted_nth : forall l i j a b, StronglySorted N.lt l -> nth_error l i = Some a -> nth_error l j = Some b -> (i < j)%nat -> a < b.
  Proof. induction l as [|x l IH]; intros i j a b St Ei Ej L; [destruct i; discriminate|]. inversion St as [|? ? S1 S2]; subst. destruct j as [|j]; [lia|]. destruct i as [|i]; cbn in *.
    - injection Ei as <-. rewrite Forall_forall in S2. apply S2. eapply nth_error_In; eauto.
    - apply (IH i j); auto. lia. Qed.
  Lemma numbers_distinct : forall evs i k a j m b n, numbers_left evs -> got (run evs) i k a -> got (run evs) j m b -> ends_with_id n a -> ends_with_id n b -> i = j /\ k = m.
  Proof. intros evs i k a j m b n Nl Ga Gb Na Nb. destruct (got_ids evs Nl) as (gs & (F1 & F2) & _ & G). destruct (G _ _ _ Ga) as (ids & id & l & d & c & sent & p & Eg & St & C & Ei & El & A & ->). destruct (G _ _ _ Gb) as (ids' & id' & l' & d' & c' & sent' & p' & Eg' & St' & C' & Ei' & El' & A' & ->).
    apply answers_end in A, A'. assert (id = n) as -> by (eapply ends_unique; eauto). assert (id' = n) as -> by (eapply ends_unique; eauto).
    assert (i = j) as <- by (eapply F2; eauto using nth_error_In). split; [reflexivity|]. rewrite Eg in Eg'. injection Eg' as <-. destruct (Nat.lt_trichotomy k m) as [K|[K|K]]; [|assumption|]; [pose proof (sorted_nth _ _ _ _ _ St Ei Ei' K)|pose proof (sorted_nth _ _ _ _ _ St Ei' Ei K)]; lia. Qed.
  Lemma numbers_increase : forall evs i k a m b n n', numbers_left evs -> got (run evs) i k a -> got (run evs) i m b -> ends_with_id n a -> ends_with_id n' b -> (k < m)%nat -> n < n'.
  Proof. intros evs i k a m b n n' Nl Ga Gb Na Nb K. destruct (got_ids evs Nl) as (gs & (F1 & F2) & _ & G). destruct (G _ _ _ Ga) as (ids & id & l & d & c & sent & p & Eg & St & C & Ei & El & A & ->). destruct (G _ _ _ Gb) as (ids' & id' & l' & d' & c' & sent' & p' & Eg' & St' & C' & Ei' & El' & A' & ->).
    apply answers_end in A, A'. assert (id = n) as -> by (eapply ends_unique; eauto). assert (id' = n') as -> by (eapply ends_unique; eauto). rewrite Eg in Eg'. injection Eg' as <-. eapply sorted_nth; eauto. Qed.
  Lemma every_line : forall evs i c sent, numbers_left evs -> connected (run evs) i c sent LDone -> no_hang_up i evs -> (forall l, In l (asked (received c)) -> ~ crashes reg token l) -> length sent = length (asked (received c)).
  Proof. intros evs i c sent Nl C Nh Nc. destruct (run_inv reg token evs Nl) as (gs & L & J & _). destruct (nth_error gs i) as [ids|] eqn:Eg; [|apply nth_error_None in Eg; unfold connected in C; assert (i < length (ls_jobs (run evs)))%nat by (apply nth_error_Some; congruence); lia].
    destruct (J _ _ _ C Eg) as (_ & _ & Ph). cbn [lj_conn lj_sent lj_prog] in Ph. remember (asked (received c)) as qs. remember LDone as p eqn:Ep. destruct Ph as [rest Li Eqs Lq|before id l a' rest p Ei Li Eqs Lq A k' Ps|l Li Il Cr|Li Ih].
    - destruct (serve_cases reg token rest) as [[E E']|(l & rest' & E & E')]; [|rewrite E' in Ep; discriminate]. rewrite E, app_nil_r in Eqs. rewrite Eqs, firstn_length_le; auto.
    - subst p. destruct Ps as [K|[K|K]]; discriminate.
    - exfalso. eapply Nc; eauto.
    - contradiction. Qed.

  (** *** A connection is served to the end *)
  Inductive within : nat -> line_prog -> Prop :=
  | within_done : forall n, within n LDone
  | within_act : forall n f, (forall w, within n (snd (f w))) -> within (S n) (LAct f)
  | within_send : forall n a k, within n k -> within (S n) (LSend a k).
  Lemma within_more : forall n p, within n p -> forall m, (n <= m)%nat -> within m p.
  Proof. intros n p W. induction W as [?|? f W IH|? a k W IH]; intros m L; [constructor| |]; destruct m as [|m]; try lia; constructor; intros; apply IH; lia. Qed.
  Lemma serve_within : forall ls, within (4 * length (asked ls)) (serve_lines reg token ls).
  Proof. intros ls. remember (length (asked ls)) as n eqn:En. revert ls En. induction n as [|n IH]; intros ls En; destruct (serve_cases reg token ls) as [[E ->]|(l & rest & E & ->)]; rewrite E in En; cbn in En; try discriminate; [constructor|].
    injection En as En. replace (4 * S n)%nat with (S (S (S (S (4 * n))))) by lia. constructor. intros w. cbn [snd]. destruct (answer_line reg token (lw_counter w) l); [|constructor|constructor]. repeat (constructor; intros; cbn [snd]). now apply IH. Qed.
  Lemma step_job : forall s ev i c sent p, nth_error (ls_jobs s) i = Some (mkLJob c sent p) -> exists sent' p', nth_error (ls_jobs (line_step reg token s ev)) i = Some (mkLJob c sent' p') /\
    forall n, within n p -> within n p' /\ (ev = Step i -> within (pred n) p').
  Proof. intros s ev i c sent p E. assert (Keep : exists sent' p', nth_error (ls_jobs s) i = Some (mkLJob c sent' p') /\ forall n, within n p -> within n p') by (exists sent, p; auto).
    destruct ev as [c'|j|j]; cbn [line_step].
    - exists sent, p. cbn [ls_jobs]. rewrite nth_error_app1 by (apply nth_error_Some; congruence). split; [assumption|]. intros n W. split; [assumption|discriminate].
    - destruct (nth_error (ls_jobs s) j) as [[c' sent' p']|] eqn:Ej; [|exists sent, p; split; [assumption|]; intros n W; split; [assumption|]; intros K; injection K as ->; congruence].
      destruct (Nat.eq_dec j i) as [->|Nj].
      + rewrite E in Ej. injection Ej as <- <- <-. destruct p as [|f|a k].
        * exists sent, LDone. split; [assumption|]. intros n W. split; [assumption|]. intros _. constructor.
        * destruct (f (ls_world s)) as [w q] eqn:Ef. exists sent, q. cbn [ls_jobs]. rewrite nth_replace, Nat.eqb_refl, E. split; [reflexivity|]. intros n W. inversion W as [|m ? Wf|]; subst. specialize (Wf (ls_world s)). rewrite Ef in Wf. cbn in *. split; [|auto]. apply (within_more m); auto.
        * exists (sent ++ [a]), k. cbn [ls_jobs]. rewrite nth_replace, Nat.eqb_refl, E. split; [reflexivity|]. intros n W. inversion W; subst. cbn. split; [|auto]. eapply within_more; eauto.
      + exists sent, p. assert (O : forall w x, nth_error (ls_jobs (mkLServer w (replace j x (ls_jobs s)))) i = Some (mkLJob c sent p)). { intros w x. cbn [ls_jobs]. rewrite nth_replace. destruct (Nat.eqb_spec j i); [contradiction|assumption]. }
        split; [destruct p' as [|f|a k]; [assumption|destruct (f (ls_world s)); apply O|apply O]|]. intros n W. split; [assumption|]. intros K. injection K as ->. contradiction.
    - destruct (nth_error (ls_jobs s) j) as [[c' sent' p']|] eqn:Ej; [|exists sent, p; split; [assumption|]; intros n W; split; [assumption|discriminate]].
      destruct p' as [|f|a k]; try (exists sent, p; split; [assumption|]; intros n W; split; [assumption|discriminate]).
      destruct (Nat.eq_dec j i) as [->|Nj].
      + exists sent', LDone. cbn [ls_jobs]. rewrite nth_replace, Nat.eqb_refl, Ej. rewrite E in Ej. injection Ej as <- <- _. split; [reflexivity|]. intros n W. split; [constructor|discriminate].
      + exists sent, p. cbn [ls_jobs]. rewrite nth_replace. destruct (Nat.eqb_spec j i); [contradiction|]. split; [assumption|]. intros m W. split; [assumption|discriminate]. Qed.
  Lemma steps_job : forall evs s i c sent p n, nth_error (ls_jobs s) i = Some (mkLJob c sent p) -> within n p ->
    exists sent' p', nth_error (ls_jobs (fold_left (line_step reg token) evs s)) i = Some (mkLJob c sent' p') /\ within (n - steps_of i evs) p'.
  Proof. intros evs. induction evs as [|e evs IH]; intros s i c sent p n E W.
    - exists sent, p. cbn. rewrite Nat.sub_0_r. auto.
    - cbn [fold_left]. destruct (step_job s e i c sent p E) as (sent' & p' & E' & K). destruct (K n W) as [W1 W2]. unfold steps_of. cbn [filter]. destruct e as [c'|j|j]; try (fold (steps_of i evs); eapply IH; eauto; fail). destruct (Nat.eqb_spec j i) as [->|Nj].
      + cbn [length]. fold (steps_of i evs). destruct (IH _ i c sent' p' (pred n) E' (W2 eq_refl)) as (s2 & p2 & E2 & W3). exists s2, p2. split; [assumption|]. replace (n - S (steps_of i evs))%nat with (pred n - steps_of i evs)%nat by lia. assumption.
      + fold (steps_of i evs). eapply IH; eauto. Qed.
  Lemma all_within : forall evs i c sent p, connected (run evs) i c sent p -> within (4 * length (asked (received c))) p.
  Proof. unfold connected, line_run. intros evs. induction evs as [|e evs IH] using rev_ind; intros i c sent p C; [destruct i; discriminate|].
    rewrite fold_left_app in C. cbn [fold_left] in C. set (s := fold_left (line_step reg token) evs (mkLServer line_start [])) in *.
    destruct (nth_error (ls_jobs s) i) as [[c0 sent0 p0]|] eqn:E.
    - destruct (step_job s e i c0 sent0 p0 E) as (s2 & p2 & E2 & K). rewrite C in E2. injection E2 as <- <- <-. apply K. eapply IH; eauto.
    - apply nth_error_None in E. assert (Li : (i < length (ls_jobs (line_step reg token s e)))%nat) by (apply nth_error_Some; congruence). destruct e as [c'|j|j]; cbn [line_step] in *.
      + cbn [ls_jobs] in *. rewrite nth_error_app2 in C by assumption. destruct (i - length (ls_jobs s))%nat as [|[|?]]; try discriminate. injection C as <- _ <-. apply serve_within.
      + exfalso. destruct (nth_error (ls_jobs s) j) as [[c' sent' [|f|a k]]|]; try lia; [destruct (f (ls_world s))|]; cbn [ls_jobs] in Li; rewrite replace_length in Li; lia.
      + exfalso. destruct (nth_error (ls_jobs s) j) as [[c' sent' [|f|a k]]|]; try lia. cbn [ls_jobs] in Li. rewrite replace_length in Li. lia. Qed.
  Lemma served : forall evs more i c sent p, connected (run evs) i c sent p -> (4 * length (asked (received c)) <= steps_of i more)%nat -> exists sent', connected (run (evs ++ more)) i c sent' LDone.
  Proof. intros evs more i c sent p C L. pose proof (all_within evs i c sent p C) as W. unfold connected, line_run in *. rewrite fold_left_app. destruct (steps_job more _ i c sent p _ C W) as (s2 & p2 & E & W2). replace (_ - steps_of i more)%nat with 0%nat in W2 by lia. inversion W2; subst. now exists s2. Qed.
  Lemma requested_unique : forall line r r', requested line r -> requested line r' -> r = r'.
  Proof. intros line r r' A B. apply requested_iff in A, B. rewrite A in B. now injection B. Qed.
  Lemma answered_or_crashed : forall id line d, answers reg token id line d -> crashes reg token line -> False.
  Proof. intros id line d A (r & vars & p & Rq & Li & Ev & G). destruct A as [why time Nr|r' time Rq' Nl|r' vars' v j time Rq' Li' Ev' G' W|r' vars' e time Rq' Li' Ev' G'].
    - now apply (Nr r).
    - rewrite (requested_unique _ _ _ Rq' Rq) in Nl. contradiction.
    - rewrite (requested_unique _ _ _ Rq' Rq) in *. pose proof (gives_same reg _ _ _ _ (env_same r _ _ Ev Ev') G) as G2. pose proof (gives_unique _ _ _ _ _ G' G2). discriminate.
    - rewrite (requested_unique _ _ _ Rq' Rq) in *. pose proof (gives_same reg _ _ _ _ (env_same r _ _ Ev Ev') G) as G2. pose proof (gives_unique _ _ _ _ _ G' G2). discriminate. Qed.
  Lemma crash_silences : forall evs i c sent p k l, numbers_left evs -> connected (run evs) i c sent p -> nth_error (asked (received c)) k = Some l -> crashes reg token l -> (length sent <= k)%nat.
  Proof. intros evs i c sent p k l Nl C E Cr. destruct (Nat.le_gt_cases (length sent) k) as [L|L]; [assumption|]. apply nth_error_Some in L. destruct (nth_error sent k) as [a|] eqn:Ea; [|congruence].
    destruct (lines_answered evs i c sent p k a Nl C Ea) as (id & l' & d & El & A & _). rewrite E in El. injection El as <-. exfalso. eapply answered_or_crashed; eauto. Qed.
  Lemma no_newline : forall evs i k a, numbers_left evs -> got (run evs) i k a -> ~ In 10 a.
  Proof. intros evs i k a Nl G. destruct (got_ids evs Nl) as (gs & _ & _ & K). destruct (K _ _ _ G) as (ids & id & l & d & c & sent & p & _ & _ & _ & _ & _ & _ & ->). apply one_line. Qed.
  Lemma kept_out : forall evs i c sent p k l r t a, numbers_left evs -> connected (run evs) i c sent p -> token = Some t -> t <> [] -> nth_error (asked (received c)) k = Some l -> requested l r -> l_token r <> Some t ->
    nth_error sent k = Some a -> exists time id, a = json_print (answer_json false JNull (JStr (lit "Unauthorized: invalid token")) time id).
  Proof. intros evs i c sent p k l r t a Nl C Et Ne El Rq Nt Ea. destruct (lines_answered evs i c sent p k a Nl C Ea) as (id & l' & d & El' & A & ->). rewrite El in El'. injection El' as <-.
    assert (Nle : ~ let_in token r) by (rewrite Et; cbn; intros [K|[K _]]; contradiction). destruct A as [why time Nr|r' time Rq' Nl'|r' vars' v j time Rq' Li' Ev' G' W|r' vars' e time Rq' Li' Ev' G'].
    - exfalso. now apply (Nr r).
    - now exists time, id.
    - rewrite (requested_unique _ _ _ Rq' Rq) in *. contradiction.
    - rewrite (requested_unique _ _ _ Rq' Rq) in *. contradiction. Qed.
End Served.
Lemma junk_example : written [lit "a"] [97; 13; 10] /\ ~ In 10 [98; 255] /\ (forall u, valid_str u -> encode u <> [98; 255]).
Proof.
  split; [|split].
  - change [97; 13; 10] with (encode (lit "a") ++ [13; 10] ++ []). constructor; [|constructor]. split; [repeat constructor|]. split; [intros [K|[]]; discriminate|]. intros [|x [|]] E; discriminate.
  - intros [K|[K|[]]]; discriminate.
  - intros u V E. pose proof (decode_encode u V) as D. rewrite E in D. vm_compute in D. discriminate.
Qed.
