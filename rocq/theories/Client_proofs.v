(** The client of the server of JSON lines. *)
From Coq Require Import String List ZArith NArith Bool Lia Sorted Permutation.
From Verif Require Import Base F64 F64Text Syntax Utf8 Ext Json Registry Core Methods Api Lines Host HttpServer HttpThreads Pretty Command LineServer Client Spec Spec_syntax Spec_text Spec_json Spec_http Spec_command Spec_lines Spec_client
  Base_proofs Utf8_proofs Text_proofs Display_proofs Parse_proofs Json_proofs Object_proofs Layout_proofs Pretty_proofs HttpRead_proofs HttpAuth_proofs HttpServer_proofs HttpIds_proofs HttpCache_proofs Command_proofs Lines_proofs.
From Verif Require Import Spec_json Spec_lines Spec_client.
From Verif Require Struct StructRead_proofs.
Import ListNotations.
Local Open Scope N_scope.
Local Opaque json_parse Struct.struct_parse.

Section Client.
  Context {X : Ext} {H : Host}.
  (** ** Printed JSON, the members in any order *)
  Lemma member_text : forall kvs ms ts, Permutation ms kvs -> Forall2 (fun (m : str * json) t => exists s, t = json_quote (fst m) ++ 58 :: s /\ json_text (snd m) s) ms ts ->
    json_text (JObj kvs) (123 :: join [44] ts ++ [125]).
  Proof. intros kvs ms ts P F. destruct kvs as [|kv kvs].
    - apply Permutation_sym, Permutation_nil in P. subst. inversion F; subst. apply (no_members_text []). constructor.
    - apply (object_text (kv :: kvs) ms ts); [discriminate|assumption|]. clear P. induction F as [|m t ms ts (s & -> & T) _ IHF]; constructor; [|exact IHF]. exists [], (json_quote (fst m)), [], [], s, []. split; [cbn [app]; now rewrite app_nil_r|]. split; [apply quote_spelled|]. do 4 (split; [constructor|]). exact T. Qed.
  Lemma print_text : forall j, json_text j (json_print j).
  Proof. intros j. induction j as [| | n| s| xs IH|kvs IH] using json_ind'; try (apply atom_text; cbn; tauto).
    - cbn [json_print]. destruct xs as [|x xs]; [apply (no_elements_text []); constructor|]. apply (array_text (x :: xs) (map json_print (x :: xs))); [discriminate|]. revert IH. generalize (x :: xs). intros l IH. induction IH as [|y l K _ IHl]; constructor; [|exact IHl]. exists [], (json_print y), []. rewrite app_nil_r. split; [reflexivity|]. split; [constructor|]. split; [constructor|]. exact K.
    - cbn [json_print]. apply (member_text kvs kvs); [apply Permutation_refl|]. induction IH as [|[k y] l K _ IHl]; constructor; [|exact IHl]. exists (json_print y). split; [reflexivity|exact K]. Qed.
  Lemma print_any_order : forall kvs ms, Permutation ms kvs -> json_text (JObj kvs) (json_print (JObj ms)).
  Proof. intros kvs ms P. cbn [json_print]. apply (member_text kvs ms); [assumption|]. clear P. induction ms as [|[k y] l IHl]; constructor; [|exact IHl]. exists (json_print y). split; [reflexivity|apply print_text]. Qed.

  (** ** The request *)
  Lemma sorted_members : forall vs : list (str * json), NoDup (map fst vs) -> exists kvs, Permutation vs kvs /\ in_key_order (map fst kvs).
  Proof. intros vs D. exists (inserted vs []). destruct (inserted_perm vs []) as [P O]; [now rewrite app_nil_r|constructor|]. split; [|assumption]. rewrite app_nil_r in P. now apply Permutation_sym. Qed.
  Definition vars_doc (vs : option (list (str * json))) : json := match vs with Some kvs => JObj kvs | None => JNull end.
  Lemma line_read : forall r kvs, orders -> match l_variables r with Some vs => exists ks, kvs = Some ks /\ Permutation vs ks | None => kvs = None end -> carried kvs ->
    requested (request_line r) (mkLine (l_expression r) kvs (l_output_json r) (l_token r)).
  Proof. intros r kvs O V C. set (vj := vars_doc kvs). set (oj := match l_output_json r with Some b => JBool b | None => JNull end). set (tj := opt_text (l_token r)).
    set (doc := [(lit "expression", JStr (l_expression r)); (lit "output_json", oj); (lit "token", tj); (lit "variables", vj)]).
    assert (Dv : document vj /\ (nesting vj <= 126)%nat). { unfold vj, vars_doc. destruct kvs as [ks|]; [now apply C|]. split; [constructor|cbn; lia]. }
    assert (Tv : json_text vj (json_print (match l_variables r with Some vs => JObj (h_order 0 vs) | None => JNull end))).
    { unfold vj. destruct (l_variables r) as [vs|]; [destruct V as (ks & -> & P)|subst kvs; apply print_text]. cbn [vars_doc]. apply print_any_order. eapply Permutation_trans; [|exact P]. apply Permutation_sym, O. }
    assert (Do : document oj) by (unfold oj; destruct (l_output_json r); constructor). assert (Dt : document tj) by (unfold tj, opt_text; destruct (l_token r); constructor).
    assert (No : nesting oj = 0%nat) by (unfold oj; destruct (l_output_json r); reflexivity). assert (Nt : nesting tj = 0%nat) by (unfold tj, opt_text; destruct (l_token r); reflexivity).
    assert (P : exists ms, Struct.struct_parse Struct.line_names (request_line r) = Some (JObj ms) /\ forall k, In k Struct.line_names -> mget k ms = mget k doc).
    { rewrite <- (app_nil_r (request_line r)). apply (StructRead_proofs.struct_fields Struct.line_names doc (request_line r) [] []); [| | |constructor|constructor].
      - apply object_document; [unfold in_key_order; cbn; repeat constructor|]. repeat constructor; cbn [snd]; try assumption; tauto.
      - unfold doc. cbn [nesting map snd list_max fold_right]. rewrite No, Nt. lia.
      - unfold request_line, doc. cbn [json_print map]. apply (member_text _ [(lit "expression", JStr (l_expression r)); (lit "variables", vj); (lit "output_json", oj); (lit "token", tj)]).
        + apply perm_skip. apply Permutation_sym. apply (Permutation_trans (l' := [(lit "output_json", oj); (lit "variables", vj); (lit "token", tj)])); [apply perm_skip, perm_swap|apply perm_swap].
        + repeat constructor; cbn [fst snd]; (eexists; split; [reflexivity|]); [apply (print_text (JStr _))|exact Tv|apply print_text|apply print_text]. }
    destruct P as (ms & P & M). exists (JObj ms). split; [exact P|]. apply as_object. rewrite !M by (cbn; tauto). cbn [doc mget]. unfold fields. cbn [l_expression l_variables l_output_json l_token].
    split; [reflexivity|]. split; [|split].
    - destruct kvs as [ks|]; cbn; auto.
    - unfold oj. destruct (l_output_json r); cbn; auto.
    - unfold tj, opt_text. destruct (l_token r); cbn; auto. Qed.

  (** ** Values *)
  Definition is_word (s : str) : Prop := In s [lit "true"; lit "false"; lit "null"].
  Lemma word_same : forall s, is_word s -> exists w, In w ["true"; "false"; "null"]%string /\ s = lit w /\ same_word s (lit w).
  Proof. intros s [<-|[<-|[<-|[]]]]; eexists; (split; [|split; reflexivity]); cbn; auto. Qed.
  Lemma around_false : forall s, is_word s \/ (exists x, float_text s x) -> quoted_by 34 s || quoted_by 39 s = false /\ starts_with [91] s && ends_with [93] s = false.
  Proof. intros s [K|[x K]]; [apply word_same in K as (w & I0 & _ & E); eapply not_word_quoted; eauto|eapply not_number_around; eauto]. Qed.
  Lemma word_eqb : forall s, ~ is_word s -> str_eqb s (lit "true") = false /\ str_eqb s (lit "false") = false /\ str_eqb s (lit "null") = false.
  Proof. intros s K. repeat split; apply not_true_iff_false; intros E; apply str_eqb_eq in E; apply K; subst; cbn; auto. Qed.
  Lemma float_not_word : forall s x, float_text s x -> ~ is_word s.
  Proof. intros s x F K. apply word_same in K as (w & I0 & _ & E). eapply not_number_word; eauto. Qed.
  Lemma bracket_not_word : forall s inner, in_brackets s inner -> ~ is_word s.
  Proof. intros s inner -> [K|[K|[K|[]]]]; discriminate. Qed.
  Lemma bracket_not_quoted : forall s inner, in_brackets s inner -> quoted_by 34 s || quoted_by 39 s = false.
  Proof. intros s inner ->. apply not_true_iff_false. intros K. apply quote_iff in K. destruct K as [[K|K]|[i [K|K]]]; discriminate. Qed.
  Lemma json_value_iff : forall s j, parse_value_to_json s = Ok j <-> argument_json s j.
  Proof. intros s j. split.
    - unfold parse_value_to_json. destruct (quoted_by 34 s || quoted_by 39 s) eqn:Q.
      + apply quote_iff in Q as [[-> | ->]|[i Q]]; try discriminate. pose proof (quotes_inner s i Q) as E. destruct s as [|c [|d s]]; try discriminate. assert (R : removelast (tl (c :: d :: s)) = i) by congruence. intros K. assert (Kj : j = JStr (removelast (tl (c :: d :: s)))) by congruence. rewrite Kj, R. now apply quoted_json.
      + destruct (str_eqb s (lit "true")) eqn:E1; [apply str_eqb_eq in E1; intros K; injection K as <-; subst; constructor|]. destruct (str_eqb s (lit "false")) eqn:E2; [apply str_eqb_eq in E2; intros K; injection K as <-; subst; constructor|]. destruct (str_eqb s (lit "null")) eqn:E3; [apply str_eqb_eq in E3; intros K; injection K as <-; subst; constructor|].
        destruct (starts_with [91] s && ends_with [93] s) eqn:B.
        * apply bracket_iff in B as [i B]. destruct (json_parse s) as [j'|] eqn:P; intros K; injection K as <-; [eapply array_json; eauto|eapply bad_array_json; eauto].
        * destruct (f_from_str s) as [x|] eqn:F.
          -- apply float_text_iff in F. unfold jnum_of_f64. destruct (is_finite x) eqn:Fx; intros K; injection K as <-; [now apply number_json|eapply infinite_json; eauto].
          -- intros K. injection K as <-. apply text_json.
             ++ intros K. assert (Q' : quoted_by 34 s || quoted_by 39 s = true) by (apply quote_iff; now left). congruence.
             ++ intros i K. assert (Q' : quoted_by 34 s || quoted_by 39 s = true) by (apply quote_iff; right; now exists i). congruence.
             ++ intros [K|[K|[K|[]]]]; subst s; discriminate.
             ++ intros i K. assert (B' : starts_with [91] s && ends_with [93] s = true) by (apply bracket_iff; now exists i). congruence.
             ++ intros x K. apply float_text_iff in K. congruence.
    - intros A. unfold parse_value_to_json. destruct A as [s inner Q| | | |s inner j B P|s inner B P|s x F Fx|s x F Fx|s A1 A2 A3 A4 A5]; try reflexivity.
      + assert (Q' : quoted_by 34 s || quoted_by 39 s = true) by (apply quote_iff; right; now exists inner). rewrite Q'. pose proof (quotes_inner s inner Q) as E. destruct s as [|c [|d s]]; try discriminate. assert (R : removelast (tl (c :: d :: s)) = inner) by congruence. now rewrite R.
      + rewrite (bracket_not_quoted s inner B). destruct (word_eqb s (bracket_not_word s inner B)) as (-> & -> & ->). rewrite (proj2 (bracket_iff s)) by now exists inner. now rewrite P.
      + rewrite (bracket_not_quoted s inner B). destruct (word_eqb s (bracket_not_word s inner B)) as (-> & -> & ->). rewrite (proj2 (bracket_iff s)) by now exists inner. now rewrite P.
      + destruct (around_false s) as [-> ->]; [right; now exists x|]. destruct (word_eqb s (float_not_word s x F)) as (-> & -> & ->). apply float_text_iff in F. rewrite F. unfold jnum_of_f64. now rewrite Fx.
      + destruct (around_false s) as [-> ->]; [right; now exists x|]. destruct (word_eqb s (float_not_word s x F)) as (-> & -> & ->). apply float_text_iff in F. rewrite F. unfold jnum_of_f64. now rewrite Fx.
      + assert (Q : quoted_by 34 s || quoted_by 39 s = false). { apply not_true_iff_false. intros K. apply quote_iff in K as [K|[i K]]; [contradiction|now apply (A2 i)]. } rewrite Q.
        destruct (word_eqb s A3) as (-> & -> & ->). assert (B : starts_with [91] s && ends_with [93] s = false). { apply not_true_iff_false. intros K. apply bracket_iff in K as [i K]. now apply (A4 i). } rewrite B.
        destruct (f_from_str s) as [x|] eqn:F; [|reflexivity]. apply float_text_iff in F. now apply A5 in F. Qed.

  (** ** Options *)
  Fixpoint client_taken (ps : list client_part) (o : client_options) (js : list json) : client_options :=
    match ps with
    | [] => o
    | SendJson t :: r => client_taken r (mkCOptions (Some t) (c_output o) (c_token o) (c_variables o)) js
    | WantJson :: r => client_taken r (mkCOptions (c_json o) true (c_token o) (c_variables o)) js
    | SendToken t :: r => client_taken r (mkCOptions (c_json o) (c_output o) (Some t) (c_variables o)) js
    | Send n _ :: r => match js with j :: js => client_taken r (mkCOptions (c_json o) (c_output o) (c_token o) (minsert n j (c_variables o))) js | [] => o end
    end.
  Lemma send_word : forall name text w, ~ In 61 (lit w) -> str_eqb (name ++ lit "=" ++ text) (lit w) = false.
  Proof. intros name text w K. apply not_true_iff_false. intros E. apply str_eqb_eq in E. apply K. rewrite <- E. apply in_or_app. right. now left. Qed.
  Lemma client_read : forall ps o js, Forall client_proper ps -> Forall2 (fun b j => argument_json (snd b) j) (sent_bindings ps) js -> read_client_options (concat (map client_words ps)) o = Ok (client_taken ps o js).
  Proof. induction ps as [|p ps IH]; intros o js F V; [reflexivity|]. inversion F; subst. destruct p as [t| |t|n t]; cbn [map concat client_words app].
    - cbn [read_client_options]. rewrite str_eqb_refl. cbn [client_taken]. now apply IH.
    - cbn [read_client_options client_taken]. change (str_eqb (lit "--output-json") (lit "--json")) with false. rewrite str_eqb_refl. now apply IH.
    - cbn [read_client_options client_taken]. change (str_eqb (lit "--token") (lit "--json")) with false. change (str_eqb (lit "--token") (lit "--output-json")) with false. rewrite str_eqb_refl. now apply IH.
    - cbn [sent_bindings flat_map app] in V. inversion V as [|? v ? vs' V1 V2]; subst. cbn [read_client_options client_taken]. rewrite !send_word by (cbn; intuition discriminate). cbn [snd] in V1.
      rewrite (proj2 (split_61 _ n t)) by (split; [assumption|reflexivity]). apply json_value_iff in V1. rewrite V1. cbn [bind]. now apply IH. Qed.
  Lemma ctaken_json : forall ps o js, length js = length (sent_bindings ps) -> c_json (client_taken ps o js) = fold_left (fun j p => match p with SendJson text => Some text | _ => j end) ps (c_json o).
  Proof. induction ps as [|[t| |t|n t] ps IH]; intros o js L; cbn [client_taken fold_left]; [reflexivity|now rewrite IH|now rewrite IH|now rewrite IH|]. destruct js as [|v js]; [discriminate|]. injection L as L. now rewrite IH. Qed.
  Lemma ctaken_token : forall ps o js, length js = length (sent_bindings ps) -> c_token (client_taken ps o js) = fold_left (fun j p => match p with SendToken t => Some t | _ => j end) ps (c_token o).
  Proof. induction ps as [|[t| |t|n t] ps IH]; intros o js L; cbn [client_taken fold_left]; [reflexivity|now rewrite IH|now rewrite IH|now rewrite IH|]. destruct js as [|v js]; [discriminate|]. injection L as L. now rewrite IH. Qed.
  Lemma ctaken_output : forall ps o js, length js = length (sent_bindings ps) -> (c_output (client_taken ps o js) = true <-> c_output o = true \/ In WantJson ps).
  Proof. induction ps as [|[t| |t|n t] ps IH]; intros o js L; cbn [client_taken In].
    - tauto.
    - rewrite IH by assumption. cbn. intuition discriminate.
    - rewrite IH by assumption. cbn. intuition.
    - rewrite IH by assumption. cbn. intuition discriminate.
    - destruct js as [|v js]; [discriminate|]. injection L as L. rewrite IH by assumption. cbn. intuition discriminate. Qed.
  Lemma ctaken_vars : forall ps o js, length js = length (sent_bindings ps) -> c_variables (client_taken ps o js) = fold_left (fun m nv => minsert (fst nv) (snd nv) m) (combine (map fst (sent_bindings ps)) js) (c_variables o).
  Proof. induction ps as [|[t| |t|n t] ps IH]; intros o js L; cbn [client_taken sent_bindings flat_map app map combine fold_left]; [reflexivity|exact (IH (mkCOptions (Some t) (c_output o) (c_token o) (c_variables o)) js L)|exact (IH (mkCOptions (c_json o) true (c_token o) (c_variables o)) js L)|exact (IH (mkCOptions (c_json o) (c_output o) (Some t) (c_variables o)) js L)|]. destruct js as [|v js]; [discriminate|]. injection L as L. rewrite IH by assumption. reflexivity. Qed.
  Lemma mremove_keys : forall V (m : list (str * V)) k x, In x (map fst (mremove k m)) -> x <> k /\ In x (map fst m).
  Proof. intros V m k x. induction m as [|[k' v'] m IH]; cbn; [tauto|]. destruct (str_eqb k k') eqn:E; cbn; [intros K; apply IH in K; tauto|]. intros [<-|K]; [|apply IH in K; tauto]. split; [|now left]. intros ->. now rewrite str_eqb_refl in E. Qed.
  Lemma minsert_keys : forall V (m : list (str * V)) k v, NoDup (map fst m) -> NoDup (map fst (minsert k v m)).
  Proof. intros V m k v D. unfold minsert. cbn [map fst]. constructor; [intros K; now apply mremove_keys in K as [K _]|].
    induction m as [|[k' v'] m IH]; cbn in *; [constructor|]. inversion D as [|? ? N1 D1]; subst. destruct (str_eqb k k'); cbn; [now apply IH|]. constructor; [|now apply IH]. intros K. apply N1. now apply mremove_keys in K. Qed.
  Lemma fold_keys : forall V (l : list (str * V)) m, NoDup (map fst m) -> NoDup (map fst (fold_left (fun m nv => minsert (fst nv) (snd nv) m) l m)).
  Proof. intros V l. induction l as [|x l IH]; intros m D; [assumption|]. cbn [fold_left]. apply IH. now apply minsert_keys. Qed.
  Lemma json_unique : forall s j j', argument_json s j -> argument_json s j' -> j = j'.
  Proof. intros s j j' A B. apply json_value_iff in A, B. congruence. Qed.
  Lemma perm_mget : forall V (a b : list (str * V)) k, NoDup (map fst a) -> Permutation a b -> mget k a = mget k b.
  Proof. intros V a b k D P. assert (Db : NoDup (map fst b)) by (eapply Permutation_NoDup; [apply Permutation_map; exact P|assumption]).
    assert (G : forall (l : list (str * V)) v, NoDup (map fst l) -> (mget k l = Some v <-> In (k, v) l)).
    { clear. intros l v D. induction l as [|[k' v'] l IH]; cbn; [split; [discriminate|tauto]|]. inversion D as [|? ? N1 D1]; subst. destruct (str_eqb k k') eqn:E.
      - apply str_eqb_eq in E. subst. split; [intros K; injection K as ->; now left|]. intros [K|K]; [now injection K as ->|]. exfalso. apply N1. now apply (in_map fst) in K.
      - rewrite IH by assumption. split; [auto|]. intros [K|K]; [|assumption]. injection K as -> _. now rewrite str_eqb_refl in E. }
    destruct (mget k a) as [v|] eqn:Ea.
    - apply G in Ea; [|assumption]. symmetry. apply G; [assumption|]. eapply Permutation_in; eauto.
    - destruct (mget k b) as [v|] eqn:Eb; [|reflexivity]. apply G in Eb; [|assumption]. apply Permutation_sym in P. assert (In (k, v) a) by (eapply Permutation_in; eauto). apply G in H0; [|assumption]. congruence. Qed.

  (** what is sent *)
  Lemma bindings_read : forall ps vs, sent_variables ps vs -> exists js, Forall2 (fun b j => argument_json (snd b) j) (sent_bindings ps) js.
  Proof. intros ps vs [A _]. induction A as [|b bs [j J] A [js IH]]; [now exists []|]. exists (j :: js). now constructor. Qed.
  Lemma request_built : forall default expression ps js vs, orders -> Forall2 (fun b j => argument_json (snd b) j) (sent_bindings ps) js -> sent_variables ps vs -> carried vs ->
    exists r0 r, client_request expression (client_taken ps (mkCOptions None false default []) js) = Ok r0 /\ ~ In 10 (request_line r0) /\ requested (request_line r0) r /\ l_variables r = vs /\ client_asks default expression ps r.
  Proof. intros default expression ps js vs O J [A V] C. pose proof (same_length _ _ _ _ _ J) as L. symmetry in L. set (o := client_taken ps (mkCOptions None false default []) js).
    assert (Oj : c_json o = sent_json ps) by (unfold o; rewrite ctaken_json by assumption; reflexivity).
    assert (Ot : c_token o = sent_token default ps) by (unfold o; rewrite ctaken_token by assumption; reflexivity).
    assert (Oo : c_output o = true <-> In WantJson ps). { unfold o. rewrite ctaken_output by assumption. cbn. intuition discriminate. }
    assert (Fin : forall r, l_expression r = expression -> l_output_json r = Some (c_output o) -> l_token r = c_token o -> match l_variables r with Some ws => exists ks, vs = Some ks /\ Permutation ws ks | None => vs = None end ->
      exists r0 r1, Ok r = Ok r0 /\ ~ In 10 (request_line r0) /\ requested (request_line r0) r1 /\ l_variables r1 = vs /\ client_asks default expression ps r1).
    { intros r E1 E2 E3 E4. exists r, (mkLine (l_expression r) vs (l_output_json r) (l_token r)). split; [reflexivity|]. split; [apply one_line|]. split; [now apply line_read|]. split; [reflexivity|].
      unfold client_asks. cbn [l_expression l_variables l_output_json l_token]. split; [assumption|]. split; [split; assumption|]. split; [exists (c_output o); auto|]. rewrite E3. exact Ot. }
    unfold client_request. rewrite Oj. destruct (sent_json ps) as [text|].
    - destruct V as (kvs & P & ->). rewrite P. apply Fin; try reflexivity. cbn. exists kvs. split; [reflexivity|apply Permutation_refl].
    - destruct V as [Vn Vs]. apply Fin; try reflexivity. cbn [l_variables]. assert (Ov : c_variables o = fold_left (fun m nv => minsert (fst nv) (snd nv) m) (combine (map fst (sent_bindings ps)) js) []) by (unfold o; rewrite ctaken_vars by assumption; reflexivity).
      assert (Lk : forall name j, mget name (c_variables o) = Some j <-> exists text, last_value (sent_bindings ps) name text /\ argument_json text j).
      { intros name j. rewrite Ov, last_inserted. rewrite (last_related json argument_json _ _ _ _ json_unique J). cbn. split; [intros [K|[_ K]]; [assumption|discriminate]|auto]. }
      assert (Dk : NoDup (map fst (c_variables o))) by (rewrite Ov; apply fold_keys; constructor).
      destruct vs as [ks|].
      + destruct (Vs ks eq_refl) as [Ok1 Lk']. assert (Ne : c_variables o <> []).
        { intros E. assert (Nb : sent_bindings ps <> []) by (intros K; apply Vn in K; discriminate). destruct (exists_last Nb) as (bs & [n t] & Eb). assert (Il : In (n, t) (sent_bindings ps)) by (rewrite Eb; apply in_or_app; right; now left). rewrite Forall_forall in A. destruct (A _ Il) as [j Aj]. cbn [snd] in Aj.
          assert (K : mget n (c_variables o) = Some j) by (apply Lk; exists t; split; [exists bs, []; split; [exact Eb|auto]|assumption]). rewrite E in K. discriminate. }
        destruct (c_variables o) as [|kv rest] eqn:Ec; [congruence|]. rewrite <- Ec in *. exists ks. split; [reflexivity|]. destruct (sorted_members _ Dk) as (ks' & P & O'). assert (ks' = ks) as ->; [|assumption].
        assert (Same : forall name, mget name ks' = mget name ks). { intros name. rewrite <- (perm_mget _ _ _ name Dk P). destruct (mget name (c_variables o)) as [j|] eqn:E1; [symmetry; now apply Lk', Lk|]. destruct (mget name ks) as [j|] eqn:E2; [|reflexivity]. apply Lk', Lk in E2. congruence. }
        apply sorted_unique; try assumption. apply NoDup_Permutation.
        * apply (NoDup_map_inv fst). now apply order_nodup.
        * apply (NoDup_map_inv fst). now apply order_nodup.
        * assert (G : forall (l : list (str * json)) k v, NoDup (map fst l) -> (mget k l = Some v <-> In (k, v) l)).
          { clear. intros l k v D. induction l as [|[k' v'] l IH]; cbn; [split; [discriminate|tauto]|]. inversion D as [|? ? N1 D1]; subst. destruct (str_eqb k k') eqn:E.
            - apply str_eqb_eq in E. subst. split; [intros K; injection K as ->; now left|]. intros [K|K]; [now injection K as ->|]. exfalso. apply N1. now apply (in_map fst) in K.
            - rewrite IH by assumption. split; [auto|]. intros [K|K]; [|assumption]. injection K as -> _. now rewrite str_eqb_refl in E. }
          intros [k v]. rewrite <- !G by now apply order_nodup. now rewrite Same.
      + assert (Nb : sent_bindings ps = []) by now apply Vn. rewrite Nb in Ov. cbn in Ov. rewrite Ov. reflexivity. Qed.
  Lemma request_sent : forall exchange default address expression ps args vs, orders -> client_line ps args -> sent_variables ps vs -> carried vs ->
    exists line r, client_main exchange default (address :: expression :: args) = client_report (exchange line) /\ ~ In 10 line /\ requested line r /\ l_variables r = vs /\ client_asks default expression ps r.
  Proof. intros exchange default address expression ps args vs O [F ->] SV C. destruct (bindings_read ps vs SV) as [js J]. destruct (request_built default expression ps js vs O J SV C) as (r0 & r & B & K).
    exists (request_line r0), r. split; [|exact K]. unfold client_main. rewrite (client_read ps _ js F J), B. reflexivity. Qed.

  (** ** The answer *)
  Lemma report_read : forall success result error text, clean_answer success result error text -> (error = JNull \/ exists e, error = JStr e) ->
    client_report text = if success then Exited 0 (json_pretty 0 result ++ [10]) [] else Exited 2 [] (lit "Error: " ++ match error with JStr e => e | _ => lit "Unknown error" end ++ [10]).
  Proof. intros success result error text (time & id & Pt & Hid & Dr & Nr & ->) E. set (doc := [(lit "error", error); (lit "execution_time_ms", JNum time); (lit "request_id", JNum (JPos id)); (lit "result", result); (lit "success", JBool success)]).
    assert (P : exists ms, Struct.struct_parse Struct.answer_names (json_print (answer_json success result error (JNum time) id)) = Some (JObj ms) /\ forall k, In k Struct.answer_names -> mget k ms = mget k doc).
    { rewrite <- (app_nil_r (json_print _)). apply (StructRead_proofs.struct_fields Struct.answer_names doc _ [] []); [| | |constructor|constructor].
      - apply object_document; [unfold in_key_order; cbn; repeat constructor|]. constructor; [cbn; destruct E as [->|[e ->]]; constructor|]. constructor; [now constructor|]. constructor; [constructor; now constructor|]. constructor; [assumption|]. constructor; [constructor|constructor].
      - unfold doc. cbn [nesting map snd list_max fold_right]. destruct E as [->|[e ->]]; cbn [nesting]; lia.
      - unfold doc, answer_json. apply print_any_order. apply NoDup_Permutation.
        + apply (NoDup_map_inv fst). cbn. repeat constructor; cbn; intuition discriminate.
        + apply (NoDup_map_inv fst). cbn. repeat constructor; cbn; intuition discriminate.
        + intros kv. cbn. tauto. }
    destruct P as (ms & P & Ms). unfold client_report, answer_of_line. rewrite P. cbn [answer_field]. rewrite !Ms by (cbn; tauto). unfold doc.
    assert (M : forall a b c d e : json, mget (lit "success") [(lit "error", a); (lit "execution_time_ms", b); (lit "request_id", c); (lit "result", d); (lit "success", e)] = Some e /\ mget (lit "error") [(lit "error", a); (lit "execution_time_ms", b); (lit "request_id", c); (lit "result", d); (lit "success", e)] = Some a
      /\ mget (lit "execution_time_ms") [(lit "error", a); (lit "execution_time_ms", b); (lit "request_id", c); (lit "result", d); (lit "success", e)] = Some b /\ mget (lit "request_id") [(lit "error", a); (lit "execution_time_ms", b); (lit "request_id", c); (lit "result", d); (lit "success", e)] = Some c
      /\ mget (lit "result") [(lit "error", a); (lit "execution_time_ms", b); (lit "request_id", c); (lit "result", d); (lit "success", e)] = Some d) by (intros; repeat split; reflexivity).
    destruct (M error (JNum time) (JNum (JPos id)) result (JBool success)) as (-> & -> & -> & -> & ->). destruct E as [->|[e ->]]; cbn [json_optional HttpServer.json_text option_map]; destruct success; try reflexivity; destruct result; reflexivity. Qed.
  Lemma client_served : forall reg token exchange default address expression ps args vs vars r, orders -> client_line ps args -> sent_variables ps vs -> carried vs -> served_by reg token exchange ->
    welcome token (sent_token default ps) -> given_env vs vars -> Spec_http.gives reg expression vars r -> (forall v, r = Ok v -> clean_result v) ->
    match r with
    | Ok v => exists j, (In WantJson ps -> described v j) /\ (~ In WantJson ps -> simple_result v j) /\ client_main exchange default (address :: expression :: args) = Exited 0 (json_pretty 0 j ++ [10]) []
    | Err e => client_main exchange default (address :: expression :: args) = Exited 2 [] (lit "Error: " ++ show_error e ++ [10])
    | Panic _ => True
    end.
  Proof. intros reg token exchange default address expression ps args vs vars r O L V C S1 W G R Cl. destruct (request_sent exchange default address expression ps args vs O L V C) as (line & rq & -> & _ & Rq & Ev & (Ee & _ & (b & Eo & Eb) & Et)).
    destruct r as [v|e|p]; [| |exact I].
    all: assert (Le : let_in token rq) by (unfold let_in; rewrite Et; exact W).
    all: assert (Rv : request_env rq vars) by (unfold request_env; rewrite Ev; exact G).
    all: rewrite <- Ee in R.
    all: assert (Nc : ~ crashes reg token line) by (intros (r' & vars' & p & Rq' & _ & Ev' & G'); rewrite (requested_unique line r' rq Rq' Rq) in *; pose proof (gives_same reg _ _ _ _ (env_same rq _ _ Ev' Rv) G') as G2; pose proof (gives_unique _ _ _ _ _ R G2); discriminate).
    all: destruct (S1 line Nc) as (id & success & result & error & time & A & -> & Pt & Hid); cbv zeta in *.
    all: remember (answer_json success result error (JNum time) id) as d eqn:Ed; destruct A as [why t Nq|r' t Rq' Nl'|r' vars' v' j t Rq' Li' Ev' G' Wn|r' vars' e' t Rq' Li' Ev' G']; [exfalso; now apply (Nq rq)|rewrite (requested_unique line r' rq Rq' Rq) in *; contradiction| |];
      rewrite (requested_unique line r' rq Rq' Rq) in *; pose proof (gives_same reg _ _ _ _ (env_same rq _ _ Ev' Rv) G') as G2; pose proof (gives_unique _ _ _ _ _ R G2) as E; try discriminate; injection E as <-.
    - injection Ed as <- <- <- ->. exists j. unfold wanted in Wn. rewrite Eo in Wn. split; [intros K; rewrite (proj2 Eb K) in Wn; exact Wn|]. split; [intros K; destruct b; [exfalso; now apply K, Eb|exact Wn]|].
      apply (report_read true j JNull); [|now left]. destruct (Cl v eq_refl j) as [Dj Nj]; [destruct b; auto|]. exists time, id. auto.
    - injection Ed as <- <- <- ->. apply (report_read false JNull (JStr (show_error e))); [|right; now exists (show_error e)]. exists time, id. repeat (split; [assumption|]). split; [constructor|]. split; [cbn; lia|reflexivity]. Qed.
  Lemma client_kept_out : forall reg token exchange default address expression ps args vs, orders -> client_line ps args -> sent_variables ps vs -> carried vs -> served_by reg token exchange ->
    ~ welcome token (sent_token default ps) -> client_main exchange default (address :: expression :: args) = Exited 2 [] (lit "Error: Unauthorized: invalid token" ++ [10]).
  Proof. intros reg token exchange default address expression ps args vs O L V C S1 W. destruct (request_sent exchange default address expression ps args vs O L V C) as (line & rq & -> & _ & Rq & Ev & (Ee & _ & (b & Eo & Eb) & Et)).
    assert (Le : ~ let_in token rq) by (unfold let_in; rewrite Et; exact W).
    assert (Nc : ~ crashes reg token line) by (intros (r' & vars' & p & Rq' & Le' & _); rewrite (requested_unique line r' rq Rq' Rq) in *; contradiction).
    destruct (S1 line Nc) as (id & success & result & error & time & A & -> & Pt & Hid); cbv zeta in *.
    remember (answer_json success result error (JNum time) id) as d eqn:Ed; destruct A as [why t Nq|r' t Rq' Nl'|r' vars' v' j t Rq' Li' Ev' G' Wn|r' vars' e' t Rq' Li' Ev' G']; [exfalso; now apply (Nq rq)| |rewrite (requested_unique line r' rq Rq' Rq) in *; contradiction|rewrite (requested_unique line r' rq Rq' Rq) in *; contradiction].
    injection Ed as <- <- <- ->. apply (report_read false JNull (JStr (lit "Unauthorized: invalid token"))); [|right; now exists (lit "Unauthorized: invalid token")]. exists time, id. repeat (split; [assumption|]). split; [constructor|]. split; [cbn; lia|reflexivity]. Qed.
  (** a line that is not an answer *)
  Lemma no_answer : forall line, answer_of_line line = None -> exists msg, client_report line = Exited 3 [] msg.
  Proof. intros line E. unfold client_report. rewrite E. eexists. reflexivity. Qed.
End Client.

(** ** The modelled server as the other side *)
Section Other.
  Context {X : Ext} {H : Host}.
  Lemma zero_plain : plain_number (JFlt f_zero).
  Proof. constructor; [reflexivity|reflexivity|]. exists [], false, (lit "0"), (lit "0"). split; [now left|]. repeat split; try discriminate; cbn; lia. Qed.
  Lemma server_serves : forall reg token id, id < 2 ^ 64 -> is_finite (h_ms id) = true -> plain_number (JFlt (h_ms id)) -> served_by reg token (fun line => match answer_line reg token id line with Ok a => a | _ => [] end).
  Proof. intros reg token id L Fm Pm line Nc. pose proof (line_timely reg token id line) as K. destruct (answer_line reg token id line) as [a|e|p]; [|contradiction|contradiction]. destruct K as (s & r & e & ms & Hm & A & ->).
    exists id, s, r, e, (JFlt ms). assert (E : json_of_f64 ms = JNum (JFlt ms)) by (unfold json_of_f64, jnum_of_f64; destruct Hm as [-> | ->]; [reflexivity|now rewrite Fm]). rewrite E in *. cbv zeta. repeat (split; [assumption || reflexivity|]). split; [destruct Hm as [-> | ->]; [apply zero_plain|assumption]|assumption]. Qed.
End Other.
