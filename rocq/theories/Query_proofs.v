(** What a request to evaluate asks for: lemmas. *)
From Coq Require Import String List ZArith NArith Bool Lia Permutation.
From Verif Require Import Base Struct F64 F64Text Utf8 Syntax Ext Json Lines Host Registry Methods HttpRead HttpServer Spec Spec_syntax Spec_text Spec_json Spec_http Spec_command Spec_js Spec_eval.
From Verif Require Import Base_proofs Utf8_proofs Text_proofs HttpRead_proofs HttpAuth_proofs HttpCache_proofs Command_proofs Example_proofs.
From Verif Require Import Spec_eval.
Import ListNotations.
Local Open Scope N_scope.
Local Opaque json_parse.

(** ** Names *)
Definition included_of (i : include) : included := match i with IncAll => everything | IncNone => nothing | IncSelected ns => only ns end.
Lemma pieces_at_iff : forall c s ps, pieces_at c s ps <-> ps = split_char c s.
Proof.
  intros c s ps. split.
  - intros (Ne & -> & F). symmetry. now apply join_split_unique.
  - intros ->. destruct (Command_proofs.split_join c s) as (items & E & Ne & J & F). rewrite E. now split.
Qed.
Definition strip_colon (n : str) : str := match n with 58 :: r => r | _ => n end.
Lemma strip_other : forall c n, c <> 58 -> strip_colon (c :: n) = c :: n.
Proof. intros c n Ne. unfold strip_colon. destruct c as [|p]; [reflexivity|]. do 6 (destruct p as [p|p|]; try reflexivity). congruence. Qed.
Definition picked (ps : list str) : list str := map strip_colon (filter (fun n => match n with [] => false | _ => true end) (map trim ps)).
Lemma names_in_iff : forall ps ns, names_in ps ns <-> ns = picked ps.
Proof.
  intros ps. unfold picked. induction ps as [|p ps IH]; intros ns.
  - split; [now inversion 1|intros ->; constructor].
  - cbn [map]. destruct (trim p) as [|c n] eqn:T; cbn [filter map].
    + split.
      * inversion 1 as [|? ? ? T' R|? ? ? ? T' R|? ? ? ? ? T' Ne R]; subst; try (apply trimmed_iff in T'; rewrite T in T'; discriminate). now apply IH.
      * intros K. apply IH in K. apply blank_name; [|assumption]. apply trimmed_iff. now rewrite T.
    + split.
      * inversion 1 as [|? ? ? T' R|? ? ? ? T' R|? ? ? ? ? T' Ne R]; subst; apply trimmed_iff in T'; rewrite T in T'; try discriminate; injection T' as ? ?; subst; apply IH in R as ->; [reflexivity|now rewrite strip_other].
      * intros ->. destruct (N.eq_dec c 58) as [->|Ne]; [apply colon_name|rewrite strip_other by assumption; apply plain_name; [|assumption|]].
        all: try (apply trimmed_iff; now rewrite T). all: now apply IH.
Qed.
Lemma include_names_is : forall s, include_names s = match picked (split_char 44 s) with [] => IncNone | ns => IncSelected ns end.
Proof. intros s. unfold include_names. cbv zeta. change (map (fun n => match n with 58 :: r => r | _ => n end) (filter (fun n => match n with [] => false | _ => true end) (map trim (split_char 44 s)))) with (picked (split_char 44 s)). now destruct (picked _). Qed.
Lemma listed_iff : forall s i, listed s i <-> i = included_of (include_names s).
Proof.
  intros s i. rewrite include_names_is. split.
  - intros (ps & ns & P & N0 & ->). apply pieces_at_iff in P as ->. apply names_in_iff in N0 as ->. now destruct (picked _).
  - intros ->. exists (split_char 44 s), (picked (split_char 44 s)). split; [now apply pieces_at_iff|]. split; [now apply names_in_iff|]. now destruct (picked _).
Qed.

(** ** Bodies *)
Lemma body_iff : forall text body, body_of text body <-> exists head, split_once crlf2 text = Some (head, body).
Proof.
  intros text body. split; intros [head K]; exists head; apply (once_iff (crlf ++ crlf)); exact K.
Qed.
Lemma json_strings_iff : forall js es, json_strings js = Some es <-> js = map JStr es.
Proof.
  induction js as [|j js IH]; intros es; cbn [json_strings].
  - split; [now intros [= <-]|now destruct es].
  - split.
    + destruct j; try discriminate. destruct (json_strings js) as [es'|]; [|discriminate]. cbn. intros [= <-]. cbn [map]. f_equal. now apply IH.
    + destruct es as [|e es]; [discriminate|]. cbn [map]. intros [= -> ->]. rewrite (proj2 (IH es) eq_refl). reflexivity.
Qed.
Lemma expression_iff : forall j e, expression_json j e <-> json_expression j = Some e.
Proof.
  intros j e. split.
  - intros [e'|es]; [reflexivity|]. cbn [json_expression]. rewrite (proj2 (json_strings_iff _ es) eq_refl). reflexivity.
  - destruct j; try discriminate; cbn [json_expression].
    + intros [= <-]. constructor.
    + destruct (json_strings _) as [es|] eqn:E; [|discriminate]. cbn. intros [= <-]. apply json_strings_iff in E as ->. constructor.
Qed.
Lemma arguments_iff : forall o a, arguments_json o a <-> json_optional json_object o = Some a.
Proof.
  intros o a. unfold arguments_json, absent. split.
  - intros [[[-> | ->] ->]|(kvs & -> & ->)]; reflexivity.
  - destruct o as [[]|]; cbn; try discriminate; intros [= <-]; eauto.
Qed.
Definition flag_of (o : option bool) : bool := match o with Some b => b | None => false end.
Lemma structured_iff : forall o b, structured_json o b <-> exists x, json_optional json_bool o = Some x /\ b = flag_of x.
Proof.
  intros o b. unfold structured_json, absent. split.
  - intros [[[-> | ->] ->]| ->]; eexists; (split; [reflexivity|reflexivity]).
  - intros (x & E & ->). destruct o as [[]|]; cbn in E; try discriminate; injection E as <-; cbn; auto.
Qed.
Definition kind_of (o : option include) : included := match o with Some i => included_of i | None => nothing end.
Lemma included_iff : forall o i, included_json o i <-> exists x, json_optional json_include o = Some x /\ i = kind_of x.
Proof.
  intros o i. unfold included_json, absent. split.
  - intros [[[-> | ->] ->]|[[-> ->]|[[-> ->]|(s & -> & L)]]]; try (eexists; split; reflexivity). apply listed_iff in L as ->. eexists. split; reflexivity.
  - intros (x & E & ->). destruct o as [[|[]| |s| |]|]; cbn in E; try discriminate; injection E as <-; cbn [kind_of included_of];
      first [left; split; [solve [auto]|reflexivity]|right; left; split; reflexivity|right; right; left; split; reflexivity|right; right; right; exists s; split; [reflexivity|now apply listed_iff]].
Qed.
Definition task_of (req : eval_request) : task := mkTask (r_expression req) (r_arguments req) (flag_of (r_output_json req)) (kind_of (r_include req)).
Lemma fields_read : forall e a o i req, eval_fields (Some e) a o i = Some req ->
  expression_json e (r_expression req) /\ arguments_json a (r_arguments req) /\ structured_json o (flag_of (r_output_json req)) /\ included_json i (kind_of (r_include req)).
Proof.
  intros e a o i req E. unfold eval_fields in E. destruct (json_expression e) eqn:E1; [|discriminate]. destruct (json_optional json_object a) eqn:E2; [|discriminate]. destruct (json_optional json_bool o) eqn:E3; [|discriminate]. destruct (json_optional json_include i) eqn:E4; [|discriminate]. injection E as <-. cbn.
  split; [now apply expression_iff|]. split; [now apply arguments_iff|]. split; [apply structured_iff; eauto|apply included_iff; eauto].
Qed.
Lemma fields_written : forall e a o i ex ar st inc, expression_json e ex -> arguments_json a ar -> structured_json o st -> included_json i inc ->
  exists req, eval_fields (Some e) a o i = Some req /\ task_of req = mkTask ex ar st inc.
Proof.
  intros e a o i ex ar st inc E1 E2 E3 E4. apply expression_iff in E1. apply arguments_iff in E2. apply structured_iff in E3 as (x & E3 & ->). apply included_iff in E4 as (y & E4 & ->).
  unfold eval_fields. rewrite E1, E2, E3, E4. eexists. split; reflexivity.
Qed.
Lemma request_fields : forall j req, eval_request_of j = Some req -> exists e a o i, fields_of j (Some e) a o i /\ eval_fields (Some e) a o i = Some req.
Proof.
  intros j req E. unfold eval_request_of in E. destruct j as [| | | |js|kvs]; try discriminate.
  - destruct js as [|e [|a [|o [|i [|]]]]]; try discriminate. exists e, (Some a), (Some o), (Some i). split; [|assumption]. right. exists e, a, o, i. now repeat split.
  - destruct (mget (lit "expression") kvs) as [e|] eqn:Ex; [|discriminate]. exists e, (mget (lit "arguments") kvs), (mget (lit "output_json") kvs), (mget (lit "include_variables") kvs). split; [|assumption]. left. exists kvs. now rewrite Ex.
Qed.
Lemma fields_request : forall j e a o i, fields_of j (Some e) a o i -> eval_request_of j = eval_fields (Some e) a o i.
Proof. intros j e a o i [(kvs & -> & E & -> & -> & ->)|(je & ja & jo & ji & -> & E & -> & -> & ->)]; [cbn [eval_request_of]; now rewrite <- E|injection E as ->; reflexivity]. Qed.

(** ** Queries *)
Lemma hex_iff : forall c x, hex_digit c x <-> hex_val c = Some x.
Proof.
  intros c x. unfold hex_val, is_digit. split.
  - intros [d L|d L|d L].
    + rewrite (proj2 (andb_true_iff _ _)) by (split; apply N.leb_le; lia). f_equal. lia.
    + rewrite (proj2 (andb_false_iff _ _)) by (right; apply N.leb_gt; lia). rewrite (proj2 (andb_true_iff _ _)) by (split; apply N.leb_le; lia). f_equal. lia.
    + rewrite (proj2 (andb_false_iff _ _)) by (right; apply N.leb_gt; lia). rewrite (proj2 (andb_false_iff _ _)) by (left; apply N.leb_gt; lia). rewrite (proj2 (andb_true_iff _ _)) by (split; apply N.leb_le; lia). f_equal. lia.
  - destruct ((48 <=? c) && (c <=? 57)) eqn:A; [|destruct ((97 <=? c) && (c <=? 102)) eqn:B; [|destruct ((65 <=? c) && (c <=? 70)) eqn:C; [|discriminate]]]; intros [= <-].
    + apply andb_true_iff in A as [A1 A2]. apply N.leb_le in A1, A2. replace c with (48 + (c - 48)) at 1 by lia. constructor. lia.
    + apply andb_true_iff in B as [A1 A2]. apply N.leb_le in A1, A2. replace c with (97 + (c - 97)) at 1 by lia. replace (c - 87) with (10 + (c - 97)) by lia. constructor. lia.
    + apply andb_true_iff in C as [A1 A2]. apply N.leb_le in A1, A2. replace c with (65 + (c - 65)) at 1 by lia. replace (c - 55) with (10 + (c - 65)) by lia. constructor. lia.
Qed.
Lemma percent_other : forall c r, c <> 37 -> percent (c :: r) = c :: percent r.
Proof. intros c r Ne. destruct c as [|p]; [reflexivity|]. do 6 (destruct p as [p|p|]; try reflexivity). congruence. Qed.
Lemma percent_two : forall a b r, percent (37 :: a :: b :: r) = match hex_val a, hex_val b with Some x, Some y => x * 16 + y :: percent r | _, _ => 37 :: percent (a :: b :: r) end.
Proof. reflexivity. Qed.
Lemma unescaped_iff : forall n raw bs, (length raw <= n)%nat -> (unescaped raw bs <-> bs = percent raw).
Proof.
  induction n as [|n IH]; intros raw bs L.
  - destruct raw; [|cbn in L; lia]. split; [now inversion 1|intros ->; constructor].
  - destruct raw as [|c r]; [split; [now inversion 1|intros ->; constructor]|]. cbn in L. destruct (N.eq_dec c 37) as [->|Ne].
    + destruct r as [|a [|b r]].
      * split; [inversion 1 as [| |? ? ? N0 R]; subst; apply IH in R as ->; [reflexivity|cbn in *; lia]|]. intros ->. apply one_plain; [discriminate|constructor].
      * split; [inversion 1 as [| |? ? ? N0 R]; subst; apply IH in R as ->; [reflexivity|cbn in *; lia]|]. intros ->. cbn [percent]. apply one_plain; [discriminate|]. apply IH; [cbn in *; lia|reflexivity].
      * rewrite percent_two. cbn in L. split.
        -- inversion 1 as [|? ? x y ? ? Ha Hb R|? ? ? N0 R]; subst.
           ++ apply hex_iff in Ha, Hb. rewrite Ha, Hb. apply IH in R as ->; [reflexivity|lia].
           ++ destruct (hex_val a) as [x|] eqn:Ha, (hex_val b) as [y|] eqn:Hb; try (apply IH in R as ->; [reflexivity|cbn in *; lia]). exfalso. apply hex_iff in Ha, Hb. eapply N0; eauto.
        -- destruct (hex_val a) as [x|] eqn:Ha, (hex_val b) as [y|] eqn:Hb; intros ->.
           1: apply one_escaped; [now apply hex_iff|now apply hex_iff|apply IH; [lia|reflexivity]].
           all: apply one_plain; [intros _ a' b' r' x' y' [= <- <- <-] Ha' Hb'; apply hex_iff in Ha', Hb'; congruence|apply IH; [cbn in *; lia|reflexivity]].
    + rewrite percent_other by assumption. split.
      * inversion 1 as [| |? ? ? N0 R]; subst; [congruence|]. apply IH in R as ->; [reflexivity|lia].
      * intros ->. apply one_plain; [congruence|]. apply IH; [lia|reflexivity].
Qed.
Lemma decoded_iff : forall raw v, decoded raw v <-> v = url_decode raw.
Proof.
  intros raw v. unfold decoded, url_decode. split.
  - intros (bs & U & K). apply (unescaped_iff (length (encode raw))) in U as ->; [|lia]. destruct K as [[V <-]|[K ->]].
    + now rewrite decode_encode.
    + destruct (decode _) as [t|] eqn:D; [|reflexivity]. exfalso. apply encode_decode in D as [D1 D2]. exact (K _ D2 D1).
  - intros ->. exists (percent (encode raw)). split; [apply (unescaped_iff (length (encode raw))); [lia|reflexivity]|]. destruct (decode (percent (encode raw))) as [t|] eqn:D.
    + left. apply encode_decode in D. tauto.
    + right. split; [|reflexivity]. intros u V E. rewrite <- E, decode_encode in D by assumption. discriminate.
Qed.
Definition param_of (p : str) : option (str * str) := option_map (fun kr => (fst kr, url_decode (snd kr))) (split_once [61] p).
Fixpoint kept {A B} (f : A -> option B) (l : list A) : list B := match l with [] => [] | x :: r => match f x with Some y => y :: kept f r | None => kept f r end end.
Lemma once_61 : forall k raw, ~ In 61 k -> split_once [61] (k ++ [61] ++ raw) = Some (k, raw).
Proof.
  intros k raw N0. apply once_iff. split; [reflexivity|]. intros a' b' E. destruct (Nat.le_gt_cases (length k) (length a')) as [L|G]; [assumption|]. exfalso. apply N0.
  assert (exists r, k = a' ++ 61 :: r) as (r & ->); [|apply in_or_app; right; now left].
  revert k N0 G E. induction a' as [|x a' IH]; intros k N0 G E; destruct k as [|y k]; cbn in G; try lia.
  - cbn in E. injection E as <- _. now exists k.
  - cbn in E. injection E as <- E. destruct (IH k) as [r ->]; [intros K; apply N0; now right|lia|assumption|]. now exists r.
Qed.
Lemma once_61_none : forall p, split_once [61] p = None <-> ~ In 61 p.
Proof.
  intros p. split.
  - intros E I0. apply in_split in I0 as (a & b & Ep). destruct (in_dec N.eq_dec 61 a) as [I1|I1].
    + assert (K : forall s, In 61 s -> split_once [61] s <> None); [|exact (K p ltac:(rewrite Ep; apply in_or_app; right; now left) E)].
      intros s I2. assert (exists k r, s = k ++ [61] ++ r /\ ~ In 61 k) as (k & r & -> & Nk); [|now rewrite once_61].
      clear -I2. induction s as [|c s IH]; [contradiction|]. destruct (N.eq_dec c 61) as [->|Ne]; [exists [], s; split; [reflexivity|auto]|]. destruct IH as (k & r & -> & Nk); [destruct I2; [congruence|assumption]|]. exists (c :: k), r. split; [reflexivity|]. intros [K|K]; [congruence|auto].
    + subst p. pose proof (once_61 a b I1) as K; cbn [app] in K; rewrite K in E; discriminate.
  - intros N0. destruct (split_once [61] p) as [[a b]|] eqn:E; [|reflexivity]. exfalso. apply once_iff in E as [-> _]. apply N0, in_or_app. right. now left.
Qed.
Lemma once_61_some : forall p k raw, split_once [61] p = Some (k, raw) -> p = k ++ [61] ++ raw /\ ~ In 61 k.
Proof.
  intros p k raw E. apply once_iff in E as [-> L]. split; [reflexivity|]. intros I0. apply in_split in I0 as (a & b & ->). specialize (L a (b ++ [61] ++ raw)). rewrite <- app_assoc in L. specialize (L eq_refl). rewrite app_length in L. cbn in L. lia.
Qed.
Lemma params_iff : forall ps kvs, params_in ps kvs <-> kvs = kept param_of ps.
Proof.
  induction ps as [|p ps IH]; intros kvs.
  - split; [now inversion 1|intros ->; constructor].
  - cbn [kept]. split.
    + inversion 1 as [|? ? ? N0 R|k raw v ? ? N0 D R]; subst; unfold param_of.
      * rewrite (proj2 (once_61_none p) N0). now apply IH.
      * pose proof (once_61 k raw N0) as Ko. cbn [app] in Ko. rewrite Ko. cbn [option_map fst snd]. apply decoded_iff in D as ->. f_equal. now apply IH.
    + unfold param_of. destruct (split_once [61] p) as [[k raw]|] eqn:E; cbn [option_map fst snd]; intros ->.
      * apply once_61_some in E as [-> N0]. apply a_param; [assumption|now apply decoded_iff|now apply IH].
      * apply once_61_none in E. apply no_param; [assumption|now apply IH].
Qed.
(** *** The last parameter with some key *)
Lemma last_of_snoc : forall keys l k v' v, last_of keys (l ++ [(k, v')]) v <-> (In k keys /\ v = v') \/ (~ In k keys /\ last_of keys l v).
Proof.
  intros keys l k v' v. split.
  - intros (b & k0 & a & E & I0 & F). destruct a as [|x a _] using rev_ind.
    + apply app_inj_tail in E as [_ E]. injection E as -> ->. now left.
    + rewrite app_comm_cons, app_assoc in E. apply app_inj_tail in E as [-> <-]. apply Forall_app in F as [F1 F2]. inversion F2; subst. right. split; [assumption|]. now exists b, k0, a.
  - intros [[I0 ->]|[N0 (b & k0 & a & -> & I0 & F)]].
    + exists l, k, []. now repeat split.
    + exists b, k0, (a ++ [(k, v')]). rewrite <- app_assoc. split; [reflexivity|]. split; [assumption|]. apply Forall_app. split; [assumption|]. now constructor.
Qed.
Lemma last_value_of : forall (l : list (str * str)) k v, last_value l k v <-> last_of [k] l v.
Proof.
  intros l k v. split.
  - intros (b & a & -> & N0). exists b, k, a. split; [reflexivity|]. split; [now left|]. apply Forall_forall. intros x I0 [E|[]]. apply N0. rewrite E. now apply in_map.
  - intros (b & k0 & a & -> & [<- |[]] & F). exists b, a. split; [reflexivity|]. intros I0. apply in_map_iff in I0 as (x & E & I0). rewrite Forall_forall in F. apply (F x I0). left. now symmetry.
Qed.
Lemma last_value_snoc : forall (l : list (str * str)) k v' k0 v, last_value (l ++ [(k, v')]) k0 v <-> (k = k0 /\ v = v') \/ (k <> k0 /\ last_value l k0 v).
Proof. intros l k v' k0 v. rewrite !last_value_of, last_of_snoc. cbn [In]. intuition. Qed.
(** *** Reading the parameters *)
Definition take (q : query) (kv : str * str) : query :=
  let '(key, v) := kv in
  if str_eqb key (lit "expr") || str_eqb key (lit "expression") then mkQuery v (q_variables q) (q_output q) (q_include q)
  else if str_eqb key (lit "output_json") then mkQuery (q_expression q) (q_variables q) (str_eqb v (lit "true")) (q_include q)
  else if str_eqb key (lit "include_variables")
  then mkQuery (q_expression q) (q_variables q) (q_output q) (if str_eqb v (lit "true") then IncAll else if str_eqb v (lit "false") then IncNone else include_names v)
  else mkQuery (q_expression q) (minsert key (query_value v) (q_variables q)) (q_output q) (q_include q).
Definition no_query : query := mkQuery [] [] false IncNone.
Lemma parse_is : forall s, parse_query s = fold_left take (kept param_of (split_char 38 s)) no_query.
Proof.
  intros s. unfold parse_query. change (mkQuery [] [] false IncNone) with no_query. generalize no_query. induction (split_char 38 s) as [|p ps IH]; intros q; [reflexivity|]. cbn [fold_left kept].
  unfold param_of, query_param at 2. destruct (split_once [61] p) as [[k raw]|]; cbn [option_map fst snd]; [cbn [fold_left take]; apply IH|apply IH].
Qed.
Lemma query_json_iff : forall s j, query_json s j <-> query_value s = j.
Proof.
  intros s j. unfold query_value. split.
  - intros [s' x F Fi|s' x F Fi| | |s' N0 N1 N2]; try apply float_text_iff in F.
    + rewrite F. unfold json_of_f64, jnum_of_f64. now rewrite Fi.
    + rewrite F. unfold json_of_f64, jnum_of_f64. now rewrite Fi.
    + reflexivity.
    + reflexivity.
    + destruct (f_from_str s') as [x|] eqn:E; [apply float_text_iff in E; now apply N0 in E|]. destruct (str_eqb s' (lit "true")) eqn:E1; [apply str_eqb_eq in E1; congruence|]. destruct (str_eqb s' (lit "false")) eqn:E2; [apply str_eqb_eq in E2; congruence|reflexivity].
  - intros <-. destruct (f_from_str s) as [x|] eqn:E.
    + apply float_text_iff in E. unfold json_of_f64, jnum_of_f64. destruct (is_finite x) eqn:Fi; [eapply query_number; eassumption|eapply query_infinite; eassumption].
    + destruct (str_eqb s (lit "true")) eqn:E1; [apply str_eqb_eq in E1 as ->; constructor|]. destruct (str_eqb s (lit "false")) eqn:E2; [apply str_eqb_eq in E2 as ->; constructor|]. apply query_text.
      * intros x K. apply float_text_iff in K. congruence.
      * intros ->. rewrite str_eqb_refl in E1. discriminate.
      * intros ->. rewrite str_eqb_refl in E2. discriminate.
Qed.
Definition is_expression (k : str) : bool := str_eqb k (lit "expr") || str_eqb k (lit "expression").
Lemma expression_key : forall k, is_expression k = true <-> In k expression_keys.
Proof. intros k. unfold is_expression. rewrite orb_true_iff, !str_eqb_eq. cbn. intuition. Qed.
Lemma reserved_iff : forall k, In k reserved <-> In k expression_keys \/ k = lit "output_json" \/ k = lit "include_variables".
Proof. intros k. unfold reserved. rewrite in_app_iff. cbn. intuition. Qed.
Inductive taken (q : query) (k v : str) : query -> Prop :=
| taken_expression : In k expression_keys -> taken q k v (mkQuery v (q_variables q) (q_output q) (q_include q))
| taken_output : k = lit "output_json" -> taken q k v (mkQuery (q_expression q) (q_variables q) (str_eqb v (lit "true")) (q_include q))
| taken_include : k = lit "include_variables" -> taken q k v (mkQuery (q_expression q) (q_variables q) (q_output q) (if str_eqb v (lit "true") then IncAll else if str_eqb v (lit "false") then IncNone else include_names v))
| taken_variable : ~ In k reserved -> taken q k v (mkQuery (q_expression q) (minsert k (query_value v) (q_variables q)) (q_output q) (q_include q)).
Lemma take_taken : forall q k v, taken q k v (take q (k, v)).
Proof.
  intros q k v. unfold take. fold (is_expression k). destruct (is_expression k) eqn:E1; [apply taken_expression; now apply expression_key|].
  destruct (str_eqb k (lit "output_json")) eqn:E2; [apply taken_output; now apply str_eqb_eq|]. destruct (str_eqb k (lit "include_variables")) eqn:E3; [apply taken_include; now apply str_eqb_eq|]. apply taken_variable. rewrite reserved_iff.
  intros [K|[-> | ->]]; [apply expression_key in K; congruence|rewrite str_eqb_refl in E2; discriminate|rewrite str_eqb_refl in E3; discriminate].
Qed.
Lemma output_not_expression : ~ In (lit "output_json") expression_keys. Proof. cbn. intuition discriminate. Qed.
Lemma include_not_expression : ~ In (lit "include_variables") expression_keys. Proof. cbn. intuition discriminate. Qed.
Record sums_up (kvs : list (str * str)) (q : query) : Prop := {
  su_expression : forall e, last_of expression_keys kvs e -> q_expression q = e;
  su_none : (forall e, ~ last_of expression_keys kvs e) -> q_expression q = [];
  su_output : q_output q = true <-> last_value kvs (lit "output_json") (lit "true");
  su_include : query_included kvs (included_of (q_include q));
  su_keys : NoDup (map fst (q_variables q));
  su_variables : forall k j, mget k (q_variables q) = Some j <-> ~ In k reserved /\ exists v, last_value kvs k v /\ query_json v j }.
Lemma no_last : forall keys v, ~ last_of keys [] v.
Proof. intros keys v (b & k & a & E & _). destruct b; discriminate. Qed.
Lemma included_more : forall kvs k v i, k <> lit "include_variables" -> query_included kvs i -> query_included (kvs ++ [(k, v)]) i.
Proof.
  intros kvs k v i Ne [[N0 ->]|(v0 & L & K)].
  - left. split; [|reflexivity]. rewrite map_app, in_app_iff. cbn. intuition.
  - right. exists v0. split; [|assumption]. apply last_value_snoc. now right.
Qed.
Lemma last_dec : forall keys (l : list (str * str)), (exists e, last_of keys l e) \/ forall e, ~ last_of keys l e.
Proof.
  intros keys l. induction l as [|[k v] l IH] using rev_ind; [right; apply no_last|]. destruct (in_dec (list_eq_dec N.eq_dec) k keys) as [I0|N0].
  - left. exists v. apply last_of_snoc. now left.
  - destruct IH as [[e L]|N1]; [left; exists e; apply last_of_snoc; now right|right]. intros e K. apply last_of_snoc in K as [[I0 _]|[_ K]]; [auto|exact (N1 _ K)].
Qed.
Lemma last_of_same : forall keys l k v, ~ In k keys -> forall e, last_of keys (l ++ [(k, v)]) e <-> last_of keys l e.
Proof. intros keys l k v N0 e. rewrite last_of_snoc. intuition. Qed.
Lemma value_same_last : forall (l : list (str * str)) k v k0, k <> k0 -> forall e, last_value (l ++ [(k, v)]) k0 e <-> last_value l k0 e.
Proof. intros l k v k0 N0 e. rewrite last_value_snoc. intuition. Qed.
Lemma summed : forall kvs, sums_up kvs (fold_left take kvs no_query).
Proof.
  intros kvs. induction kvs as [|[k v] kvs IH] using rev_ind.
  - split; cbn.
    + intros e K. now apply no_last in K.
    + reflexivity.
    + split; [discriminate|]. intros K. apply last_value_of in K. now apply no_last in K.
    + left. split; [auto|reflexivity].
    + constructor.
    + intros k j. split; [discriminate|]. intros (_ & v & K & _). apply last_value_of in K. now apply no_last in K.
  - rewrite fold_left_app. cbn [fold_left]. set (q := fold_left take kvs no_query) in *. destruct IH as [E1 E2 O I0 K V]. destruct (take_taken q k v) as [Ik|Ek|Ek|Nk]; split; cbn [q_expression q_output q_include q_variables]; auto.
    + intros e L. apply last_of_snoc in L as [[_ ->]|[N0 _]]; [reflexivity|contradiction].
    + intros N0. exfalso. apply (N0 v). apply last_of_snoc. now left.
    + rewrite value_same_last by (intros ->; now apply output_not_expression). exact O.
    + apply included_more; [|assumption]. intros ->. now apply include_not_expression.
    + intros k0 j. rewrite V. split; intros (N0 & v0 & L & J); (split; [assumption|]); exists v0; (split; [|assumption]); [apply last_value_snoc; right; split; [|assumption]|apply last_value_snoc in L as [[-> _]|[_ L]]; [|assumption]]; [intros ->|exfalso]; apply N0; apply reserved_iff; now left.
    + intros e L. apply E1. rewrite last_of_same in L; [assumption|]. subst k. apply output_not_expression.
    + intros N0. apply E2. intros e L. apply (N0 e). rewrite last_of_same; [assumption|]. subst k. apply output_not_expression.
    + subst k. rewrite last_value_snoc, str_eqb_eq. intuition.
    + apply included_more; [subst k; discriminate|assumption].
    + intros k0 j. rewrite V. split; intros (N0 & v0 & L & J); (split; [assumption|]); exists v0; (split; [|assumption]); [apply last_value_snoc; right; split; [|assumption]|apply last_value_snoc in L as [[-> _]|[_ L]]; [|assumption]]; [intros ->|exfalso]; apply N0; apply reserved_iff; subst; auto.
    + intros e L. apply E1. rewrite last_of_same in L; [assumption|]. subst k. apply include_not_expression.
    + intros N0. apply E2. intros e L. apply (N0 e). rewrite last_of_same; [assumption|]. subst k. apply include_not_expression.
    + rewrite value_same_last by (subst k; discriminate). exact O.
    + right. exists v. split; [apply last_value_snoc; now left|]. destruct (str_eqb v (lit "true")) eqn:T; [apply str_eqb_eq in T; left; now split|]. destruct (str_eqb v (lit "false")) eqn:F; [apply str_eqb_eq in F; right; left; now split|]. right. right. split; [intros ->; rewrite str_eqb_refl in T; discriminate|]. split; [intros ->; rewrite str_eqb_refl in F; discriminate|]. now apply listed_iff.
    + intros k0 j. rewrite V. split; intros (N0 & v0 & L & J); (split; [assumption|]); exists v0; (split; [|assumption]); [apply last_value_snoc; right; split; [|assumption]|apply last_value_snoc in L as [[-> _]|[_ L]]; [|assumption]]; [intros ->|exfalso]; apply N0; apply reserved_iff; subst; auto.
    + intros e L. apply E1. rewrite last_of_same in L; [assumption|]. intros K0. apply Nk, reserved_iff. now left.
    + intros N0. apply E2. intros e L. apply (N0 e). rewrite last_of_same; [assumption|]. intros K0. apply Nk, reserved_iff. now left.
    + rewrite value_same_last by (intros ->; apply Nk, reserved_iff; auto). exact O.
    + apply included_more; [|assumption]. intros ->. apply Nk, reserved_iff. auto.
    + exact (NoDup_minsert k (query_value v) _ K).
    + intros k0 j. rewrite mget_minsert. destruct (str_eqb k0 k) eqn:E.
      * apply str_eqb_eq in E as ->. split.
        -- intros [= <-]. split; [assumption|]. exists v. split; [apply last_value_snoc; now left|now apply query_json_iff].
        -- intros (_ & v0 & L & J). apply last_value_snoc in L as [[_ ->]|[N0 _]]; [|congruence]. apply query_json_iff in J as ->. reflexivity.
      * assert (k <> k0) as Ne by (intros ->; rewrite str_eqb_refl in E; discriminate). rewrite V. split; intros (N0 & v0 & L & J); (split; [assumption|]); exists v0; (split; [|assumption]); apply (value_same_last kvs k v k0 Ne); assumption.
Qed.
Lemma included_unique : forall kvs i i', query_included kvs i -> query_included kvs i' -> i = i'.
Proof.
  assert (Lu : forall kvs k (v v' : str), last_value kvs k v -> last_value kvs k v' -> v = v').
  { intros kvs k v v'. rewrite !last_value_of. induction kvs as [|[k0 v0] kvs IH] using rev_ind; [intros K; now apply no_last in K|]. rewrite !last_of_snoc. intuition congruence. }
  intros kvs i i' [[N0 ->]|(v & L & K)] [[N1 ->]|(v' & L' & K')]; [reflexivity|exfalso|exfalso|].
  - apply N0. destruct L' as (b & a & -> & _). rewrite map_app, in_app_iff. right. now left.
  - apply N1. destruct L as (b & a & -> & _). rewrite map_app, in_app_iff. right. now left.
  - rewrite (Lu _ _ _ _ L L') in K. destruct K as [[E ->]|[[E ->]|(E1 & E2 & K)]], K' as [[E' ->]|[[E' ->]|(E1' & E2' & K')]]; try congruence; try (rewrite E in E'; discriminate). apply listed_iff in K as ->. apply listed_iff in K' as ->. reflexivity.
Qed.

(** ** Requests *)
Lemma alike_refl : forall t, alike t t.
Proof. intros t. do 3 (split; [reflexivity|]). destruct (t_arguments t); [reflexivity|exact I]. Qed.
Section Requests.
  Context {X : Ext} {H : Host}.
  Lemma eval_wants : forall text req, eval_of text req -> wants text (task_of req).
  Proof.
    intros text req E. destruct E as [text l ls q v more req L W Q P|text l ls q v more L W N1].
    - unfold parse_json_body in P. destruct (split_once crlf2 text) as [[head body]|] eqn:Sp; [|discriminate]. destruct (struct_parse eval_names body) as [j|] eqn:J; [|discriminate]. destruct (eval_request_of j) as [r|] eqn:R; [|discriminate]. injection P as ->.
      apply request_fields in R as (e & a & o & i & F & R). apply fields_read in R as (R1 & R2 & R3 & R4). eapply wants_post; [exists l, ls; split; eassumption|eassumption|apply body_iff; eauto|eassumption|eassumption|assumption..].
    - rewrite parse_is in *. set (kvs := kept param_of (split_char 38 q)) in *. pose proof (summed kvs) as S0. set (y := fold_left take kvs no_query) in *.
      eapply wants_get with (ps := split_char 38 q) (kvs := kvs); [exists l, ls; split; eassumption|now apply pieces_at_iff|now apply params_iff|..]; unfold task_of, query_request; cbn [t_expression t_arguments t_structured t_included r_expression r_arguments r_output_json r_include flag_of kind_of].
      + destruct (last_dec expression_keys kvs) as [[e L0]|N0]; [rewrite (su_expression _ _ S0 e L0); exact L0|]. rewrite (su_none _ _ S0 N0) in N1. congruence.
      + exact N1.
      + pose proof (su_variables _ _ S0) as V. pose proof (su_keys _ _ S0) as K. destruct (q_variables y) as [|kv vs] eqn:Ev; cbn [query_arguments].
        * apply Forall_forall. intros [k0 v0] I0. cbn [fst]. destruct (in_dec (list_eq_dec N.eq_dec) k0 reserved) as [I1|N0]; [assumption|]. exfalso.
          destruct (last_dec [k0] kvs) as [[v' L0]|N2].
          -- assert (mget k0 [] = Some (query_value v')) as K0; [|discriminate]. apply V. split; [assumption|]. exists v'. split; [now apply last_value_of|now apply query_json_iff].
          -- clear -I0 N2. induction kvs as [|[k1 v1] kvs IH] using rev_ind; [contradiction|]. destruct (list_eq_dec N.eq_dec k1 k0) as [->|Ne].
             ++ apply (N2 v1). apply last_of_snoc. left. split; [now left|reflexivity].
             ++ apply in_app_iff in I0 as [I0|[[= <- <-]|[]]]; [|congruence]. apply IH; [assumption|]. intros e L0. apply (N2 e). apply last_of_snoc. right. split; [|assumption]. intros [K|[]]. congruence.
        * split; [discriminate|]. split; [exact K|]. intros k0 j. rewrite <- V. split; [intros I0; now apply mget_unique|apply mget_found].
      + exact (su_output _ _ S0).
      + exact (su_include _ _ S0).
  Qed.
  Lemma wants_eval : forall text t, wants text t -> exists req, eval_of text req /\ alike (task_of req) t.
  Proof.
    intros text t W. destruct W as [q v more body j e a o i (l & ls & L & Wd) Q B J F E A O I0|q v more ps kvs (l & ls & L & Wd) P Pa E Ne A O I0].
    - destruct (fields_written _ _ _ _ _ _ _ _ E A O I0) as (req & R & T). exists req. split; [|rewrite T; destruct t; apply alike_refl]. eapply by_post; [eassumption|eassumption|assumption|]. apply body_iff in B as [head B]. unfold parse_json_body. rewrite B, J, (fields_request _ _ _ _ _ F), R. reflexivity.
    - apply pieces_at_iff in P as ->. apply params_iff in Pa as ->. set (kvs := kept param_of (split_char 38 q)) in *. pose proof (summed kvs) as S0. set (y := fold_left take kvs no_query) in *.
      assert (Ey : parse_query q = y) by apply parse_is. pose proof (su_expression _ _ S0 _ E) as Ee. exists (query_request y). split; [rewrite <- Ey; eapply by_get; [eassumption|eassumption|]; rewrite Ey, Ee; exact Ne|].
      unfold alike, task_of, query_request. cbn [t_expression t_arguments t_structured t_included r_expression r_arguments r_output_json r_include flag_of kind_of]. split; [exact Ee|]. split; [|split].
      + pose proof (su_output _ _ S0) as O'. destruct (q_output y) eqn:B1, (t_structured t) eqn:B2; try reflexivity; [assert (false = true) by tauto|assert (false = true) by tauto]; congruence.
      + exact (included_unique _ _ _ (su_include _ _ S0) I0).
      + pose proof (su_variables _ _ S0) as V. pose proof (su_keys _ _ S0) as K. unfold query_arguments in A. destruct (t_arguments t) as [js|] eqn:T.
        * destruct A as (Nj & Nd & A). assert (Pe : Permutation (q_variables y) js).
          { apply NoDup_Permutation; [now apply NoDup_map_inv in K|now apply NoDup_map_inv in Nd|]. intros [k0 j0]. rewrite A, <- V. split; [intros I1; now apply mget_unique|apply mget_found]. }
          destruct (q_variables y); [apply Permutation_nil in Pe; congruence|exact Pe].
        * destruct (q_variables y) as [|[k0 j0] vs] eqn:Ev; [exact I|]. exfalso. destruct (proj1 (V k0 j0)) as (N0 & v0 & (b & a & Ek & _) & _); [cbn [mget]; now rewrite str_eqb_refl|]. apply N0. rewrite Forall_forall in A. apply (A (k0, v0)). rewrite Ek. apply in_or_app. right. now left.
  Qed.
End Requests.
