(** Listing, deleting and loading functions: proofs. *)
From Coq Require Import String List ZArith NArith Bool Lia Permutation Sorted.
From Verif Require Import Base Struct F64 Utf8 Syntax Ext Json Lines Host HttpRead HttpAuth Multipart Utils Registry Dispatch Methods Core Evaluator Api JsPlugin HttpServer Spec Spec_syntax Spec_text Spec_args Spec_registry Spec_json Spec_http Spec_js Spec_form.
From Verif Require Import Base_proofs Text_proofs HttpRead_proofs HttpAuth_proofs HttpRoutes_proofs HttpCache_proofs HttpServer_proofs Command_proofs JsPlugin_proofs Multipart_proofs Registry_proofs Hooks_proofs Example_proofs Upload_proofs.
Import ListNotations.
Local Open Scope N_scope.
Local Opaque json_parse.

Lemma alphabetical_iff : forall a b, str_cmp a b = Lt <-> alphabetical a b.
Proof.
  induction a as [|x a IH]; intros [|y b]; cbn [str_cmp].
  - split; [discriminate|]. intros (p & [[E (c & r & K)]|(c & d & r & s & K & _)]); destruct p; discriminate.
  - split; [|reflexivity]. intros _. exists []. left. split; [reflexivity|]. now exists y, b.
  - split; [discriminate|]. intros (p & [[E (c & r & K)]|(c & d & r & s & _ & K & _)]); destruct p; discriminate.
  - destruct (N.compare_spec x y) as [->|L|L].
    + rewrite IH. split.
      * intros (p & [[E (c & r & K)]|(c & d & r & s & E & K & L)]); exists (y :: p); [left|right]; [split; [now rewrite E|]; exists c, r; now rewrite K|]. exists c, d, r, s. rewrite E, K. now split.
      * intros (p & [[E (c & r & K)]|(c & d & r & s & E & K & L)]).
        -- subst p. injection K as K. exists a. left. split; [reflexivity|]. now exists c, r.
        -- destruct p as [|z p]; [injection E as -> _; injection K as <- _; lia|]. injection E as -> E. injection K as K. exists p. right. now exists c, d, r, s.
    + split; [|reflexivity]. intros _. exists []. right. now exists x, y, a, b.
    + split; [discriminate|]. intros (p & [[E (c & r & K)]|(c & d & r & s & E & K & L')]).
      * subst p. injection K as K1 K2. lia.
      * destruct p as [|z p]; [injection E as -> _; injection K as -> _; lia|]. injection E as -> E. injection K as K1 K2. lia.
Qed.

Section Lifecycle.
  Context {X : Ext} {H : Host}.
  Hypothesis U : unicode X.

  (** ** Deleting *)
  Lemma named_read : forall text name, names_file text name -> parse_json_body delete_names delete_request_of text = inl name.
  Proof. intros text name (ls & body & kvs & -> & F & Ne & P & M). unfold parse_json_body. rewrite once_request by assumption. rewrite P. cbn [delete_request_of]. now rewrite M. Qed.
  Lemma deleted : forall (token admin : option str) q text name path w, asks "DELETE" "/delete-js" q text -> authorised admin text -> names_file text name -> file_name name -> (exists r, name = r ++ lit ".js") -> hook_path name path ->
    (forall p, h_remove_fails p = None) -> mget path (w_files w) <> None ->
    exists w' answer kvs, serves token admin text w w' answer /\ answers "200" answer kvs /\ has_entry kvs "success" (JBool true) /\ changes_file path w w' /\ mget path (w_files w') = None /\ (distinct_files w -> distinct_files w').
  Proof.
    intros token admin q text name path w A Au Nf Fn Js Hp Rm Th. unfold serves. rewrite (routed_in admin_endpoints token admin "DELETE" "/delete-js" q text admin_listed ltac:(cbn; tauto) A). change (handler token admin "DELETE" "/delete-js" text) with (handle_delete_js text admin). unfold handle_delete_js, check_admin_authentication. rewrite (let_in U) by assumption.
    rewrite (named_read text name Nf), (proj2 (ends_with_iff (lit ".js") name) Js). cbn [run act]. unfold delete_js_file. rewrite (hook_path_unique name path (js_path name) Hp (hook_path_is name Fn)) in Th |- *.
    unfold mhas. destruct (mget (js_path name) (w_files w)) eqn:E; [|congruence]. rewrite Rm. cbn [run reply]. eexists. eexists. eexists. split; [reflexivity|]. split; [now apply reply_answers|]. split; [reflexivity|]. split.
    - do 5 (split; [reflexivity|]). intros p Np. cbn [set_files w_files]. now rewrite mget_mremove_other.
    - split; [apply mget_mremove_same|]. intros Nd. unfold distinct_files. cbn [set_files w_files]. now apply remove_nodup.
  Qed.
  Lemma delete_missing : forall (token admin : option str) q text name path w, asks "DELETE" "/delete-js" q text -> authorised admin text -> names_file text name -> file_name name -> hook_path name path -> mget path (w_files w) = None ->
    exists answer status kvs, serves token admin text w w answer /\ In status ["400"; "500"]%string /\ answers status answer kvs /\ has_entry kvs "success" (JBool false).
  Proof.
    intros token admin q text name path w A Au Nf Fn Hp Th. unfold serves. rewrite (routed_in admin_endpoints token admin "DELETE" "/delete-js" q text admin_listed ltac:(cbn; tauto) A). change (handler token admin "DELETE" "/delete-js" text) with (handle_delete_js text admin). unfold handle_delete_js, check_admin_authentication. rewrite (let_in U) by assumption.
    rewrite (named_read text name Nf). destruct (ends_with (lit ".js") name).
    - cbn [run act]. unfold delete_js_file. rewrite (hook_path_unique name path (js_path name) Hp (hook_path_is name Fn)) in Th. unfold mhas. rewrite Th. cbn [run reply]. eexists. exists "500"%string. eexists. split; [destruct w; reflexivity|]. split; [right; now left|]. split; [now apply reply_answers|reflexivity].
    - cbn [run reply]. eexists. exists "400"%string. eexists. split; [reflexivity|]. split; [now left|]. split; [now apply reply_answers|reflexivity].
  Qed.

  (** ** Listing *)
  Lemma insert_file_sorted : forall x l, ~ In (fst x) (map fst l) -> StronglySorted (fun a b => alphabetical (fst a) (fst b)) l -> StronglySorted (fun a b => alphabetical (fst a) (fst b)) (insert_file x l).
  Proof.
    intros x l Nx S1. induction S1 as [|y l S1 IH F]; cbn [insert_file]; [repeat constructor|]. assert (fst x <> fst y) as Nxy by (intros E; apply Nx; now left). destruct (str_cmp (fst x) (fst y)) eqn:E.
    - apply str_cmp_eq in E. contradiction.
    - apply alphabetical_iff in E. constructor; [now constructor|]. constructor; [assumption|]. eapply Forall_impl; [|exact F]. intros z Fz. cbn beta in Fz. apply alphabetical_iff in E, Fz. apply alphabetical_iff. eapply str_cmp_lt_trans; eauto.
    - constructor; [apply IH; intros I; apply Nx; now right|]. assert (alphabetical (fst y) (fst x)) as Ayx. { apply alphabetical_iff. rewrite str_cmp_antisym, E. reflexivity. }
      rewrite Forall_forall in *. intros z I. apply (Permutation_in _ (Permutation_sym (insert_file_perm x l))) in I. destruct I as [<- |I]; [exact Ayx|now apply F].
  Qed.
  Lemma sort_files_sorted : forall l, NoDup (map fst l) -> StronglySorted (fun a b => alphabetical (fst a) (fst b)) (sort_files l).
  Proof.
    induction l as [|x l IH]; intros N; [constructor|]. cbn [map] in N. inversion N as [|? ? N1 N2]; subst. cbn [sort_files fold_right]. apply insert_file_sorted; [|now apply IH]. intros I. apply N1. apply (Permutation_in _ (Permutation_map fst (Permutation_sym (sort_files_perm l)))). exact I.
  Qed.
  Lemma info_describes : forall name source, describes name source (js_info name source).
  Proof.
    intros name source. unfold js_info. destruct (parse_js_function source) as [f|e|x] eqn:P.
    - apply source_read in P as [Sf B]. apply describes_function with f; [assumption|assumption|]. destruct (js_description f), (js_example f), (js_max f); repeat constructor.
    - eapply describes_fault with (e := show_error e).
      + intros f [Sf B]. assert (parse_js_function source = Ok f) as K by (apply source_read; auto). congruence.
      + repeat constructor.
    - exfalso. destruct (source_outcome source) as [[f K]|[e K]]; congruence.
  Qed.
  Lemma listed_files : forall (token admin : option str) q text w, asks "GET" "/list-js" q text -> authorised admin text -> readable -> distinct_files w ->
    exists answer kvs l js, serves token admin text w w answer /\ answers "200" answer kvs /\ has_entry kvs "success" (JBool true) /\ has_entry kvs "functions" (JArr js) /\ has_entry kvs "total_count" (optional_count (Some (N.of_nat (length l))))
      /\ StronglySorted (fun a b => alphabetical (fst a) (fst b)) l /\ (forall name source, In (name, source) l <-> hook_file (w_files w) name source) /\ Forall2 (fun ns j => describes (fst ns) (snd ns) j) l js.
  Proof.
    intros token admin q text w A Au R Nd. unfold serves. rewrite (routed_in admin_endpoints token admin "GET" "/list-js" q text admin_listed ltac:(cbn; tauto) A). change (handler token admin "GET" "/list-js" text) with (handle_list_js text admin). unfold handle_list_js, check_admin_authentication. rewrite (let_in U) by assumption.
    cbn [run act]. unfold list_js_functions. pose proof R as (_ & R2 & _). rewrite R2. cbn [run reply]. eexists. eexists. exists (sort_files (hook_files (w_files w))). eexists. split; [reflexivity|]. split; [now apply reply_answers|]. split; [reflexivity|]. split; [reflexivity|]. split; [cbn; now rewrite map_length|]. split; [now apply sort_files_sorted, hook_files_nodup|]. split.
    - intros name source. rewrite <- hook_files_in by assumption. split; apply Permutation_in; [symmetry|]; apply sort_files_perm.
    - induction (sort_files (hook_files (w_files w))) as [|[n s] l IH]; [constructor|]. cbn [map]. constructor; [apply info_describes|exact IH].
  Qed.

  (** ** Loading *)
  Definition function_files (fs : files) : list (str * str) := filter (fun pc => match parse_js_function (snd pc) with Ok _ => true | _ => false end) (hook_files fs).
  Definition loaded (l : list (str * str)) : list js_function := flat_map (fun pc => match parse_js_function (snd pc) with Ok f => [f] | _ => [] end) l.
  Lemma loaded_filter : forall l, length (loaded l) = length (filter (fun pc => match parse_js_function (snd pc) with Ok _ => true | _ => false end) l).
  Proof. induction l as [|pc l IH]; [reflexivity|]. cbn [loaded flat_map filter]. destruct (parse_js_function (snd pc)); cbn [app length]; [f_equal; exact IH|exact IH|exact IH]. Qed.
  Lemma loaded_found : forall fs f, readable -> NoDup (mkeys fs) -> (In f (loaded (hook_files fs)) <-> found fs f).
  Proof.
    intros fs f R Nd. unfold loaded. rewrite in_flat_map. split.
    - intros ([name source] & I & K). cbn [snd] in K. destruct (parse_js_function source) as [g|e|x] eqn:P; [|destruct K..]. destruct K as [-> |[]]. exists name, source. split; [now apply hook_files_in|]. now apply source_read.
    - intros (name & source & Hf & Sf & B). exists (name, source). split; [now apply hook_files_in|]. cbn [snd]. rewrite (proj2 (source_read source f)) by auto. now left.
  Qed.
  Lemma custom_formed : forall f, well_formed (js_custom f) <-> registrable f.
  Proof. intros f. reflexivity. Qed.
  Lemma register_step : forall r f, registrable f -> reg_register r (js_custom f) = Ok (minsert (to_uppercase (js_name f)) (js_custom f) r).
  Proof. intros r f R. exact (register_result r (js_custom f) (proj2 (custom_formed f) R)). Qed.
  Lemma register_all_ok : forall fs ok bad w, (forall f, In f fs -> registrable f) ->
    run (register_all fs ok bad) w = run ok (set_registry (fold_left (fun r f => minsert (to_uppercase (js_name f)) (js_custom f) r) fs (w_registry w)) w).
  Proof.
    induction fs as [|f fs IH]; intros ok bad w R; [destruct w; reflexivity|]. cbn [register_all run act fold_left]. rewrite register_step by (apply R; now left). cbn [run]. rewrite IH by (intros g I; apply R; now right). reflexivity.
  Qed.
  Lemma register_all_bad : forall fs ok bad w, (exists f, In f fs /\ ~ registrable f) -> exists e w', run (register_all fs ok bad) w = run (bad e) w' /\ changes_functions w w'.
  Proof.
    induction fs as [|f fs IH]; intros ok bad w (g & I & N); [destruct I|]. cbn [register_all run act]. destruct (well_formed_dec (js_custom f)) as [R|R].
    - rewrite register_step by now apply custom_formed. cbn [run]. destruct I as [-> |I]; [now apply N in R|]. destruct (IH ok bad (set_registry (minsert (to_uppercase (js_name f)) (js_custom f) (w_registry w)) w)) as (e & w' & E & C); [eauto|]. exists e, w'. split; [exact E|]. exact C.
    - destruct (register_rejected (w_registry w) (js_custom f) R) as [e E]. unfold Api.register_function in E. rewrite E. cbn [run]. exists e, w. split; [reflexivity|]. now repeat split.
  Qed.
  Lemma folded : forall fs r name, let r' := fold_left (fun r f => minsert (to_uppercase (js_name f)) (js_custom f) r) fs r in
    (exists f, In f fs /\ same_name (js_name f) name /\ reg_get r' name = Some (js_custom f)) \/ (~ (exists f, In f fs /\ same_name (js_name f) name) /\ reg_get r' name = reg_get r name).
  Proof.
    intros fs r name. cbn zeta. induction fs as [|f fs IH] using rev_ind; [right; split; [intros (f & [] & _)|reflexivity]|]. rewrite fold_left_app. cbn [fold_left]. unfold reg_get. rewrite mget_minsert. destruct (str_eqb (to_uppercase name) (to_uppercase (js_name f))) eqn:E.
    - apply str_eqb_eq in E. left. exists f. split; [apply in_or_app; right; now left|]. split; [symmetry; exact E|reflexivity].
    - destruct IH as [(g & I & Sn & G)|[N G]].
      + left. exists g. split; [apply in_or_app; now left|]. now split.
      + right. split; [|exact G]. intros (g & I & Sn). apply in_app_or in I as [I|[-> |[]]]; [apply N; eauto|]. unfold same_name in Sn. rewrite Sn in E. now rewrite str_eqb_refl in E.
  Qed.
  Lemma reloaded : forall (token admin : option str) q text w, asks "POST" "/reload-hooks" q text -> authorised admin text -> readable -> distinct_files w -> (forall f, found (w_files w) f -> registrable f) ->
    exists w' answer kvs l, serves token admin text w w' answer /\ answers "200" answer kvs /\ has_entry kvs "success" (JBool true) /\ has_entry kvs "functions_loaded" (optional_count (Some (N.of_nat (length l))))
      /\ NoDup (map fst l) /\ (forall name source, In (name, source) l <-> hook_file (w_files w) name source /\ exists f, says source f /\ bounds_read source)
      /\ changes_functions w w'
      /\ forall name, (exists f g, found (w_files w) f /\ same_name (js_name f) name /\ reg_get (w_registry w') name = Some g /\ runs_as g f)
                      \/ (~ (exists f, found (w_files w) f /\ same_name (js_name f) name) /\ reg_get (w_registry w') name = reg_get (w_registry w) name).
  Proof.
    intros token admin q text w A Au R Nd Rg. unfold serves. rewrite (routed_in admin_endpoints token admin "POST" "/reload-hooks" q text admin_listed ltac:(cbn; tauto) A). change (handler token admin "POST" "/reload-hooks" text) with (handle_reload_hooks text admin). unfold handle_reload_hooks, check_admin_authentication. rewrite (let_in U) by assumption.
    unfold auto_register. cbn [run act]. unfold load_functions. pose proof R as (R1 & R2 & _). rewrite R1, R2. cbn [unless_panic]. fold (loaded (hook_files (w_files w))). rewrite register_all_ok by (intros f I; apply Rg; now apply loaded_found). cbn [run reply].
    eexists. eexists. eexists. exists (function_files (w_files w)). split; [reflexivity|]. split; [now apply reply_answers|]. split; [reflexivity|]. split; [cbn; now rewrite loaded_filter|]. split; [|split; [|split; [now repeat split|]]].
    - unfold function_files. pose proof (hook_files_nodup (w_files w) R Nd) as N. induction (hook_files (w_files w)) as [|pc l IH]; [constructor|]. cbn [map] in N. inversion N as [|? ? N1 N2]; subst. cbn [filter]. destruct (parse_js_function (snd pc)); [|now apply IH..]. cbn [map]. constructor; [|now apply IH]. intros I. apply N1. apply in_map_iff in I as (x & E & I). apply filter_In in I as [I _]. rewrite <- E. now apply in_map.
    - intros name source. unfold function_files. rewrite filter_In, hook_files_in by assumption. cbn [snd]. split; intros [Hf K]; (split; [assumption|]).
      + destruct (parse_js_function source) as [f|e|x] eqn:P; try discriminate. exists f. now apply source_read.
      + destruct K as (f & Sf & B). now rewrite (proj2 (source_read source f)) by auto.
    - intros name. cbn [set_registry w_registry]. destruct (folded (loaded (hook_files (w_files w))) (w_registry w) name) as [(f & I & Sn & G)|[N G]].
      + left. exists f, (js_custom f). split; [now apply loaded_found|]. split; [assumption|]. split; [exact G|]. now repeat split.
      + right. split; [|exact G]. intros (f & Ff & Sn). apply N. exists f. split; [now apply loaded_found|assumption].
  Qed.
  Lemma reload_fails : forall (token admin : option str) q text w, asks "POST" "/reload-hooks" q text -> authorised admin text -> readable -> distinct_files w -> (exists f, found (w_files w) f /\ ~ registrable f) ->
    exists w' answer kvs, serves token admin text w w' answer /\ answers "500" answer kvs /\ has_entry kvs "success" (JBool false) /\ changes_functions w w'.
  Proof.
    intros token admin q text w A Au R Nd (f & Ff & N). unfold serves. rewrite (routed_in admin_endpoints token admin "POST" "/reload-hooks" q text admin_listed ltac:(cbn; tauto) A). change (handler token admin "POST" "/reload-hooks" text) with (handle_reload_hooks text admin). unfold handle_reload_hooks, check_admin_authentication. rewrite (let_in U) by assumption.
    unfold auto_register. cbn [run act]. unfold load_functions. pose proof R as (R1 & R2 & _). rewrite R1, R2. cbn [unless_panic]. fold (loaded (hook_files (w_files w))).
    edestruct (register_all_bad (loaded (hook_files (w_files w)))) as (e & w' & E & C); [exists f; split; [now apply loaded_found|exact N]|]. rewrite E. cbn [run reply]. eexists. eexists. eexists. split; [reflexivity|]. split; [now apply reply_answers|]. split; [reflexivity|exact C].
  Qed.
End Lifecycle.

(** ** An uploaded function can be used after loading *)
Section Usable.
  Context {X : Ext} {H : Host}.
  Hypothesis U : unicode X.
  Lemma usable : forall (token admin : option str) q q' up rel name path source f w w1 a1, asks "POST" "/upload-js" q up -> asks "POST" "/reload-hooks" q' rel -> authorised admin up -> authorised admin rel -> writable -> readable -> js_returns ->
    distinct_files w -> brings up name source -> file_name name -> js_file name -> hook_path name path -> says source f -> bounds_read source -> ~ lone_quote f -> registrable f ->
    (forall g, found (w_files w) g -> registrable g) ->
    (forall name' source' g, hook_file (w_files w) name' source' -> name' <> name -> says source' g -> bounds_read source' -> ~ same_name (js_name g) (js_name f)) ->
    serves token admin up w w1 a1 ->
    exists w2 a2, serves token admin rel w1 w2 a2 /\ status_is "200" a2
      /\ forall call es vs vars, same_name call (js_name f) -> ~ In call (map lit ["__TERNARY__"; "__CONST_TRUE__"; "__CONST_FALSE__"]%string) -> evaluate_to (custom_ctx vars (w_registry w2)) es vs ->
           js_min f <= N.of_nat (length vs) -> (forall m, js_max f = Some m -> N.of_nat (length vs) <= m) ->
           eval (EFunctionCall call es) (custom_ctx vars (w_registry w2)) = js_execute source vs.
  Proof.
    intros token admin q q' up rel name path source f w w1 a1 A A' Au Au' Wr Rd R Nd B Fn Js Hp Sf Bf L Rf Rg Un Sv.
    assert (exists r, name = r ++ lit ".js") as Js'. { destruct Js as (a & c & -> & _). exists (a ++ [c]). now rewrite <- app_assoc. }
    destruct (uploaded U token admin q up name path source f w A Au Wr R B Fn Js' Hp Sf Bf L) as (w1' & a1' & Sv' & _ & C & M & Nd1). unfold serves in Sv, Sv'. rewrite Sv in Sv'. injection Sv' as <- <-. specialize (Nd1 Nd).
    destruct C as (_ & _ & _ & _ & _ & C).
    assert (Ff : forall g, found (w_files w1) g -> registrable g /\ (same_name (js_name g) (js_name f) -> g = f)).
    { intros g (n & s & (Jn & p & Pn & Mp) & Sg & Bg). destruct (list_eq_dec N.eq_dec n name) as [->|Nn].
      - rewrite (hook_path_unique name p path Pn Hp), M in Mp. injection Mp as <-. assert (g = f) as ->; [|now split]. assert (parse_js_function source = Ok g) as K1 by (apply source_read; auto). assert (parse_js_function source = Ok f) as K2 by (apply source_read; auto). congruence.
      - assert (p <> path) as Np. { intros ->. apply Nn. destruct Pn as (d & L1 & ->), Hp as (d' & L2 & E). apply leads_iff in L1, L2. subst d d'. apply app_inv_head in E. now injection E. }
        rewrite C in Mp by assumption. assert (hook_file (w_files w) n s) as Hf by (split; [assumption|eauto]). split; [apply Rg; exists n, s; auto|]. intros K. exfalso. now apply (Un n s g). }
    destruct (reloaded U token admin q' rel w1 A' Au' Rd Nd1) as (w2 & a2 & kvs & l & Sv2 & An & _ & _ & _ & _ & _ & G); [intros g K; now apply Ff|].
    exists w2, a2. split; [exact Sv2|]. split; [now destruct An|]. intros call es vs vars Sn Nc Ev Mi Ma. destruct (G call) as [(g & c & Fg & Sg & Gc & Rn)|[N _]].
    2:{ exfalso. apply N. exists f. split; [exists name, source; split; [split; [assumption|eauto]|auto]|]. unfold same_name in *. congruence. }
    assert (g = f) as ->. { apply Ff; [assumption|]. unfold same_name in *. congruence. }
    destruct Rn as (_ & R1 & R2 & R3). assert (says_c : js_code f = source) by apply Sf. rewrite (custom_eval call es vs vars (w_registry w2) Nc); [|unfold has_custom_function, reg_has, mhas; unfold reg_get in Gc; now rewrite Gc|assumption].
    rewrite (execute_spec _ _ c vs Gc); [rewrite R3; now rewrite says_c|]. split; [now rewrite R1|]. intros m K. rewrite R2 in K. now apply Ma.
  Qed.
End Usable.
