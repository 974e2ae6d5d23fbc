(** Loading the functions of the hooks directory at the start: proofs. *)
From Coq Require Import String List ZArith NArith Bool Lia Permutation.
From Verif Require Import Base F64 Utf8 Syntax Ext Json Registry Methods Core Evaluator Api Lines Host JsPlugin HttpServer Command Spec Spec_syntax Spec_text Spec_registry Spec_http Spec_js Spec_start.
From Verif Require Import Base_proofs Display_proofs Registry_proofs JsPlugin_proofs Hooks_proofs Upload_proofs Lifecycle_proofs Command_proofs.
Import ListNotations.
Local Open Scope N_scope.

Section Start.
  Context {X : Ext} {H : Host}.
  Lemma listed_functions : forall fs, readable -> NoDup (map fst fs) -> listing fs (loaded (hook_files fs)).
  Proof.
    intros fs R Nd. exists (function_files fs). split; [|split].
    - unfold function_files. pose proof (hook_files_nodup fs R Nd) as N. induction (hook_files fs) as [|pc l IH]; [constructor|]. cbn [map] in N. inversion N as [|? ? N1 N2]; subst. cbn [filter]. destruct (parse_js_function (snd pc)); [|now apply IH..]. cbn [map]. constructor; [|now apply IH]. intros I. apply N1. apply in_map_iff in I as (x & E & I). apply filter_In in I as [I _]. rewrite <- E. now apply in_map.
    - intros name source. unfold function_files. rewrite filter_In, hook_files_in by assumption. cbn [snd]. split; intros [Hf K]; (split; [assumption|]).
      + destruct (parse_js_function source) as [f|e|x] eqn:P; try discriminate. exists f. now apply source_read.
      + destruct K as (f & Sf & B). now rewrite (proj2 (source_read source f)) by auto.
    - unfold function_files, loaded. induction (hook_files fs) as [|pc l IH]; [constructor|]. cbn [filter flat_map]. destruct (parse_js_function (snd pc)) as [f|e|x] eqn:P; [|exact IH..]. cbn [app]. constructor; [|exact IH]. now apply source_read in P.
  Qed.
  Lemma fold_registered : forall l, registered_as l (fold_left (fun r f => minsert (to_uppercase (js_name f)) (js_custom f) r) l reg_new).
  Proof.
    intros l. split.
    - intros before f after name -> Sn N. exists (js_custom f). split; [|now repeat split]. induction after as [|g after IH] using rev_ind.
      + rewrite fold_left_app. cbn [fold_left]. unfold reg_get. rewrite mget_minsert. unfold same_name in Sn. rewrite Sn. now rewrite str_eqb_refl.
      + rewrite app_comm_cons, app_assoc, fold_left_app. cbn [fold_left]. unfold reg_get. rewrite mget_minsert. destruct (str_eqb (to_uppercase name) (to_uppercase (js_name g))) eqn:E.
        * exfalso. apply str_eqb_eq in E. apply (N g); [apply in_or_app; right; now left|]. now symmetry.
        * apply IH. intros h I. apply N. apply in_or_app. now left.
    - intros name N. destruct (folded l reg_new name) as [(f & I & Sn & _)|[_ G]]; [now apply N in Sn|exact G].
  Qed.
  Lemma register_found_ok : forall l r, Forall registrable l -> register_found l r = (None, fold_left (fun r f => minsert (to_uppercase (js_name f)) (js_custom f) r) l r).
  Proof. induction l as [|f l IH]; intros r F; [reflexivity|]. inversion F; subst. cbn [register_found fold_left]. rewrite register_step by assumption. now apply IH. Qed.
  Lemma register_found_bad : forall before bad after r, Forall registrable before -> ~ registrable bad ->
    exists e, register_found (before ++ bad :: after) r = (Some e, fold_left (fun r f => minsert (to_uppercase (js_name f)) (js_custom f) r) before r).
  Proof.
    induction before as [|f l IH]; intros bad after r F N.
    - cbn [app register_found fold_left]. destruct (register_rejected r (js_custom bad)) as [e E]; [intros K; now apply N, custom_formed|]. unfold Api.register_function in E. rewrite E. now exists e.
    - inversion F; subst. cbn [app register_found fold_left]. rewrite register_step by assumption. now apply IH.
  Qed.
  Lemma first_refused : forall l, Forall registrable l \/ exists before bad after, l = before ++ bad :: after /\ Forall registrable before /\ ~ registrable bad.
  Proof.
    induction l as [|f l IH]; [left; constructor|]. destruct (well_formed_dec (js_custom f)) as [R|R].
    - destruct IH as [F|(b & x & a & -> & F & N)]; [left; now constructor|]. right. exists (f :: b), x, a. repeat split; [|assumption]. constructor; assumption.
    - right. exists [], f, l. repeat split; [constructor|exact R].
  Qed.
  Lemma noticed_sk : forall fs ms args r reg, load_hooks fs = (r, reg) -> after_notice (notice r) (sk_main reg ms args) (sk fs ms args).
  Proof. intros fs ms args r reg E. unfold sk. rewrite E. destruct (sk_main reg ms args); constructor. Qed.

  Lemma loads : forall fs ms args, readable -> NoDup (map fst fs) -> exists l, listing fs l /\
    ((Forall registrable l /\ exists reg text, registered_as l reg /\ loaded_notice (length l) text /\ after_notice text (sk_main reg ms args) (sk fs ms args))
     \/ exists before refused after reg text, l = before ++ refused :: after /\ Forall registrable before /\ ~ registrable refused /\
          registered_as before reg /\ warning text /\ after_notice text (sk_main reg ms args) (sk fs ms args)).
  Proof.
    intros fs ms args R Nd. exists (loaded (hook_files fs)). split; [now apply listed_functions|].
    assert (L : load_functions fs = Ok (loaded (hook_files fs))). { unfold load_functions. destruct R as (-> & -> & _). reflexivity. }
    destruct (first_refused (loaded (hook_files fs))) as [F|(b & x & a & E & F & N)].
    - left. split; [assumption|]. exists (fold_left (fun r f => minsert (to_uppercase (js_name f)) (js_custom f) r) (loaded (hook_files fs)) reg_new), (notice (Ok (N.of_nat (length (loaded (hook_files fs)))))). split; [apply fold_registered|]. split.
      + unfold notice. destruct (N.ltb_spec 0 (N.of_nat (length (loaded (hook_files fs))))) as [K|K]; [|constructor; lia].
        apply some_loaded; [lia|]. apply written_unique. destruct (length (loaded (hook_files fs))); [lia|reflexivity].
      + apply noticed_sk. unfold load_hooks. rewrite L, register_found_ok by assumption. reflexivity.
    - right. destruct (register_found_bad b x a reg_new F N) as [e K]. exists b, x, a. eexists. exists (notice (Err e)). split; [assumption|]. split; [assumption|]. split; [assumption|]. split; [apply fold_registered|]. split; [constructor|].
      apply noticed_sk. unfold load_hooks. rewrite L, E, K. reflexivity.
  Qed.
  Lemma unreadable_hooks : forall fs ms args, h_mkdir_fails <> None \/ h_list_fails <> None ->
    exists reg text, registered_as [] reg /\ warning text /\ after_notice text (sk_main reg ms args) (sk fs ms args).
  Proof.
    intros fs ms args K. assert (exists e, load_functions fs = Err e) as [e E].
    { unfold load_functions. destruct h_mkdir_fails; [eauto|]. destruct h_list_fails; [eauto|]. now destruct K. }
    exists reg_new, (notice (Err e)). split; [apply (fold_registered [])|]. split; [constructor|]. apply noticed_sk. unfold load_hooks. now rewrite E.
  Qed.
  Lemma loaded_call : forall l reg before f after call es vs vars, registered_as l reg -> l = before ++ f :: after -> (forall g, In g after -> ~ same_name (js_name g) (js_name f)) ->
    same_name call (js_name f) -> ~ In call (map lit ["__TERNARY__"; "__CONST_TRUE__"; "__CONST_FALSE__"]%string) -> evaluate_to (custom_ctx vars reg) es vs ->
    js_min f <= N.of_nat (length vs) -> (forall m, js_max f = Some m -> N.of_nat (length vs) <= m) ->
    eval (EFunctionCall call es) (custom_ctx vars reg) = js_execute (js_code f) vs.
  Proof.
    intros l reg before f after call es vs vars [R _] E N Sn Nc Ev Mi Ma. destruct (R before f after call E) as (c & Gc & _ & R1 & R2 & R3); [now symmetry|intros g I K; apply (N g I); unfold same_name in *; congruence|].
    rewrite (custom_eval call es vs vars reg Nc); [|unfold has_custom_function, reg_has, mhas; unfold reg_get in Gc; now rewrite Gc|assumption].
    rewrite (execute_spec _ _ c vs Gc); [now rewrite R3|]. split; [now rewrite R1|]. intros m K. rewrite R2 in K. now apply Ma.
  Qed.
  Lemma statements_alone : forall reg reg' ms expr args, has_statements expr -> sk_main reg ms (expr :: args) = sk_main reg' ms (expr :: args).
  Proof. intros reg reg' ms expr args K. unfold sk_main. destruct (read_options args _) as [o|e|p]; try reflexivity. unfold command_result. apply statements_bool in K. rewrite K. reflexivity. Qed.
End Start.
