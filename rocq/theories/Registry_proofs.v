(** Custom functions: the registry as a map, arity, precedence. *)
From Coq Require Import String List ZArith NArith Bool Lia.
From Verif Require Import Base F64 Syntax Ext Json Utils Dispatch Registry Methods Core Evaluator Parser Api Spec Spec_registry Base_proofs Value_proofs.
Import ListNotations.
Local Open Scope N_scope.

Section Registry.
  Context {X : Ext}.

  (** ** The registry is a map *)
  Lemma register_result : forall r f, well_formed f -> register_function r f = Ok (minsert (to_uppercase (cf_name f)) f r).
  Proof.
    intros r f [N M]. unfold register_function, reg_register. destruct (to_uppercase (cf_name f)) as [|c n] eqn:E; [congruence|]. destruct (cf_max f) as [m|]; [|reflexivity].
    specialize (M m eq_refl). replace (m <? cf_min f) with false by (symmetry; apply N.ltb_ge; lia). reflexivity.
  Qed.
  Lemma register_rejected : forall r f, ~ well_formed f -> exists e, register_function r f = Err e.
  Proof.
    intros r f H. unfold register_function, reg_register. destruct (to_uppercase (cf_name f)) as [|c n] eqn:E; [eexists; reflexivity|]. destruct (cf_max f) as [m|] eqn:M.
    - destruct (N.ltb_spec m (cf_min f)); [eexists; reflexivity|]. exfalso. apply H. split; [congruence|]. intros k K. rewrite M in K. injection K as <-. assumption.
    - exfalso. apply H. split; [congruence|]. intros k K. congruence.
  Qed.
  Lemma well_formed_dec : forall f, {well_formed f} + {~ well_formed f}.
  Proof.
    intros f. destruct (to_uppercase (cf_name f)) as [|c n] eqn:E; [right; intros [N _]; congruence|]. destruct (cf_max f) as [m|] eqn:M.
    - destruct (N.ltb m (cf_min f)) eqn:L.
      + right. intros [_ K]. specialize (K m M). apply N.ltb_lt in L. lia.
      + left. split; [congruence|]. intros k K. rewrite M in K. injection K as <-. now apply N.ltb_ge in L.
    - left. split; [congruence|]. intros k K. congruence.
  Qed.
  Lemma registered_step : forall h o name f, registered (h ++ [o]) name f <-> (o = Register f /\ concerns name o) \/ (~ concerns name o /\ registered h name f).
  Proof.
    intros h o name f. split.
    - intros (h1 & h2 & E & C & Fa). destruct h2 as [|p h2] using rev_ind.
      + apply app_inj_tail in E as [-> ->]. left. now split.
      + clear IHh2. rewrite app_comm_cons, app_assoc in E. apply app_inj_tail in E as [-> ->]. apply Forall_app in Fa as [F1 F2]. right. split; [now inversion F2|]. now exists h1, h2.
    - intros [[-> C]|[N (h1 & h2 & -> & C & Fa)]].
      + exists h, []. split; [reflexivity|]. split; [assumption|constructor].
      + exists h1, (h2 ++ [o]). split; [now rewrite <- app_assoc|]. split; [assumption|]. apply Forall_app. split; [assumption|]. now constructor.
  Qed.
  Lemma after_snoc : forall h o, after (h ++ [o]) = after_one (after h) o.
  Proof. intros. unfold after. now rewrite fold_left_app. Qed.
  Lemma after_spec : forall h name f, reg_get (after h) name = Some f <-> registered h name f.
  Proof.
    induction h as [|o h IH] using rev_ind; intros name f.
    - split; [discriminate|]. intros ([|? ?] & ? & E & _); discriminate.
    - rewrite registered_step, after_snoc. unfold reg_get in *. destruct o as [g|n]; cbn [after_one].
      + destruct (well_formed_dec g) as [W|W].
        * rewrite (register_result _ g W), mget_minsert. destruct (str_eqb (to_uppercase name) (to_uppercase (cf_name g))) eqn:E.
          -- apply str_eqb_eq in E. assert (C : concerns name (Register g)) by (split; [assumption|now symmetry]). split; [intros K; injection K as <-; left; split; [reflexivity|assumption]|]. intros [[K _]|[K _]]; [congruence|contradiction].
          -- apply str_eqb_neq in E. rewrite IH. split; [intros K; right; split; [|assumption]; intros [_ K']; now apply E|]. intros [[_ [_ K]]|[_ K]]; [exfalso; now apply E|assumption].
        * destruct (register_rejected (after h) g W) as (e & ->). rewrite IH. split; [intros K; right; split; [|assumption]; intros [K' _]; contradiction|]. intros [[_ [K _]]|[_ K]]; [contradiction|assumption].
      + unfold unregister_function, reg_unregister. cbn [snd]. rewrite mget_mremove. destruct (str_eqb (to_uppercase name) (to_uppercase n)) eqn:E.
        * apply str_eqb_eq in E. split; [discriminate|]. intros [[K _]|[K _]]; [discriminate|]. exfalso. apply K. now symmetry.
        * apply str_eqb_neq in E. rewrite IH. split; [intros K; right; split; [|assumption]; intros K'; now apply E|]. intros [[K _]|[_ K]]; [discriminate|assumption].
  Qed.
  Lemma has_spec : forall h name, has_custom_function (after h) name = true <-> exists f, registered h name f.
  Proof.
    intros h name. unfold has_custom_function, reg_has. rewrite mhas_in, <- mget_in. split; intros (f & H); exists f; now apply after_spec.
  Qed.
  Lemma after_nodup : forall h, NoDup (mkeys (after h)).
  Proof.
    induction h as [|o h IH] using rev_ind; [constructor|]. rewrite after_snoc. destruct o as [g|n]; cbn [after_one].
    - destruct (well_formed_dec g) as [W|W]; [rewrite (register_result _ g W); now apply NoDup_minsert|]. destruct (register_rejected (after h) g W) as (e & ->). assumption.
    - now apply NoDup_mremove.
  Qed.
  Lemma keys_spec : forall h n, In n (mkeys (after h)) <-> exists f, registered h (cf_name f) f /\ n = to_uppercase (cf_name f).
  Proof.
    intros h n. split.
    - intros I. assert (G : exists f, mget n (after h) = Some f /\ n = to_uppercase (cf_name f)).
      { revert I. induction h as [|o h IH] using rev_ind; [contradiction|]. rewrite after_snoc. destruct o as [g|m]; cbn [after_one].
        - destruct (well_formed_dec g) as [W|W]; [|destruct (register_rejected (after h) g W) as (e & ->); exact IH]. rewrite (register_result _ g W), mget_minsert. intros I.
          destruct (str_eqb n (to_uppercase (cf_name g))) eqn:E; [exists g; apply str_eqb_eq in E; now split|]. apply IH. apply mget_in in I as (f & I). rewrite mget_minsert, E in I. apply mget_in. now exists f.
        - unfold unregister_function, reg_unregister. cbn [snd]. rewrite mkeys_mremove, mget_mremove. intros [I Nm]. apply str_eqb_neq in Nm. rewrite Nm. now apply IH. }
      destruct G as (f & G & ->). exists f. split; [|reflexivity]. now apply after_spec.
    - intros (f & R & ->). apply after_spec in R. apply mget_in. now exists f.
  Qed.
  Lemma list_spec : forall h, NoDup (list_custom_functions (after h)) /\
    forall n, In n (list_custom_functions (after h)) <-> exists f, registered h (cf_name f) f /\ n = to_uppercase (cf_name f).
  Proof. intros h. split; [apply after_nodup|apply keys_spec]. Qed.
  Lemma unregister_spec : forall h name, fst (unregister_function (after h) name) = true <-> exists f, registered h name f.
  Proof. intros h name. apply has_spec. Qed.
  Lemma register_spec : forall h f, (exists r, register_function (after h) f = Ok r) <-> well_formed f.
  Proof.
    intros h f. split; [|intros W; eexists; now apply register_result]. intros (r & E). destruct (well_formed_dec f) as [W|W]; [assumption|]. destruct (register_rejected (after h) f W) as (e & K). congruence.
  Qed.

  (** ** Execution *)
  Lemma execute_spec : forall r name f args, reg_get r name = Some f -> accepts f (length args) -> reg_execute r name args = cf_exec f args.
  Proof.
    intros r name f args G [A B]. unfold reg_execute. rewrite G. cbv zeta. replace (N.of_nat (length args) <? cf_min f) with false by (symmetry; apply N.ltb_ge; lia).
    destruct (cf_max f) as [m|]; [|reflexivity]. specialize (B m eq_refl). now replace (m <? N.of_nat (length args)) with false by (symmetry; apply N.ltb_ge; lia).
  Qed.
  Lemma execute_refused : forall r name f args, reg_get r name = Some f -> ~ accepts f (length args) -> exists e, reg_execute r name args = Err e.
  Proof.
    intros r name f args G A. unfold reg_execute. rewrite G. cbv zeta. destruct (N.ltb_spec (N.of_nat (length args)) (cf_min f)); [eexists; reflexivity|].
    destruct (cf_max f) as [m|] eqn:M.
    - destruct (N.ltb_spec m (N.of_nat (length args))); [eexists; reflexivity|]. exfalso. apply A. split; [assumption|]. intros k K. rewrite M in K. injection K as <-. assumption.
    - exfalso. apply A. split; [assumption|]. congruence.
  Qed.
  Lemma collect_plain : forall c es vs, evaluate_to c es vs -> collect_args c (args_of es) = Ok vs.
  Proof. intros c es vs H. now apply collect_ok. Qed.
  Lemma custom_eval : forall name es vs vars reg, ~ In name (map lit ["__TERNARY__"; "__CONST_TRUE__"; "__CONST_FALSE__"]%string) ->
    has_custom_function reg name = true -> evaluate_to (custom_ctx vars reg) es vs -> eval (EFunctionCall name es) (custom_ctx vars reg) = reg_execute reg name vs.
  Proof.
    intros name es vs vars reg N Hh He. rewrite eval_call. unfold top_call. cbn [map In] in N.
    assert (I : forall n, lit n <> name -> is name n = false). { intros n K. unfold is. apply str_eqb_neq. congruence. }
    rewrite !I by tauto. unfold custom_hit, custom_ctx. cbn [c_reg]. unfold has_custom_function in Hh. rewrite Hh. fold (custom_ctx vars reg). rewrite (collect_plain _ es vs He). reflexivity.
  Qed.
  Lemma custom_runs : forall h name f es vs vars, ~ In name (map lit ["__TERNARY__"; "__CONST_TRUE__"; "__CONST_FALSE__"]%string) ->
    registered h name f -> evaluate_to (custom_ctx vars (after h)) es vs -> accepts f (length vs) ->
    eval (EFunctionCall name es) (custom_ctx vars (after h)) = cf_exec f vs.
  Proof.
    intros h name f es vs vars N R He A. rewrite (custom_eval name es vs vars (after h) N); [|apply has_spec; now exists f|assumption]. apply execute_spec; [now apply after_spec|assumption].
  Qed.
  Lemma custom_refused : forall h name f es vs vars, ~ In name (map lit ["__TERNARY__"; "__CONST_TRUE__"; "__CONST_FALSE__"]%string) ->
    registered h name f -> evaluate_to (custom_ctx vars (after h)) es vs -> ~ accepts f (length vs) ->
    exists e, eval (EFunctionCall name es) (custom_ctx vars (after h)) = Err e.
  Proof.
    intros h name f es vs vars N R He A. rewrite (custom_eval name es vs vars (after h) N); [|apply has_spec; now exists f|assumption]. apply (execute_refused _ _ f); [now apply after_spec|assumption].
  Qed.
  Lemma executes : forall h name f args, registered h name f -> accepts f (length args) -> reg_execute (after h) name args = cf_exec f args.
  Proof. intros h name f args R. apply execute_spec. now apply after_spec. Qed.
  Lemma refuses : forall h name f args, registered h name f -> ~ accepts f (length args) -> exists e, reg_execute (after h) name args = Err e.
  Proof. intros h name f args R. apply execute_refused. now apply after_spec. Qed.
  Lemma unknown : forall h name args, (forall f, ~ registered h name f) -> exists e, reg_execute (after h) name args = Err e.
  Proof.
    intros h name args H. unfold reg_execute. destruct (reg_get (after h) name) as [f|] eqn:E; [|eexists; reflexivity]. apply after_spec in E. now apply H in E.
  Qed.
End Registry.
