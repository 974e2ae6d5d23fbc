(** Evaluation depends on the variable map only through the variables read. *)
From Coq Require Import String List ZArith NArith Bool Lia.
From Verif Require Import Base Base_proofs F64 Syntax Ext Json Utils Dispatch Registry Methods Core Evaluator Api Spec Value_proofs.
Import ListNotations.

Section Env.
  Context {X : Ext}.
  Variable P : str -> Prop.
  Definition ea (v1 v2 : env) : Prop := forall x, P x -> mget x v1 = mget x v2.
  Definition eo (c1 c2 : option env) : Prop :=
    match c1, c2 with
    | Some v1, Some v2 => ea v1 v2
    | None, None => True
    | _, _ => False
    end.
  Definition ec (c1 c2 : ctx) : Prop := ea (c_vars c1) (c_vars c2) /\ c_reg c1 = c_reg c2.
  Lemma ea_insert : forall k x v1 v2, ea v1 v2 -> ea (minsert k x v1) (minsert k x v2).
  Proof. intros k x v1 v2 H y Hy. rewrite !mget_minsert. destruct (str_eqb y k); auto. Qed.

  Definition respects {C A} (R : C -> C -> Prop) (f : C -> A) : Prop := forall c1 c2, R c1 c2 -> f c1 = f c2.
  Definition arg_ok {C} (R : C -> C -> Prop) (a : arg C) : Prop :=
    respects R (a_eval a) /\ match a_spread a with Some f => respects R f | None => True end.
  Definition marg_ok (a : marg) : Prop := respects eo (m_eval a) /\ respects ea (m_lambda a).

  Ltac use H := match type of H with
    | respects ?R ?f => match goal with |- context [f ?c1] => erewrite (H c1) by eassumption end end.

  (** ** loops *)
  Lemma filter_ok : forall f p items, respects ea f -> respects ea (fun v => filter_loop f p v items).
  Proof.
    intros f p items Hf. induction items as [|it r IH]; intros v1 v2 Hv; simpl; auto.
    pose proof (ea_insert p it v1 v2 Hv) as Hi. rewrite (Hf _ _ Hi). f_equal.
    specialize (IH _ _ Hi). cbv beta in IH. now rewrite IH.
  Qed.
  Lemma map_ok : forall f p items, respects ea f -> respects ea (fun v => map_loop f p v items).
  Proof.
    intros f p items Hf. induction items as [|it r IH]; intros v1 v2 Hv; simpl; auto.
    pose proof (ea_insert p it v1 v2 Hv) as Hi. rewrite (Hf _ _ Hi). f_equal.
    specialize (IH _ _ Hi). cbv beta in IH. now rewrite IH.
  Qed.
  Lemma find_ok : forall f p items, respects ea f -> respects ea (fun v => find_loop f p v items).
  Proof.
    intros f p items Hf. induction items as [|it r IH]; intros v1 v2 Hv; simpl; auto.
    pose proof (ea_insert p it v1 v2 Hv) as Hi. rewrite (Hf _ _ Hi).
    specialize (IH _ _ Hi). cbv beta in IH. now rewrite IH.
  Qed.
  Lemma reduce_ok : forall f p q items acc, respects ea f -> respects ea (fun v => reduce_loop f p q v acc items).
  Proof.
    intros f p q items acc Hf. revert acc. induction items as [|it r IH]; intros acc v1 v2 Hv; simpl; auto.
    pose proof (ea_insert q acc _ _ (ea_insert p it v1 v2 Hv)) as Hi. rewrite (Hf _ _ Hi).
    destruct (f (minsert q acc (minsert p it v2))) as [a|er|w]; simpl; auto.
    apply (IH a _ _ Hi).
  Qed.
  Lemma sumif_ok : forall f items acc, respects ea f -> respects ea (fun v => sumif_loop f v acc items).
  Proof.
    intros f items acc Hf. revert acc. induction items as [|it r IH]; intros acc v1 v2 Hv; cbn [sumif_loop]; auto.
    pose proof (ea_insert (lit "x") it v1 v2 Hv) as Hi. rewrite (Hf _ _ Hi).
    destruct (f (minsert (lit "x") it v2)) as [a|er|w]; cbn [bind]; auto. apply (IH _ _ _ Hi).
  Qed.
  Lemma avgif_ok : forall f items acc n, respects ea f -> respects ea (fun v => avgif_loop f v acc n items).
  Proof.
    intros f items acc n Hf. revert acc n. induction items as [|it r IH]; intros acc n v1 v2 Hv; cbn [avgif_loop]; auto.
    pose proof (ea_insert (lit "x") it v1 v2 Hv) as Hi. rewrite (Hf _ _ Hi).
    destruct (f (minsert (lit "x") it v2)) as [a|er|w]; cbn [bind]; auto.
    destruct (is_true a), (addend it); apply (IH _ _ _ _ Hi).
  Qed.
  Lemma countif_ok : forall f items n, respects ea f -> respects ea (fun v => countif_loop f v n items).
  Proof.
    intros f items n Hf. revert n. induction items as [|it r IH]; intros n v1 v2 Hv; cbn [countif_loop]; auto.
    pose proof (ea_insert (lit "x") it v1 v2 Hv) as Hi. rewrite (Hf _ _ Hi).
    destruct (f (minsert (lit "x") it v2)) as [a|er|w]; cbn [bind]; auto. apply (IH _ _ _ Hi).
  Qed.
  Lemma sumif_with_ok : forall f arr, respects ea f -> respects ea (fun v => sumif_with f v arr).
  Proof.
    intros f arr Hf v1 v2 Hv. unfold sumif_with. destruct arr as [n|items| | | | | |]; cbn [as_array bind]; auto.
    pose proof (sumif_ok f items f_zero Hf _ _ Hv) as E. cbv beta in E. now rewrite E.
  Qed.
  Lemma avgif_with_ok : forall f arr, respects ea f -> respects ea (fun v => avgif_with f v arr).
  Proof.
    intros f arr Hf v1 v2 Hv. unfold avgif_with. destruct arr as [n|items| | | | | |]; cbn [as_array bind]; auto.
    pose proof (avgif_ok f items f_zero 0%Z Hf _ _ Hv) as E. cbv beta in E. now rewrite E.
  Qed.
  Lemma countif_with_ok : forall f arr, respects ea f -> respects ea (fun v => countif_with f v arr).
  Proof.
    intros f arr Hf v1 v2 Hv. unfold countif_with. destruct arr as [n|items| | | | | |]; cbn [as_array bind]; auto.
    pose proof (countif_ok f items 0%Z Hf _ _ Hv) as E. cbv beta in E. now rewrite E.
  Qed.

  (** ** methods *)
  Lemma arg0_ok : forall args m, Forall marg_ok args -> respects eo (fun bv => arg0 args bv m).
  Proof. intros args m H bv1 bv2 Hb. destruct H as [|a r [Ha _] H]; simpl; auto. Qed.
  Lemma eo_base : forall b1 b2, eo b1 b2 -> ea (base_of b1) (base_of b2).
  Proof. intros [v1|] [v2|] H; simpl in *; auto; try contradiction. intros x _. reflexivity. Qed.
  Lemma m_substring_ok : forall s args, Forall marg_ok args -> respects eo (fun bv => m_substring s args bv).
  Proof.
    intros s args H b1 b2 Hb. unfold m_substring, arg0.
    destruct H as [|a0 args [H0 _] H]; simpl; auto. rewrite (H0 _ _ Hb).
    destruct H as [|a1 args [H1 _] H]; simpl; auto. now rewrite (H1 _ _ Hb).
  Qed.
  Ltac branches := repeat match goal with |- (if ?b then _ else _) = (if ?b then _ else _) => destruct b end.
  Lemma string_method_ok : forall name s args, Forall marg_ok args ->
    respects eo (fun bv => exec_string_method name s args bv).
  Proof.
    intros name s args H b1 b2 Hb. unfold exec_string_method. cbv zeta.
    branches; try reflexivity;
      try (rewrite (arg0_ok args _ H _ _ Hb); reflexivity).
    - destruct H as [|a0 args [H0 _] H]; auto. destruct H as [|a1 args [H1 _] H]; auto.
      rewrite (H0 _ _ Hb). rewrite (H1 _ _ Hb). reflexivity.
    - now apply m_substring_ok.
  Qed.
  Lemma array_method_ok : forall name xs args, Forall marg_ok args ->
    respects eo (fun bv => exec_array_method name xs args bv).
  Proof.
    intros name s args H b1 b2 Hb. unfold exec_array_method. cbv zeta.
    branches; try reflexivity;
      try (rewrite (arg0_ok args _ H _ _ Hb); reflexivity);
      destruct H as [|a0 args [H0 _] H]; auto; now rewrite (H0 _ _ Hb).
  Qed.
  Lemma number_method_ok : forall name n args, Forall marg_ok args ->
    respects eo (fun bv => exec_number_method name n args bv).
  Proof.
    intros name n args H b1 b2 Hb. unfold exec_number_method. cbv zeta.
    branches; try reflexivity.
    - destruct H as [|a0 args [H0 _] H]; auto; now rewrite (H0 _ _ Hb).
    - destruct H as [|a0 args [H0 _] H]; auto. destruct H as [|a1 args [H1 _] H]; auto.
      destruct H; auto. rewrite (H0 _ _ Hb). now rewrite (H1 _ _ Hb).
  Qed.
  Lemma json_method_ok : forall name s args, Forall marg_ok args ->
    respects eo (fun bv => exec_json_method name s args bv).
  Proof.
    intros name n args H b1 b2 Hb. unfold exec_json_method. cbv zeta.
    branches; try reflexivity;
      try (rewrite (arg0_ok args _ H _ _ Hb); reflexivity).
    rewrite (arg0_ok args _ H _ _ Hb). 
    destruct H as [|a0 args [H0 _] H]; auto. destruct H as [|a1 args [H1 _] H]; auto.
    now rewrite (H1 _ _ Hb).
  Qed.
  Lemma m_filter_ok : forall xs args, Forall marg_ok args -> respects eo (fun bv => m_filter xs args bv).
  Proof.
    intros xs args H b1 b2 Hb. unfold m_filter. destruct H as [|a0 args [_ H0] H]; auto.
    pose proof (filter_ok _ (lit_param (a0 :: args) 1 "x") xs H0 _ _ (eo_base _ _ Hb)) as E. cbv beta in E. now rewrite E.
  Qed.
  Lemma m_map_ok : forall xs args, Forall marg_ok args -> respects eo (fun bv => m_map xs args bv).
  Proof.
    intros xs args H b1 b2 Hb. unfold m_map. destruct H as [|a0 args [_ H0] H]; auto.
    pose proof (map_ok _ (lit_param (a0 :: args) 1 "x") xs H0 _ _ (eo_base _ _ Hb)) as E. cbv beta in E. now rewrite E.
  Qed.
  Lemma m_find_ok : forall xs args, Forall marg_ok args -> respects eo (fun bv => m_find xs args bv).
  Proof.
    intros xs args H b1 b2 Hb. unfold m_find. destruct H as [|a0 args [_ H0] H]; auto.
    exact (find_ok _ (lit_param (a0 :: args) 1 "x") xs H0 _ _ (eo_base _ _ Hb)).
  Qed.
  Lemma m_reduce_ok : forall xs args, Forall marg_ok args -> respects eo (fun bv => m_reduce xs args bv).
  Proof.
    intros xs args H b1 b2 Hb. unfold m_reduce. destruct H as [|a0 args [_ H0] H]; auto.
    destruct H as [|a1 args [_ H1] H]; auto. rewrite (H1 _ _ (eo_base _ _ Hb)).
    destruct (m_lambda a1 (base_of b2)) as [v|er|w]; simpl; auto.
    exact (reduce_ok _ _ _ xs v H0 _ _ (eo_base _ _ Hb)).
  Qed.
  Lemma method_ok : forall name pred recv args, Forall marg_ok args ->
    respects eo (fun bv => exec_method name pred recv args bv).
  Proof.
    intros name pred recv args H b1 b2 Hb. unfold exec_method. cbv zeta.
    branches; try reflexivity. destruct recv; try reflexivity.
    - now apply number_method_ok.
    - branches.
      + now apply m_filter_ok.
      + now apply m_map_ok.
      + now apply m_find_ok.
      + now apply m_reduce_ok.
      + now apply array_method_ok.
    - now apply string_method_ok.
    - now apply json_method_ok.
  Qed.

  (** ** arguments *)
  Section Args.
    Context {C : Type}.
    Variable R : C -> C -> Prop.
    Lemma collect_args_ok : forall args, Forall (arg_ok R) args -> respects R (fun c => collect_args c args).
    Proof.
      intros args H c1 c2 Hc. induction H as [|a r [Ha Hs] H IH]; auto. cbv beta in *.
      cbn [collect_args]. destruct (a_spread a) as [f|].
      - rewrite (Hs _ _ Hc), IH. reflexivity.
      - rewrite (Ha _ _ Hc), IH. reflexivity.
    Qed.
    Lemma ternary_ok : forall args, Forall (arg_ok R) args -> respects R (fun c => ternary c args).
    Proof.
      intros args H c1 c2 Hc. unfold ternary.
      destruct H as [|a0 args [H0 _] H]; auto. destruct H as [|a1 args [H1 _] H]; auto.
      destruct H as [|a2 args [H2 _] H]; auto. destruct H; auto.
      now rewrite (H0 _ _ Hc), (H1 _ _ Hc), (H2 _ _ Hc).
    Qed.
    Lemma get_param_ok : forall args i d, Forall (arg_ok R) args -> respects R (fun c => get_param c (nth_error args i) d).
    Proof.
      intros args i d H c1 c2 Hc. unfold get_param. destruct (nth_error args i) as [a|] eqn:E; auto.
      apply nth_error_In in E. rewrite Forall_forall in H. destruct (H a E) as [Ha _]. now rewrite (Ha _ _ Hc).
    Qed.
    Lemma two_args_ok : forall args msg (k : C -> value -> arg C -> res value), Forall (arg_ok R) args ->
      (forall a v c1 c2, arg_ok R a -> R c1 c2 -> k c1 v a = k c2 v a) ->
      respects R (fun c => two_args c args msg (k c)).
    Proof.
      intros args msg k H Hk c1 c2 Hc. unfold two_args.
      destruct H as [|a0 args [H0 _] H]; auto. destruct H as [|a1 args H1 H]; auto.
      destruct H; auto. rewrite (H0 _ _ Hc). destruct (a_eval a0 c2) as [v|er|w]; simpl; auto.
    Qed.
  End Args.
  Lemma plain_some : forall a, arg_ok eo a -> respects ea (plain_lambda Some a).
  Proof. intros a [H _] v1 v2 Hv. unfold plain_lambda. now apply H. Qed.
  Lemma lambda_some : forall a, arg_ok eo a -> respects ea (lambda_of Some a).
  Proof. intros a [H _] v1 v2 Hv. unfold lambda_of. destruct (a_spread a); [reflexivity|now apply H]. Qed.

  Lemma core_higher_order_ok : forall name args v1 v2, Forall (arg_ok eo) args -> ea v1 v2 ->
    core_higher_order name v1 args = core_higher_order name v2 args.
  Proof.
    intros name args v1 v2 H Hv. assert (Hs : eo (Some v1) (Some v2)) by exact Hv.
    unfold core_higher_order. branches; try reflexivity.
    - unfold core_filter. destruct args as [|a0 args]; auto. destruct args as [|a1 args]; auto.
      inversion H as [|? ? [H0 _] Hr]; subst. inversion Hr as [|? ? H1 _]; subst.
      rewrite (H0 _ _ Hs). rewrite (get_param_ok eo _ 2%nat "x"%string H _ _ Hs).
      destruct (a_eval a0 (Some v2)); auto. cbn [bind]; destruct (get_param (Some v2) _ _) as [p| |]; auto; cbn [bind].
      destruct (as_array _ _) as [items| |]; auto. cbn [bind].
      pose proof (filter_ok _ p items (lambda_some _ H1) _ _ Hv) as E. cbv beta in E. now rewrite E.
    - unfold core_find. destruct args as [|a0 args]; auto. destruct args as [|a1 args]; auto.
      inversion H as [|? ? [H0 _] Hr]; subst. inversion Hr as [|? ? H1 _]; subst.
      rewrite (H0 _ _ Hs). rewrite (get_param_ok eo _ 2%nat "x"%string H _ _ Hs).
      destruct (a_eval a0 (Some v2)); auto. cbn [bind]; destruct (get_param (Some v2) _ _) as [p| |]; auto; cbn [bind].
      destruct (as_array _ _) as [items| |]; auto. cbn [bind].
      exact (find_ok _ p items (lambda_some _ H1) _ _ Hv).
    - unfold core_map. destruct args as [|a0 args]; auto. destruct args as [|a1 args]; auto.
      inversion H as [|? ? [H0 _] Hr]; subst. inversion Hr as [|? ? H1 _]; subst.
      rewrite (H0 _ _ Hs). rewrite (get_param_ok eo _ 2%nat "x"%string H _ _ Hs).
      destruct (a_eval a0 (Some v2)); auto. cbn [bind]; destruct (get_param (Some v2) _ _) as [p| |]; auto; cbn [bind].
      destruct (as_array _ _) as [items| |]; auto. cbn [bind].
      pose proof (map_ok _ p items (lambda_some _ H1) _ _ Hv) as E. cbv beta in E. now rewrite E.
    - unfold core_reduce. destruct args as [|a0 args]; auto. destruct args as [|a1 args]; auto.
      destruct args as [|a2 args]; auto.
      inversion H as [|? ? [H0 _] Hr]; subst. inversion Hr as [|? ? H1 Hr2]; subst. inversion Hr2 as [|? ? [H2 _] _]; subst.
      rewrite (H0 _ _ Hs), (H2 _ _ Hs). rewrite (get_param_ok eo _ 3%nat "x"%string H _ _ Hs), (get_param_ok eo _ 4%nat "x"%string H _ _ Hs).
      destruct (a_eval a0 (Some v2)); auto. cbn [bind]. destruct (a_eval a2 (Some v2)) as [i| |]; auto. cbn [bind].
      destruct (unwrap_or _ (lit "x")) as [p| |]; auto. cbn [bind]. destruct (unwrap_or _ (lit "acc")) as [q| |]; auto. cbn [bind].
      destruct (as_array _ _) as [items| |]; auto. cbn [bind].
      exact (reduce_ok _ p q items i (lambda_some _ H1) _ _ Hv).
    - exact (two_args_ok eo args _ (fun c arr a => sumif_with (plain_lambda Some a) (base_of c) arr) H
        (fun a v c1 c2 Ha Hc => sumif_with_ok _ v (plain_some a Ha) _ _ (eo_base _ _ Hc)) _ _ Hs).
    - exact (two_args_ok eo args _ (fun c arr a => avgif_with (plain_lambda Some a) (base_of c) arr) H
        (fun a v c1 c2 Ha Hc => avgif_with_ok _ v (plain_some a Ha) _ _ (eo_base _ _ Hc)) _ _ Hs).
    - exact (two_args_ok eo args _ (fun c arr a => countif_with (plain_lambda Some a) (base_of c) arr) H
        (fun a v c1 c2 Ha Hc => countif_with_ok _ v (plain_some a Ha) _ _ (eo_base _ _ Hc)) _ _ Hs).
  Qed.
  Lemma core_call_ok : forall name args, Forall (arg_ok eo) args -> respects eo (fun c => core_call c name args).
  Proof.
    intros name args H c1 c2 Hc. unfold core_call. branches.
    - now apply (ternary_ok eo).
    - destruct c1 as [v1|], c2 as [v2|]; simpl in Hc; try contradiction; auto.
      now apply core_higher_order_ok.
    - pose proof (collect_args_ok eo args H _ _ Hc) as E. cbv beta in E. now rewrite E.
  Qed.
  Lemma custom_higher_order_ok : forall name args, Forall (arg_ok ea) args ->
    respects ea (fun v => custom_higher_order name v args).
  Proof.
    intros name args H v1 v2 Hv. unfold custom_higher_order. branches; try reflexivity.
    - unfold custom_filter. destruct args as [|a0 args]; auto. destruct args as [|a1 args]; auto.
      inversion H as [|? ? [H0 _] Hr]; subst. inversion Hr as [|? ? [H1 _] _]; subst.
      rewrite (H0 _ _ Hv).
      destruct (a_eval a0 v2); auto. cbn [bind].
      destruct (as_array _ _) as [items| |]; auto. cbn [bind].
      pose proof (filter_ok _ (lit "x") items H1 _ _ Hv) as E. cbv beta in E. now rewrite E.
    - unfold custom_find. destruct args as [|a0 args]; auto. destruct args as [|a1 args]; auto.
      inversion H as [|? ? [H0 _] Hr]; subst. inversion Hr as [|? ? [H1 _] _]; subst.
      rewrite (H0 _ _ Hv).
      destruct (a_eval a0 v2); auto. cbn [bind].
      destruct (as_array _ _) as [items| |]; auto. cbn [bind].
      exact (find_ok _ (lit "x") items H1 _ _ Hv).
    - unfold custom_map. destruct args as [|a0 args]; auto. destruct args as [|a1 args]; auto.
      inversion H as [|? ? [H0 _] Hr]; subst. inversion Hr as [|? ? [H1 _] _]; subst.
      rewrite (H0 _ _ Hv).
      destruct (a_eval a0 v2); auto. cbn [bind].
      destruct (as_array _ _) as [items| |]; auto. cbn [bind].
      pose proof (map_ok _ (lit "x") items H1 _ _ Hv) as E. cbv beta in E. now rewrite E.
    - unfold custom_reduce. destruct args as [|a0 args]; auto. destruct args as [|a1 args]; auto.
      destruct args as [|a2 args]; auto.
      inversion H as [|? ? [H0 _] Hr]; subst. inversion Hr as [|? ? [H1 _] Hr2]; subst. inversion Hr2 as [|? ? [H2 _] _]; subst.
      rewrite (H0 _ _ Hv), (H2 _ _ Hv).
      destruct (a_eval a0 v2); auto. cbn [bind]. destruct (a_eval a2 v2) as [i| |]; auto. cbn [bind].
      destruct (as_array _ _) as [items| |]; auto. cbn [bind].
      exact (reduce_ok _ (lit "x") (lit "acc") items i H1 _ _ Hv).
    - exact (two_args_ok ea args _ (fun c arr a => sumif_with (a_eval a) c arr) H
        (fun a v c1 c2 Ha Hc => sumif_with_ok _ v (proj1 Ha) _ _ Hc) _ _ Hv).
    - exact (two_args_ok ea args _ (fun c arr a => avgif_with (a_eval a) c arr) H
        (fun a v c1 c2 Ha Hc => avgif_with_ok _ v (proj1 Ha) _ _ Hc) _ _ Hv).
    - exact (two_args_ok ea args _ (fun c arr a => countif_with (a_eval a) c arr) H
        (fun a v c1 c2 Ha Hc => countif_with_ok _ v (proj1 Ha) _ _ Hc) _ _ Hv).
  Qed.
  Lemma custom_call_ok : forall reg name args, Forall (arg_ok ea) args -> respects ea (fun v => custom_call reg v name args).
  Proof.
    intros reg name args H v1 v2 Hv. unfold custom_call.
    pose proof (collect_args_ok ea args H _ _ Hv) as E. cbv beta in E. rewrite E. branches; try reflexivity.
    - now apply (ternary_ok ea).
    - now apply custom_higher_order_ok.
  Qed.

  Lemma lambda_ctx_ok : forall a, arg_ok ec a -> respects ea (lambda_ctx a).
  Proof. intros a [H _] v1 v2 Hv. apply H. split; auto. Qed.
  Lemma sumif_tail_ok : forall arr a1 sums, arg_ok ec a1 -> respects ec (fun c => sumif_tail c arr a1 sums).
  Proof.
    intros arr a1 sums H c1 c2 Hc. unfold sumif_tail. cbv zeta. rewrite (proj1 H _ _ Hc).
    pose proof (sumif_with_ok _ arr (lambda_ctx_ok _ H) _ _ (proj1 Hc)) as E. cbv beta in E. now rewrite E.
  Qed.
  Lemma top_call_ok : forall name args, Forall (arg_ok ec) args -> respects ec (fun c => top_call c name args).
  Proof.
    intros name args H c1 c2 Hc. pose proof (proj1 Hc) as Hv. unfold top_call.
    pose proof (collect_args_ok ec args H _ _ Hc) as E. cbv beta in E. rewrite E.
    unfold custom_hit. rewrite (proj2 Hc).
    destruct (is name "__TERNARY__"); [now apply (ternary_ok ec)|].
    destruct (is name "__CONST_TRUE__"); auto. destruct (is name "__CONST_FALSE__"); auto.
    destruct (match c_reg c2 with Some reg => _ | None => _ end); auto.
    branches; try reflexivity.
    - unfold top_filter. destruct args as [|a0 args]; auto. destruct args as [|a1 args]; auto.
      inversion H as [|? ? [H0 _] Hr]; subst. inversion Hr as [|? ? H1 _]; subst.
      rewrite (H0 _ _ Hc). rewrite (get_param_ok ec _ 2%nat "x"%string H _ _ Hc).
      destruct (a_eval a0 c2); auto. cbn [bind]; destruct (get_param c2 _ _) as [p| |]; auto; cbn [bind].
      destruct (as_array _ _) as [items| |]; auto. cbn [bind].
      pose proof (filter_ok _ p items (lambda_ctx_ok _ H1) _ _ Hv) as F. cbv beta in F. now rewrite F.
    - unfold top_find. destruct args as [|a0 args]; auto. destruct args as [|a1 args]; auto.
      inversion H as [|? ? [H0 _] Hr]; subst. inversion Hr as [|? ? H1 _]; subst.
      rewrite (H0 _ _ Hc). rewrite (get_param_ok ec _ 2%nat "x"%string H _ _ Hc).
      destruct (a_eval a0 c2); auto. cbn [bind]; destruct (get_param c2 _ _) as [p| |]; auto; cbn [bind].
      destruct (as_array _ _) as [items| |]; auto. cbn [bind].
      exact (find_ok _ p items (lambda_ctx_ok _ H1) _ _ Hv).
    - unfold top_map. destruct args as [|a0 args]; auto. destruct args as [|a1 args]; auto.
      inversion H as [|? ? [H0 _] Hr]; subst. inversion Hr as [|? ? H1 _]; subst.
      rewrite (H0 _ _ Hc). rewrite (get_param_ok ec _ 2%nat "x"%string H _ _ Hc).
      destruct (a_eval a0 c2); auto. cbn [bind]; destruct (get_param c2 _ _) as [p| |]; auto; cbn [bind].
      destruct (as_array _ _) as [items| |]; auto. cbn [bind].
      pose proof (map_ok _ p items (lambda_ctx_ok _ H1) _ _ Hv) as F. cbv beta in F. now rewrite F.
    - unfold top_reduce. destruct args as [|a0 args]; auto. destruct args as [|a1 args]; auto.
      destruct args as [|a2 args]; auto.
      inversion H as [|? ? [H0 _] Hr]; subst. inversion Hr as [|? ? H1 Hr2]; subst. inversion Hr2 as [|? ? [H2 _] _]; subst.
      rewrite (H0 _ _ Hc), (H2 _ _ Hc). rewrite (get_param_ok ec _ 3%nat "x"%string H _ _ Hc), (get_param_ok ec _ 4%nat "acc"%string H _ _ Hc).
      destruct (a_eval a0 c2); auto. cbn [bind]. destruct (a_eval a2 c2) as [i| |]; auto. cbn [bind].
      destruct (get_param c2 _ "x") as [p| |]; auto. cbn [bind]. destruct (get_param c2 _ "acc") as [q| |]; auto. cbn [bind].
      destruct (as_array _ _) as [items| |]; auto. cbn [bind].
      exact (reduce_ok _ p q items i (lambda_ctx_ok _ H1) _ _ Hv).
    - unfold top_sumif. destruct args as [|a0 args]; auto. destruct args as [|a1 args]; auto.
      inversion H as [|? ? [H0 _] Hr]; subst. inversion Hr as [|? ? H1 Hr2]; subst.
      destruct args as [|a2 args].
      + rewrite (H0 _ _ Hc). destruct (a_eval a0 c2) as [arr| |]; auto. cbn [bind]. exact (sumif_tail_ok arr a1 None H1 _ _ Hc).
      + destruct args; auto. inversion Hr2 as [|? ? [H2 _] _]; subst.
        rewrite (H0 _ _ Hc), (H2 _ _ Hc). destruct (a_eval a0 c2) as [arr| |]; auto. cbn [bind].
        destruct (a_eval a2 c2) as [sums| |]; auto. cbn [bind]. exact (sumif_tail_ok arr a1 (Some sums) H1 _ _ Hc).
    - exact (two_args_ok ec args _ (fun c arr a => avgif_with (lambda_ctx a) (c_vars c) arr) H
        (fun a v c1 c2 Ha Hc => avgif_with_ok _ v (lambda_ctx_ok a Ha) _ _ (proj1 Hc)) _ _ Hc).
    - exact (two_args_ok ec args _ (fun c arr a => countif_with (lambda_ctx a) (c_vars c) arr) H
        (fun a v c1 c2 Ha Hc => countif_with_ok _ v (lambda_ctx_ok a Ha) _ _ (proj1 Hc)) _ _ Hc).
    - unfold top_jq. destruct H as [|a0 args [H0 _] H]; auto. destruct H as [|a1 args [H1 _] H]; auto.
      destruct H; auto. now rewrite (H0 _ _ Hc), (H1 _ _ Hc).
  Qed.

  (** ** the evaluators *)
  Definition reads (e : expr) : Prop := forall x, In x (variables e) -> P x.
  Definition inner {A} (f : expr -> A) (Q : A -> Prop) (e : expr) : Prop :=
    match e with ESpread i => Q (f i) | _ => True end.

  Lemma reads_list : forall es, (forall x, In x (flat_map variables es) -> P x) -> Forall reads es.
  Proof. intros es H. apply Forall_forall. intros e He x Hx. apply H. apply in_flat_map. eauto. Qed.
  Lemma forall_use : forall (Q : expr -> Prop) es, Forall (fun e => reads e -> Q e) es -> Forall reads es -> Forall Q es.
  Proof. intros Q es H1 H2. induction H1; inversion H2; subst; auto. Qed.
  Lemma mapM_agree : forall A B C (f : A -> C -> res B) c1 c2 es, Forall (fun e => f e c1 = f e c2) es ->
    mapM (fun a => f a c1) es = mapM (fun a => f a c2) es.
  Proof. intros A B C f c1 c2 es H. apply mapM_ext. now apply Forall_forall. Qed.

  Lemma foldM_agree : forall A B (f g : B -> A -> res B) es acc, Forall (fun e => forall b, f b e = g b e) es ->
    foldM f es acc = foldM g es acc.
  Proof.
    intros A B f g es acc H. revert acc. induction H as [|e es He H IH]; intros acc; simpl; auto.
    rewrite He. destruct (g acc e); simpl; auto.
  Qed.
  Lemma build_agree : forall C (f : expr -> C -> res value) c1 c2 kvs, Forall (fun kv => f (snd kv) c1 = f (snd kv) c2) kvs ->
    build_object (map (fun kv : str * expr => (fst kv, f (snd kv) c1)) kvs)
    = build_object (map (fun kv => (fst kv, f (snd kv) c2)) kvs).
  Proof.
    intros C f c1 c2 kvs H. f_equal. apply map_ext_in. intros kv Hk. rewrite Forall_forall in H. now rewrite (H kv Hk).
  Qed.
  Lemma reads_obj : forall kvs, reads (EObjectLiteral kvs) -> Forall (fun kv => reads (snd kv)) kvs.
  Proof. intros kvs H. apply Forall_forall. intros kv Hk x Hx. apply H. simpl. apply in_flat_map. eauto. Qed.

  Lemma args_map_ok : forall C (R : C -> C -> Prop) (f : expr -> C -> res value) es,
    Forall (fun e => respects R (f e) /\ inner f (respects R) e) es ->
    Forall (arg_ok R) (map (fun a => mkArg (f a) (match a with ESpread i => Some (f i) | _ => None end)) es).
  Proof.
    intros C R f es H. induction H as [|e es [He Hi] H IH]; simpl; constructor; auto.
    split; auto. cbn [a_spread]. destruct e; auto.
  Qed.
  Lemma margs_map_ok : forall es, Forall (fun e => respects eo (ev e) /\ inner ev (respects eo) e) es ->
    Forall marg_ok (map (fun a => mkMarg a (ev a) (fun vars => ev a (Some vars))) es).
  Proof.
    intros es H. induction H as [|e es [He Hi] H IH]; simpl; constructor; auto.
    split; auto. intros v1 v2 Hv. cbn [m_lambda]. now apply He.
  Qed.
  Lemma in_l : forall (a b : list str), (forall x, In x (a ++ b) -> P x) -> forall x, In x a -> P x.
  Proof. intros a b H x Hx. apply H. apply in_or_app. now left. Qed.
  Lemma in_r : forall (a b : list str), (forall x, In x (a ++ b) -> P x) -> forall x, In x b -> P x.
  Proof. intros a b H x Hx. apply H. apply in_or_app. now right. Qed.

  Lemma ev_ok : forall e, reads e -> respects eo (ev e) /\ inner ev (respects eo) e.
  Proof.
    induction e using expr_ind'; intros He; (split; [|try exact I]); try (intros c1 c2 Hc; reflexivity).
    all: unfold reads in He; simpl variables in He.
    - (* unary *) intros c1 c2 Hc. cbn [ev]. now rewrite (proj1 (IHe He) _ _ Hc).
    - intros c1 c2 Hc. cbn [ev].
      rewrite (proj1 (IHe1 (in_l _ _ He)) _ _ Hc), (proj1 (IHe2 (in_r _ _ He)) _ _ Hc).
      destruct c1, c2; simpl in Hc; try contradiction; reflexivity.
    - intros c1 c2 Hc. cbn [ev]. destruct c1, c2; simpl in Hc; try contradiction; auto.
      rewrite (Hc x); auto. apply He. now left.
    - intros c1 c2 Hc. cbn [ev]. rewrite (proj1 (IHe He) _ _ Hc).
      destruct c1, c2; simpl in Hc; try contradiction; reflexivity.
    - intros c1 c2 Hc. cbn [ev]. rewrite (proj1 (IHe He) _ _ Hc).
      destruct c1, c2; simpl in Hc; try contradiction; reflexivity.
    - (* safe method *) intros c1 c2 Hc. cbn [ev]. rewrite (proj1 (IHe (in_l _ _ He)) _ _ Hc).
      pose proof (margs_map_ok _ (forall_use _ _ H (reads_list _ (in_r _ _ He)))) as Hm.
      destruct c1 as [v1|], c2 as [v2|]; try contradiction; auto.
      destruct (ev e (Some v2)) as [v| |]; auto. cbn [bind]. destruct v; auto; exact (method_ok _ _ _ _ Hm _ _ Hc).
    - (* call *) intros c1 c2 Hc. cbn [ev].
      exact (core_call_ok n _ (args_map_ok _ eo ev _ (forall_use _ _ H (reads_list _ He))) _ _ Hc).
    - exact (proj1 (IHe He)).
    - intros c1 c2 Hc. cbn [ev]. rewrite (mapM_agree _ _ _ ev c1 c2); auto.
      pose proof (forall_use _ _ H (reads_list _ He)) as F. eapply Forall_impl; [|exact F]. intros a [Ha _]. now apply Ha.
    - intros c1 c2 Hc. cbn [ev]. apply build_agree.
      apply Forall_forall. intros kv Hk. rewrite Forall_forall in H. apply (H kv Hk); auto.
      pose proof (reads_obj kvs He) as F. rewrite Forall_forall in F. now apply F.
    - intros c1 c2 Hc. cbn [ev]. rewrite (proj1 (IHe (in_l _ _ He)) _ _ Hc).
      pose proof (margs_map_ok _ (forall_use _ _ H (reads_list _ (in_r _ _ He)))) as Hm.
      destruct (ev e c2) as [v| |]; auto. cbn [bind]. exact (method_ok _ _ _ _ Hm _ _ Hc).
    - intros c1 c2 Hc. cbn [ev].
      rewrite (proj1 (IHe1 (in_l _ _ He)) _ _ Hc), (proj1 (IHe2 (in_r _ _ He)) _ _ Hc).
      destruct c1, c2; simpl in Hc; try contradiction; reflexivity.
    - intros c1 c2 Hc. cbn [ev]. rewrite (proj1 (IHe (in_l _ _ He)) _ _ Hc). pose proof (in_r _ _ He) as He2.
      assert (E1 : match s with Some x => Some (ev x c1) | None => None end = match s with Some x => Some (ev x c2) | None => None end).
      { destruct s as [x|]; auto. f_equal. apply (H x eq_refl (in_l _ _ He2)); auto. }
      assert (E2 : match t with Some x => Some (ev x c1) | None => None end = match t with Some x => Some (ev x c2) | None => None end).
      { destruct t as [x|]; auto. f_equal. apply (H0 x eq_refl (in_r _ _ He2)); auto. }
      rewrite E1, E2. destruct c1, c2; simpl in Hc; try contradiction; reflexivity.
    - intros c1 c2 Hc. cbn [ev]. now rewrite (proj1 (IHe He) _ _ Hc).
    - intros c1 c2 Hc. cbn [ev]. rewrite (proj1 (IHe He) _ _ Hc).
      destruct c1, c2; simpl in Hc; try contradiction; reflexivity.
    - intros c1 c2 Hc. cbn [ev].
      rewrite (foldM_agree _ _ (fun _ x => ev x c1) (fun _ x => ev x c2)).
      + destruct c1, c2; simpl in Hc; try contradiction; reflexivity.
      + pose proof (forall_use _ _ H (reads_list _ He)) as F. eapply Forall_impl; [|exact F]. intros a [Ha _] _. now apply Ha.
  Qed.

  Lemma margs_custom_ok : forall reg es, Forall reads es -> Forall (fun e => respects ea (ev_custom reg e) /\ inner (ev_custom reg) (respects ea) e) es ->
    Forall marg_ok (map (fun a => mkMarg a (ev a) (ev_custom reg a)) es).
  Proof.
    intros reg es Hr H. induction H as [|e es [He Hi] H IH]; simpl; inversion Hr; subst; constructor; auto.
    split; auto. exact (proj1 (ev_ok e ltac:(assumption))).
  Qed.
  Lemma ea_some : forall v1 v2, ea v1 v2 -> eo (Some v1) (Some v2).
  Proof. auto. Qed.
  Lemma ev_custom_ok : forall reg e, reads e -> respects ea (ev_custom reg e) /\ inner (ev_custom reg) (respects ea) e.
  Proof.
    intros reg. induction e using expr_ind'; intros He; (split; [|try exact I]); try (intros c1 c2 Hc; reflexivity).
    all: unfold reads in He; simpl variables in He.
    - (* unary *) intros c1 c2 Hc. cbn [ev_custom]. now rewrite (proj1 (IHe He) _ _ Hc).
    - intros c1 c2 Hc. cbn [ev_custom].
      now rewrite (proj1 (IHe1 (in_l _ _ He)) _ _ Hc), (proj1 (IHe2 (in_r _ _ He)) _ _ Hc).
    - intros c1 c2 Hc. cbn [ev_custom]. rewrite (Hc x); auto. apply He. now left.
    - intros c1 c2 Hc. cbn [ev_custom]. now rewrite (proj1 (IHe He) _ _ Hc).
    - intros c1 c2 Hc. cbn [ev_custom]. now rewrite (proj1 (IHe He) _ _ Hc).
    - (* safe method *) intros c1 c2 Hc. cbn [ev_custom]. rewrite (proj1 (IHe (in_l _ _ He)) _ _ Hc).
      pose proof (reads_list _ (in_r _ _ He)) as Hrd.
      pose proof (margs_custom_ok reg _ Hrd (forall_use _ _ H Hrd)) as Hm.
      destruct (ev_custom reg e c2) as [v| |]; auto. cbn [bind].
      destruct v; auto; exact (method_ok _ _ _ _ Hm _ _ (ea_some _ _ Hc)).
    - (* call *) intros c1 c2 Hc. cbn [ev_custom].
      exact (custom_call_ok reg n _ (args_map_ok _ ea (ev_custom reg) _ (forall_use _ _ H (reads_list _ He))) _ _ Hc).
    - exact (proj1 (IHe He)).
    - intros c1 c2 Hc. cbn [ev_custom]. rewrite (mapM_agree _ _ _ (ev_custom reg) c1 c2); auto.
      pose proof (forall_use _ _ H (reads_list _ He)) as F. eapply Forall_impl; [|exact F]. intros a [Ha _]. now apply Ha.
    - intros c1 c2 Hc. cbn [ev_custom]. apply build_agree.
      apply Forall_forall. intros kv Hk. rewrite Forall_forall in H. apply (H kv Hk); auto.
      pose proof (reads_obj kvs He) as F. rewrite Forall_forall in F. now apply F.
    - intros c1 c2 Hc. cbn [ev_custom]. rewrite (proj1 (IHe (in_l _ _ He)) _ _ Hc).
      pose proof (reads_list _ (in_r _ _ He)) as Hrd.
      pose proof (margs_custom_ok reg _ Hrd (forall_use _ _ H Hrd)) as Hm.
      destruct (ev_custom reg e c2) as [v| |]; auto. cbn [bind]. exact (method_ok _ _ _ _ Hm _ _ (ea_some _ _ Hc)).
    - intros c1 c2 Hc. cbn [ev_custom].
      now rewrite (proj1 (IHe1 (in_l _ _ He)) _ _ Hc), (proj1 (IHe2 (in_r _ _ He)) _ _ Hc).
    - intros c1 c2 Hc. cbn [ev_custom]. rewrite (proj1 (IHe (in_l _ _ He)) _ _ Hc). pose proof (in_r _ _ He) as He2.
      assert (E1 : match s with Some x => Some (ev_custom reg x c1) | None => None end = match s with Some x => Some (ev_custom reg x c2) | None => None end).
      { destruct s as [x|]; auto. f_equal. apply (H x eq_refl (in_l _ _ He2)); auto. }
      assert (E2 : match t with Some x => Some (ev_custom reg x c1) | None => None end = match t with Some x => Some (ev_custom reg x c2) | None => None end).
      { destruct t as [x|]; auto. f_equal. apply (H0 x eq_refl (in_r _ _ He2)); auto. }
      now rewrite E1, E2.
    - intros c1 c2 Hc. cbn [ev_custom]. now rewrite (proj1 (IHe He) _ _ Hc).
    - intros c1 c2 Hc. cbn [ev_custom]. now rewrite (proj1 (IHe He) _ _ Hc).
    - intros c1 c2 Hc. cbn [ev_custom].
      apply (foldM_agree _ _ (fun _ x => ev_custom reg x c1) (fun _ x => ev_custom reg x c2)).
      pose proof (forall_use _ _ H (reads_list _ He)) as F. eapply Forall_impl; [|exact F]. intros a [Ha _] _. now apply Ha.
  Qed.

  Lemma margs_of_ok : forall c es, Forall reads es -> Forall marg_ok (margs_of c es).
  Proof.
    intros c es H. unfold margs_of. induction H as [|e es He H IH]; simpl; constructor; auto.
    destruct (ev_ok e He) as [E _]. split; auto. cbn [m_lambda].
    destruct (c_reg c) as [reg|]; [exact (proj1 (ev_custom_ok reg e He))|]. intros v1 v2 Hv. now apply E.
  Qed.
  Lemma margs_of_same : forall c1 c2 es, ec c1 c2 -> margs_of c1 es = margs_of c2 es.
  Proof. intros c1 c2 es [_ H]. unfold margs_of. now rewrite H. Qed.
  Lemma eval_ok : forall e, reads e -> respects ec (eval e) /\ inner eval (respects ec) e.
  Proof.
    induction e using expr_ind'; intros He; (split; [|try exact I]); try (intros c1 c2 Hc; reflexivity).
    all: unfold reads in He; simpl variables in He.
    - (* unary *) intros c1 c2 Hc. cbn [eval]. now rewrite (proj1 (IHe He) _ _ Hc).
    - intros c1 c2 Hc. cbn [eval].
      now rewrite (proj1 (IHe1 (in_l _ _ He)) _ _ Hc), (proj1 (IHe2 (in_r _ _ He)) _ _ Hc).
    - intros c1 c2 Hc. cbn [eval]. rewrite (proj1 Hc x); auto. apply He. now left.
    - intros c1 c2 Hc. cbn [eval]. now rewrite (proj1 (IHe He) _ _ Hc).
    - intros c1 c2 Hc. cbn [eval]. now rewrite (proj1 (IHe He) _ _ Hc).
    - (* safe method *) intros c1 c2 Hc. cbn [eval]. rewrite (proj1 (IHe (in_l _ _ He)) _ _ Hc).
      rewrite (margs_of_same _ _ _ Hc).
      pose proof (margs_of_ok c2 _ (reads_list _ (in_r _ _ He))) as Hm.
      destruct (eval e c2) as [v| |]; auto. cbn [bind].
      destruct v; auto; exact (method_ok _ _ _ _ Hm _ _ (ea_some _ _ (proj1 Hc))).
    - (* call *) intros c1 c2 Hc. cbn [eval].
      exact (top_call_ok n _ (args_map_ok _ ec eval _ (forall_use _ _ H (reads_list _ He))) _ _ Hc).
    - exact (proj1 (IHe He)).
    - intros c1 c2 Hc. cbn [eval]. rewrite (mapM_agree _ _ _ eval c1 c2); auto.
      pose proof (forall_use _ _ H (reads_list _ He)) as F. eapply Forall_impl; [|exact F]. intros a [Ha _]. now apply Ha.
    - intros c1 c2 Hc. cbn [eval]. apply build_agree.
      apply Forall_forall. intros kv Hk. rewrite Forall_forall in H. apply (H kv Hk); auto.
      pose proof (reads_obj kvs He) as F. rewrite Forall_forall in F. now apply F.
    - intros c1 c2 Hc. cbn [eval]. rewrite (proj1 (IHe (in_l _ _ He)) _ _ Hc).
      rewrite (margs_of_same _ _ _ Hc).
      pose proof (margs_of_ok c2 _ (reads_list _ (in_r _ _ He))) as Hm.
      destruct (eval e c2) as [v| |]; auto. cbn [bind]. exact (method_ok _ _ _ _ Hm _ _ (ea_some _ _ (proj1 Hc))).
    - intros c1 c2 Hc. cbn [eval].
      now rewrite (proj1 (IHe1 (in_l _ _ He)) _ _ Hc), (proj1 (IHe2 (in_r _ _ He)) _ _ Hc).
    - intros c1 c2 Hc. cbn [eval]. rewrite (proj1 (IHe (in_l _ _ He)) _ _ Hc). pose proof (in_r _ _ He) as He2.
      assert (E1 : match s with Some x => Some (eval x c1) | None => None end = match s with Some x => Some (eval x c2) | None => None end).
      { destruct s as [x|]; auto. f_equal. apply (H x eq_refl (in_l _ _ He2)); auto. }
      assert (E2 : match t with Some x => Some (eval x c1) | None => None end = match t with Some x => Some (eval x c2) | None => None end).
      { destruct t as [x|]; auto. f_equal. apply (H0 x eq_refl (in_r _ _ He2)); auto. }
      now rewrite E1, E2.
    - intros c1 c2 Hc. cbn [eval]. now rewrite (proj1 (IHe He) _ _ Hc).
    - intros c1 c2 Hc. cbn [eval]. now rewrite (proj1 (IHe He) _ _ Hc).
    - intros c1 c2 Hc. cbn [eval].
      apply (foldM_agree _ _ (fun _ x => eval x c1) (fun _ x => eval x c2)).
      pose proof (forall_use _ _ H (reads_list _ He)) as F. eapply Forall_impl; [|exact F]. intros a [Ha _] _. now apply Ha.
  Qed.

  Definition er (r1 r2 : res (value * env)) : Prop :=
    match r1, r2 with
    | Ok (a, v1), Ok (b, v2) => a = b /\ ea v1 v2
    | Err a, Err b => a = b
    | Panic a, Panic b => a = b
    | _, _ => False
    end.
  Lemma eval_assign_ok : forall e, reads e -> forall v1 v2, ea v1 v2 -> er (eval_assign e v1) (eval_assign e v2).
  Proof.
    assert (D : forall e, reads e -> forall v1 v2, ea v1 v2 ->
      er (v <- eval e (vars_ctx v1) ;; Ok (v, v1)) (v <- eval e (vars_ctx v2) ;; Ok (v, v2))).
    { intros e He v1 v2 Hv. rewrite (proj1 (eval_ok e He) (vars_ctx v1) (vars_ctx v2)) by (split; auto).
      destruct (eval e (vars_ctx v2)); simpl; auto. }
    induction e using expr_ind'; intros He v1 v2 Hv; cbn [eval_assign]; try (exact (D _ He _ _ Hv)).
    - rewrite (proj1 (eval_ok e He) (vars_ctx v1) (vars_ctx v2)) by (split; auto).
      destruct (eval e (vars_ctx v2)); simpl; auto. split; auto. now apply ea_insert.
    - pose proof (forall_use _ _ H (reads_list _ He)) as F. clear H He. generalize VNull as a.
      revert v1 v2 Hv. induction F as [|e es He F IH]; intros v1 v2 Hv a; simpl; auto.
      specialize (He v1 v2 Hv). destruct (eval_assign e v1) as [[a1 w1]|x|x], (eval_assign e v2) as [[a2 w2]|y|y];
        simpl in *; try contradiction; auto. destruct He as [-> Hw]. now apply IH.
  Qed.
End Env.
