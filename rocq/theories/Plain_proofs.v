(** A registry none of whose functions is called does not change evaluation. *)
From Coq Require Import String List ZArith NArith Bool Lia.
From Verif Require Import Base F64 Syntax Ext Json Utils Dispatch Registry Methods Core Evaluator Parser Api Spec Spec_registry Base_proofs Value_proofs Logic_proofs Env_proofs Registry_proofs.
Import ListNotations.
Local Open Scope N_scope.

Section Plain.
  Context {X : Ext}.

  (** ** Congruences of agreement *)
  Lemma agree_bind : forall A B (r1 r2 : res A) (k1 k2 : A -> res B), agree r1 r2 -> (forall a, agree (k1 a) (k2 a)) -> agree (bind r1 k1) (bind r2 k2).
  Proof. intros A B [a|e|w] [b|e'|w'] k1 k2 H K; cbn in *; try contradiction; auto. now subst. Qed.
  Lemma agree_same : forall A B (r : res A) (k1 k2 : A -> res B), (forall a, agree (k1 a) (k2 a)) -> agree (bind r k1) (bind r k2).
  Proof. intros. apply agree_bind; [apply agree_refl|assumption]. Qed.
  Lemma agree_err : forall A (e1 e2 : error), agree (@Err A e1) (Err e2).
  Proof. exact (fun _ _ _ => I). Qed.
  Ltac same := apply agree_refl.

  Section Loops.
    Variables f g : env -> res value.
    Hypothesis fg : forall v, agree (f v) (g v).
    Lemma filter_cong : forall p items v, agree (filter_loop f p v items) (filter_loop g p v items).
    Proof.
      intros p items. induction items as [|it r IH]; intros v; [same|]. cbn [filter_loop]. apply agree_bind; [apply fg|]. intros a. apply agree_bind; [apply IH|]. intros b. same.
    Qed.
    Lemma map_cong : forall p items v, agree (map_loop f p v items) (map_loop g p v items).
    Proof. intros p items. induction items as [|it r IH]; intros v; [same|]. cbn [map_loop]. apply agree_bind; [apply fg|]. intros a. apply agree_bind; [apply IH|]. intros b. same. Qed.
    Lemma find_cong : forall p items v, agree (find_loop f p v items) (find_loop g p v items).
    Proof. intros p items. induction items as [|it r IH]; intros v; [same|]. cbn [find_loop]. apply agree_bind; [apply fg|]. intros a. destruct (is_true a); [same|apply IH]. Qed.
    Lemma reduce_cong : forall p q items acc v, agree (reduce_loop f p q v acc items) (reduce_loop g p q v acc items).
    Proof. intros p q items. induction items as [|it r IH]; intros acc v; [same|]. cbn [reduce_loop]. apply agree_bind; [apply fg|]. intros a. apply IH. Qed.
    Lemma sumif_cong : forall items acc v, agree (sumif_loop f v acc items) (sumif_loop g v acc items).
    Proof. intros items. induction items as [|it r IH]; intros acc v; [same|]. cbn [sumif_loop]. apply agree_bind; [apply fg|]. intros a. apply IH. Qed.
    Lemma avgif_cong : forall items acc n v, agree (avgif_loop f v acc n items) (avgif_loop g v acc n items).
    Proof. intros items. induction items as [|it r IH]; intros acc n v; [same|]. cbn [avgif_loop]. apply agree_bind; [apply fg|]. intros a. destruct (is_true a), (addend it); apply IH. Qed.
    Lemma countif_cong : forall items n v, agree (countif_loop f v n items) (countif_loop g v n items).
    Proof. intros items. induction items as [|it r IH]; intros n v; [same|]. cbn [countif_loop]. apply agree_bind; [apply fg|]. intros a. apply IH. Qed.
    Lemma sumif_with_cong : forall v arr, agree (sumif_with f v arr) (sumif_with g v arr).
    Proof. intros. apply agree_same. intros items. apply agree_bind; [apply sumif_cong|]. intros. same. Qed.
    Lemma avgif_with_cong : forall v arr, agree (avgif_with f v arr) (avgif_with g v arr).
    Proof. intros. apply agree_same. intros items. apply agree_bind; [apply avgif_cong|]. intros [? ?]. same. Qed.
    Lemma countif_with_cong : forall v arr, agree (countif_with f v arr) (countif_with g v arr).
    Proof. intros. apply agree_same. intros items. apply agree_bind; [apply countif_cong|]. intros. same. Qed.
  End Loops.

  Lemma mapM_cong : forall A B (f g : A -> res B) es, Forall (fun e => agree (f e) (g e)) es -> agree (mapM f es) (mapM g es).
  Proof. intros A B f g es H. induction H as [|e es He H IH]; [same|]. cbn [mapM]. apply agree_bind; [assumption|]. intros a. apply agree_bind; [assumption|]. intros b. same. Qed.
  Lemma foldM_cong : forall A B (f g : B -> A -> res B) es, Forall (fun e => forall b, agree (f b e) (g b e)) es -> forall acc, agree (foldM f es acc) (foldM g es acc).
  Proof. intros A B f g es H. induction H as [|e es He H IH]; intros acc; [same|]. cbn [foldM]. apply agree_bind; [apply He|]. intros a. apply IH. Qed.
  Lemma build_cong : forall (f g : expr -> res value) kvs, Forall (fun kv => agree (f (snd kv)) (g (snd kv))) kvs ->
    agree (build_object (map (fun kv : str * expr => (fst kv, f (snd kv))) kvs)) (build_object (map (fun kv => (fst kv, g (snd kv))) kvs)).
  Proof.
    intros f g kvs H. unfold build_object. apply agree_bind; [|intros; same]. generalize (@nil (str * json)).
    induction H as [|kv kvs Hk H IH]; intros acc; [same|]. cbn [map foldM fst snd]. apply agree_bind; [|intros; apply IH].
    apply agree_bind; [exact Hk|]. intros v. same.
  Qed.

  (** ** Arguments *)
  Definition arel {C D} (c : C) (d : D) (a : arg C) (b : arg D) : Prop :=
    agree (a_eval a c) (a_eval b d) /\
    match a_spread a, a_spread b with Some f, Some g => agree (f c) (g d) | None, None => True | _, _ => False end.
  Lemma collect_cong : forall C D (c : C) (d : D) l1 l2, Forall2 (arel c d) l1 l2 -> agree (collect_args c l1) (collect_args d l2).
  Proof.
    intros C D c d l1 l2 H. induction H as [|a b l1 l2 [E S'] H IH]; [same|]. cbn [collect_args].
    destruct (a_spread a) as [f|], (a_spread b) as [g|]; try contradiction.
    - apply agree_bind; [assumption|]. intros v. destruct v; try apply agree_err. apply agree_bind; [assumption|]. intros. same.
    - apply agree_bind; [assumption|]. intros v. apply agree_bind; [assumption|]. intros. same.
  Qed.
  Lemma ternary_cong : forall C D (c : C) (d : D) l1 l2, Forall2 (arel c d) l1 l2 -> agree (ternary c l1) (ternary d l2).
  Proof.
    intros C D c d l1 l2 H. unfold ternary. destruct H as [|a0 b0 l1 l2 [H0 _] H]; [apply agree_err|]. destruct H as [|a1 b1 l1 l2 [H1 _] H]; [apply agree_err|].
    destruct H as [|a2 b2 l1 l2 [H2 _] H]; [apply agree_err|]. destruct H; [|apply agree_err].
    apply agree_bind; [assumption|]. intros v. apply agree_same. intros b. destruct b; assumption.
  Qed.
  Lemma two_cong : forall C D (c : C) (d : D) l1 l2 m k1 k2, Forall2 (arel c d) l1 l2 -> (forall v a b, In a l1 -> In b l2 -> In (a, b) (combine l1 l2) -> agree (k1 v a) (k2 v b)) ->
    agree (two_args c l1 m k1) (two_args d l2 m k2).
  Proof.
    intros C D c d l1 l2 m k1 k2 H K. unfold two_args. destruct H as [|a0 b0 l1 l2 [H0 _] H]; [apply agree_err|]. destruct H as [|a1 b1 l1 l2 [H1 _] H]; [apply agree_err|].
    destruct H; [|apply agree_err]. apply agree_bind; [assumption|]. intros v. apply K; cbn; auto.
  Qed.

  (** ** Methods: only the four lambda methods use the lambda evaluator *)
  Definition mrel (a b : marg) : Prop := m_expr a = m_expr b /\ m_eval a = m_eval b /\ (forall vars, agree (m_lambda a vars) (m_lambda b vars)).
  Lemma lit_param_rel : forall l1 l2 i d, Forall2 mrel l1 l2 -> lit_param l1 i d = lit_param l2 i d.
  Proof.
    intros l1 l2 i d H. unfold lit_param. revert i. induction H as [|a b l1 l2 [E _] H IH]; intros [|i]; cbn; auto. now rewrite E.
  Qed.
  (** lists of arguments without their lambda evaluators *)
  Definition blind (a : marg) : marg := mkMarg (m_expr a) (m_eval a) (fun _ => Ok VNull).
  Lemma blind_rel : forall l1 l2, Forall2 mrel l1 l2 -> map blind l1 = map blind l2.
  Proof. intros l1 l2 H. induction H as [|a b l1 l2 (E & F & _) H IH]; cbn; [reflexivity|]. unfold blind at 1 3. now rewrite E, F, IH. Qed.
  Lemma arg0_blind : forall l bv m, arg0 (map blind l) bv m = arg0 l bv m.
  Proof. now intros [|a l] bv m. Qed.
  Lemma string_blind : forall name s l bv, exec_string_method name s (map blind l) bv = exec_string_method name s l bv.
  Proof.
    intros name s l bv. unfold exec_string_method. cbv zeta. rewrite ?arg0_blind. unfold m_substring. rewrite ?arg0_blind. destruct l as [|a [|b [|c l]]]; reflexivity.
  Qed.
  Lemma array_blind : forall name xs l bv, exec_array_method name xs (map blind l) bv = exec_array_method name xs l bv.
  Proof. intros name s l bv. unfold exec_array_method. cbv zeta. destruct l as [|a [|b [|c l]]]; reflexivity. Qed.
  Lemma number_blind : forall name n l bv, exec_number_method name n (map blind l) bv = exec_number_method name n l bv.
  Proof. intros name s l bv. unfold exec_number_method. cbv zeta. destruct l as [|a [|b [|c l]]]; reflexivity. Qed.
  Lemma json_blind : forall name n l bv, exec_json_method name n (map blind l) bv = exec_json_method name n l bv.
  Proof. intros name s l bv. unfold exec_json_method. cbv zeta. destruct l as [|a [|b [|c l]]]; reflexivity. Qed.
  Lemma method_cong : forall name p v l1 l2 bv, Forall2 mrel l1 l2 -> agree (exec_method name p v l1 bv) (exec_method name p v l2 bv).
  Proof.
    intros name p v l1 l2 bv H. pose proof (blind_rel l1 l2 H) as B. unfold exec_method. destruct p; [same|]. cbv zeta. destruct (one_of conversion_names (to_lowercase name)); [same|].
    destruct v as [n|xs|b|s| |cu|d|js]; [| |exact I| |exact I|exact I|exact I|].
    - rewrite <- (number_blind name n l1), <- (number_blind name n l2), B. same.
    - destruct (is _ "filter"); [|destruct (is _ "map"); [|destruct (is _ "find"); [|destruct (is _ "reduce")]]].
      + unfold m_filter. rewrite (lit_param_rel l1 l2 1 "x" H). destruct H as [|a b l1 l2 (_ & _ & L) H]; [apply agree_err|]. apply agree_bind; [now apply filter_cong|]. intros. same.
      + unfold m_map. rewrite (lit_param_rel l1 l2 1 "x" H). destruct H as [|a b l1 l2 (_ & _ & L) H]; [apply agree_err|]. apply agree_bind; [now apply map_cong|]. intros. same.
      + unfold m_find. rewrite (lit_param_rel l1 l2 1 "x" H). destruct H as [|a b l1 l2 (_ & _ & L) H]; [apply agree_err|]. now apply find_cong.
      + unfold m_reduce. rewrite (lit_param_rel l1 l2 2 "x" H), (lit_param_rel l1 l2 3 "acc" H). destruct H as [|a b l1 l2 (_ & _ & L) H]; [apply agree_err|].
        destruct H as [|a1 b1 l1 l2 (_ & _ & L1) H]; [apply agree_err|]. apply agree_bind; [apply L1|]. intros init. now apply reduce_cong.
      + rewrite <- (array_blind name xs l1), <- (array_blind name xs l2), B. same.
    - rewrite <- (string_blind name s l1), <- (string_blind name s l2), B. same.
    - rewrite <- (json_blind name js l1), <- (json_blind name js l2), B. same.
  Qed.
  (** ** The evaluators of method arguments *)
  Definition unregistered (reg : registry) (e : expr) : bool := match e with EFunctionCall n _ => negb (has_custom_function reg n) | _ => true end.
  Definition both (reg : registry) (e : expr) : Prop := everywhere simple_part e = true /\ everywhere (unregistered reg) e = true.
  Lemma everywhere_head : forall p e, everywhere p e = true -> p e = true.
  Proof. intros p e H. destruct e; cbn [everywhere] in H; now apply andb_true_iff in H as [H _]. Qed.
  Lemma both_list : forall reg es, forallb (everywhere simple_part) es = true -> forallb (everywhere (unregistered reg)) es = true -> Forall (both reg) es.
  Proof. intros reg es H K. apply Forall_forall. intros e I. rewrite forallb_forall in H, K. split; auto. Qed.
  Lemma forall_mp : forall A (P Q : A -> Prop) es, Forall (fun e => P e -> Q e) es -> Forall P es -> Forall Q es.
  Proof. intros A P Q es H K. induction H; inversion K; subst; constructor; auto. Qed.
  Definition inner_agrees (reg : registry) (e : expr) : Prop :=
    match e with ESpread i => forall vars, agree (ev_custom reg i vars) (ev i (Some vars)) | _ => True end.
  Definition agrees (reg : registry) (e : expr) : Prop := (forall vars, agree (ev_custom reg e vars) (ev e (Some vars))) /\ inner_agrees reg e.
  Lemma args_agree : forall reg es vars, Forall (agrees reg) es ->
    Forall2 (arel vars (Some vars)) (map (fun a => mkArg (ev_custom reg a) (match a with ESpread i => Some (ev_custom reg i) | _ => None end)) es)
      (map (fun a => mkArg (ev a) (match a with ESpread i => Some (ev i) | _ => None end)) es).
  Proof.
    intros reg es vars H. induction H as [|e es [E I] H IH]; cbn [map]; constructor; auto. split; cbn [a_eval a_spread]; [apply E|]. destruct e; cbn in *; auto.
  Qed.
  Lemma margs_agree : forall reg es, Forall (agrees reg) es ->
    Forall2 mrel (map (fun a => mkMarg a (ev a) (ev_custom reg a)) es) (map (fun a => mkMarg a (ev a) (fun vars => ev a (Some vars))) es).
  Proof. intros reg es H. induction H as [|e es [E I] H IH]; cbn [map]; constructor; auto. split; [reflexivity|]. split; [reflexivity|]. exact E. Qed.
  Lemma property_cong : forall e1 e2 v p b, agree (property e1 v p b) (property e2 v p b).
  Proof. intros e1 e2 v p b. destruct v as [n|xs|bo|s| |cu|d|js]; [exact I|exact I|exact I|exact I|destruct b; [reflexivity|exact I]|exact I|exact I|]. unfold property. same. Qed.
  Lemma in_combine_map : forall A B C (f : A -> B) (g : A -> C) l x y, In (x, y) (combine (map f l) (map g l)) -> exists a, In a l /\ x = f a /\ y = g a.
  Proof.
    induction l as [|a l IH]; intros x y; cbn; [contradiction|]. intros [E|I]; [injection E as <- <-; exists a; auto|]. destruct (IH x y I) as (b & Hb & ? & ?). exists b. auto.
  Qed.
  Lemma core_calls_agree : forall reg name es vars, has_custom_function reg name = false -> one_of ["FILTER"; "FIND"; "MAP"; "REDUCE"]%string name = false -> Forall (agrees reg) es ->
    agree (custom_call reg vars name (map (fun a => mkArg (ev_custom reg a) (match a with ESpread i => Some (ev_custom reg i) | _ => None end)) es))
      (core_call (Some vars) name (map (fun a => mkArg (ev a) (match a with ESpread i => Some (ev i) | _ => None end)) es)).
  Proof.
    intros reg name es vars U L H. pose proof (args_agree reg es vars H) as Ha. unfold custom_call, core_call. destruct (is name "__TERNARY__"); [now apply ternary_cong|].
    unfold has_custom_function in U. rewrite U. destruct (one_of higher_order_names name); [|apply agree_bind; [now apply collect_cong|intros; same]].
    unfold custom_higher_order, core_higher_order. cbn [one_of existsb] in L. apply orb_false_iff in L as [-> L]. apply orb_false_iff in L as [-> L]. apply orb_false_iff in L as [-> L]. apply orb_false_iff in L as [-> _].
    rewrite Forall_forall in H.
    destruct (is name "SUMIF"); [|destruct (is name "AVGIF"); [|destruct (is name "COUNTIF"); [|apply agree_err]]]; (apply two_cong; [exact Ha|]; intros v a b _ _ I; apply in_combine_map in I as (e & I & -> & ->); cbn [a_eval]).
    - apply sumif_with_cong. intros u. exact (proj1 (H e I) u).
    - apply avgif_with_cong. intros u. exact (proj1 (H e I) u).
    - apply countif_with_cong. intros u. exact (proj1 (H e I) u).
  Qed.
  Ltac parts H := repeat match type of H with (_ && _)%bool = true => let H1 := fresh H in apply andb_true_iff in H as [H1 H] end.
  Lemma lambda_agree : forall reg e, both reg e -> agrees reg e.
  Proof.
    intros reg. induction e using expr_ind'; intros [S1 S2]; (split; [intros vars|try exact I]); cbn [ev_custom ev]; try same.
    all: cbn [everywhere] in S1, S2; apply andb_true_iff in S1 as [P1 S1]; apply andb_true_iff in S2 as [P2 S2].
    - apply agree_bind; [now apply IHe|intros; same].
    - apply andb_true_iff in S1 as [? ?], S2 as [? ?]. apply agree_bind; [now apply IHe1|intros]. apply agree_bind; [now apply IHe2|intros; same].
    - destruct (mget x vars); [same|apply agree_err].
    - apply agree_bind; [now apply IHe|intros; apply property_cong].
    - apply agree_bind; [now apply IHe|intros; apply property_cong].
    - apply andb_true_iff in S1 as [? ?], S2 as [? ?]. apply agree_bind; [now apply IHe|intros v]. assert (Fa : Forall (agrees reg) args) by (eapply forall_mp; [exact H|now apply both_list]).
      destruct v as [n0|xs|bo|s0| |cu|d|js]; try (apply method_cong; now apply margs_agree). same.
    - cbn [unregistered] in P2. cbn [simple_part] in P1. apply negb_true_iff in P1, P2. apply core_calls_agree; auto. eapply forall_mp; [exact H|now apply both_list].
    - cbn [inner_agrees]. intros vars. now apply IHe.
    - apply agree_bind; [|intros; same]. apply mapM_cong. assert (Fa : Forall (agrees reg) es) by (eapply forall_mp; [exact H|now apply both_list]). eapply Forall_impl; [|exact Fa]. intros a [Ha _]. apply Ha.
    - apply (build_cong (fun e => ev_custom reg e vars) (fun e => ev e (Some vars))). apply Forall_forall. intros kv Hk. rewrite Forall_forall in H. rewrite forallb_forall in S1, S2. apply (H kv Hk). split; auto.
    - apply andb_true_iff in S1 as [? ?], S2 as [? ?]. apply agree_bind; [now apply IHe|intros v]. assert (Fa : Forall (agrees reg) args) by (eapply forall_mp; [exact H|now apply both_list]).
      apply method_cong. now apply margs_agree.
    - discriminate.
    - discriminate.
    - apply agree_bind; [now apply IHe|intros; same].
    - now apply IHe.
    - apply foldM_cong. assert (Fa : Forall (agrees reg) es) by (eapply forall_mp; [exact H|now apply both_list]). eapply Forall_impl; [|exact Fa]. intros a [Ha _] _. apply Ha.
  Qed.

  (** ** The main evaluator *)
  Definition okay (reg : registry) (e : expr) : Prop := calls_nothing_of reg e /\ simple_methods e.
  Definition methods_simple (e : expr) : bool := match e with ESafeMethodCall _ _ args | EMethodCall _ _ args _ => forallb (everywhere simple_part) args | _ => true end.
  Lemma okay_iff : forall reg e, okay reg e <-> everywhere (unregistered reg) e = true /\ everywhere methods_simple e = true.
  Proof. reflexivity. Qed.
  Section Main.
    Variables (reg : registry) (vars : env).
    Notation c1 := (custom_ctx vars reg).
    Notation c2 := (vars_ctx vars).
    Definition same_eval (e : expr) : Prop := agree (eval e c1) (eval e c2) /\ match e with ESpread i => agree (eval i c1) (eval i c2) | _ => True end.
    Notation margs := (fun es => map (fun a => mkArg (eval a) (match a with ESpread i => Some (eval i) | _ => None end)) es).
    Lemma top_args_agree : forall es, Forall same_eval es -> Forall2 (arel c1 c2) (margs es) (margs es).
    Proof. intros es H. induction H as [|e es [E I] H IH]; cbn [map]; constructor; auto. split; [exact E|]. cbn [a_spread]. destruct e; auto. Qed.
    Lemma get_param_cong : forall es i d, Forall same_eval es -> agree (get_param c1 (nth_error (margs es) i) d) (get_param c2 (nth_error (margs es) i) d).
    Proof.
      intros es i d H. rewrite nth_error_map. destruct (nth_error es i) as [e|] eqn:E; cbn [option_map get_param]; [|same]. apply nth_error_In in E. rewrite Forall_forall in H. apply agree_bind; [apply (H e E)|]. intros; same.
    Qed.
    Lemma top_calls_agree : forall name es, has_custom_function reg name = false -> Forall same_eval es -> agree (top_call c1 name (margs es)) (top_call c2 name (margs es)).
    Proof.
      intros name es U H. pose proof (top_args_agree es H) as Ha. unfold top_call. destruct (is name "__TERNARY__"); [now apply ternary_cong|].
      destruct (is name "__CONST_TRUE__"); [same|]. destruct (is name "__CONST_FALSE__"); [same|].
      unfold custom_hit, custom_ctx at 1, vars_ctx at 1. cbn [c_reg]. unfold has_custom_function in U. rewrite U.
      destruct (is name "FILTER"); [|destruct (is name "FIND"); [|destruct (is name "MAP"); [|destruct (is name "REDUCE"); [|destruct (is name "SUMIF"); [|destruct (is name "AVGIF"); [|destruct (is name "COUNTIF"); [|destruct (is name "JQ")]]]]]]].
      - unfold top_filter. pose proof (get_param_cong es 2 "x" H) as Hp. destruct H as [|e0 es [E0 _] H]; [apply agree_err|]. destruct H as [|e1 es E1 H]; [apply agree_err|]. cbn [map] in *.
        apply agree_bind; [exact E0|intros arr]. apply agree_bind; [exact Hp|intros p]. same.
      - unfold top_find. pose proof (get_param_cong es 2 "x" H) as Hp. destruct H as [|e0 es [E0 _] H]; [apply agree_err|]. destruct H as [|e1 es E1 H]; [apply agree_err|]. cbn [map] in *.
        apply agree_bind; [exact E0|intros arr]. apply agree_bind; [exact Hp|intros p]. same.
      - unfold top_map. pose proof (get_param_cong es 2 "x" H) as Hp. destruct H as [|e0 es [E0 _] H]; [apply agree_err|]. destruct H as [|e1 es E1 H]; [apply agree_err|]. cbn [map] in *.
        apply agree_bind; [exact E0|intros arr]. apply agree_bind; [exact Hp|intros p]. same.
      - unfold top_reduce. pose proof (get_param_cong es 3 "x" H) as Hp. pose proof (get_param_cong es 4 "acc" H) as Hq. destruct H as [|e0 es [E0 _] H]; [apply agree_err|]. destruct H as [|e1 es E1 H]; [apply agree_err|].
        destruct H as [|e2 es [E2 _] H]; [apply agree_err|]. cbn [map] in *.
        apply agree_bind; [exact E0|intros arr]. apply agree_bind; [exact E2|intros init]. apply agree_bind; [exact Hp|intros p]. apply agree_bind; [exact Hq|intros q]. same.
      - assert (T : forall arr e sums, same_eval e -> agree (sumif_tail c1 arr (mkArg (eval e) (match e with ESpread i => Some (eval i) | _ => None end)) sums) (sumif_tail c2 arr (mkArg (eval e) (match e with ESpread i => Some (eval i) | _ => None end)) sums)).
        { intros arr e sums [E _]. unfold sumif_tail. cbv zeta. cbn [a_eval]. destruct (eval e c1) as [v|er|w], (eval e c2) as [v'|er'|w']; cbn in E; try contradiction; [subst v'|idtac|now subst w']; same. }
        unfold top_sumif. destruct H as [|e0 es [E0 _] H]; [apply agree_err|]. destruct H as [|e1 es E1 H]; [apply agree_err|]. cbn [map] in *. destruct H as [|e2 es [E2 _] H]; cbn [map].
        + apply agree_bind; [exact E0|intros arr]. now apply T.
        + destruct H; cbn [map]; [|apply agree_err]. apply agree_bind; [exact E0|intros arr]. apply agree_bind; [exact E2|intros sums]. now apply T.
      - apply two_cong; [exact Ha|]. intros v a b _ _ I. apply in_combine_map in I as (e & I & -> & ->). same.
      - apply two_cong; [exact Ha|]. intros v a b _ _ I. apply in_combine_map in I as (e & I & -> & ->). same.
      - unfold top_jq. destruct H as [|e0 es [E0 _] H]; [apply agree_err|]. destruct H as [|e1 es [E1 _] H]; [apply agree_err|]. destruct H; cbn [map]; [|apply agree_err].
        apply agree_bind; [exact E0|intros d]. apply agree_bind; [exact E1|intros p]. same.
      - apply agree_bind; [now apply collect_cong|intros; same].
    Qed.
    Lemma top_margs_agree : forall es, forallb (everywhere simple_part) es = true -> forallb (everywhere (unregistered reg)) es = true -> Forall2 mrel (margs_of c1 es) (margs_of c2 es).
    Proof. intros es H K. apply (margs_agree reg es). pose proof (both_list reg es H K) as Fa. eapply Forall_impl; [|exact Fa]. intros e. apply lambda_agree. Qed.
    Lemma okay_list : forall es, forallb (everywhere (unregistered reg)) es = true -> forallb (everywhere methods_simple) es = true -> Forall (okay reg) es.
    Proof. intros es H K. apply Forall_forall. intros e I. rewrite forallb_forall in H, K. split; [now apply H|now apply K]. Qed.
    Lemma slice_opt : forall s, (forall x, s = Some x -> okay reg x -> same_eval x) -> (match s with Some x => everywhere (unregistered reg) x | None => true end) = true ->
      (match s with Some x => everywhere methods_simple x | None => true end) = true ->
      agree (match (match s with Some x => Some (eval x c1) | None => None end) with Some r => v <- r ;; Ok (Some v) | None => Ok None end)
            (match (match s with Some x => Some (eval x c2) | None => None end) with Some r => v <- r ;; Ok (Some v) | None => Ok None end).
    Proof. intros [x|] H K L; [|same]. apply agree_bind; [apply (H x eq_refl); now split|intros; same]. Qed.
    Lemma main_agree : forall e, okay reg e -> same_eval e.
    Proof.
      induction e using expr_ind'; intros [S1 S2]; (split; [|try exact I]); cbn [eval]; try same.
      all: unfold calls_nothing_of in S1; unfold simple_methods in S2; fold (unregistered reg) in S1; fold methods_simple in S2; cbn [everywhere] in S1, S2; apply andb_true_iff in S1 as [P1 S1]; apply andb_true_iff in S2 as [P2 S2].
      - apply agree_bind; [now apply IHe|intros; same].
      - apply andb_true_iff in S1 as [? ?], S2 as [? ?]. apply agree_bind; [apply IHe1; now split|intros]. apply agree_bind; [apply IHe2; now split|intros; same].
      - apply agree_bind; [now apply IHe|intros; same].
      - apply agree_bind; [now apply IHe|intros; same].
      - apply andb_true_iff in S1 as [? ?], S2 as [? ?]. apply agree_bind; [now apply IHe|intros v]. destruct v as [n0|xs|bo|s0| |cu|d|js]; try (apply method_cong; now apply top_margs_agree). same.
      - apply negb_true_iff in P1. apply top_calls_agree; auto. eapply forall_mp; [exact H|now apply okay_list].
      - now apply IHe.
      - apply agree_bind; [|intros; same]. apply mapM_cong. assert (Fa : Forall same_eval es) by (eapply forall_mp; [exact H|now apply okay_list]). eapply Forall_impl; [|exact Fa]. intros a [Ha _]. apply Ha.
      - apply (build_cong (fun e => eval e c1) (fun e => eval e c2)). apply Forall_forall. intros kv Hk. rewrite Forall_forall in H. rewrite forallb_forall in S1, S2. apply (H kv Hk). split; [now apply S1|now apply S2].
      - apply andb_true_iff in S1 as [? ?], S2 as [? ?]. apply agree_bind; [now apply IHe|intros v]. apply method_cong; now apply top_margs_agree.
      - apply andb_true_iff in S1 as [? ?], S2 as [? ?]. apply agree_bind; [now apply IHe1|intros]. apply agree_bind; [now apply IHe2|intros; same].
      - apply andb_true_iff in S1 as [S1 ?], S2 as [S2 ?]. apply andb_true_iff in S1 as [? ?], S2 as [? ?]. apply agree_bind; [now apply IHe|intros v]. unfold slice_value. destruct v; try apply agree_err.
        apply agree_bind; [now apply slice_opt|intros sv]. apply agree_bind; [now apply slice_opt|intros tv]. same.
      - apply agree_bind; [now apply IHe|intros; same].
      - now apply IHe.
      - apply foldM_cong. assert (Fa : Forall same_eval es) by (eapply forall_mp; [exact H|now apply okay_list]). eapply Forall_impl; [|exact Fa]. intros a [Ha _] _. apply Ha.
    Qed.
  End Main.
  Lemma plain : forall reg src e vars, parse src = Ok e -> calls_nothing_of reg e -> simple_methods e ->
    agree (evaluate_with_custom reg src vars) (evaluate_with src vars).
  Proof. intros reg src e vars Hp H K. unfold evaluate_with_custom, evaluate_with. rewrite Hp. cbn [bind]. now apply main_agree. Qed.

  (** ** Custom functions inside the lambda of a method *)
  Lemma lambda_execute : forall reg name vars v, is name "__TERNARY__" = false -> has_custom_function reg name = true ->
    ev_custom reg (EFunctionCall name [EVariable (lit "x")]) (minsert (lit "x") v vars) = reg_execute reg name [v].
  Proof.
    intros reg name vars v N H. cbn [ev_custom map]. unfold custom_call. rewrite N. unfold has_custom_function in H. rewrite H. cbn [collect_args a_spread a_eval]. rewrite mget_minsert_same. reflexivity.
  Qed.
  Lemma lambda_custom : forall h name f recv xs vars, name <> lit "__TERNARY__" -> registered h name f -> accepts f 1 ->
    eval recv (custom_ctx vars (after h)) = Ok (VArray xs) ->
    eval (EMethodCall recv (lit "map") [EFunctionCall name [EVariable (lit "x")]] false) (custom_ctx vars (after h)) =
      (ys <- mapM (fun x => cf_exec f [x]) xs ;; Ok (VArray ys)).
  Proof.
    intros h name f recv xs vars N R A E. cbn [eval]. rewrite E. cbn [bind].
    change (m_map xs (margs_of (custom_ctx vars (after h)) [EFunctionCall name [EVariable (lit "x")]]) (Some vars) = (ys <- mapM (fun x => cf_exec f [x]) xs ;; Ok (VArray ys))).
    unfold m_map. cbn [margs_of map]. change (lit_param _ 1 "x") with (lit "x"). cbn [c_reg custom_ctx m_lambda base_of]. f_equal.
    assert (N' : is name "__TERNARY__" = false) by (unfold is; now apply str_eqb_neq). assert (Hh : has_custom_function (after h) name = true) by (apply has_spec; now exists f).
    clear E. revert vars. induction xs as [|x xs IH]; intros vars; [reflexivity|]. cbn [map_loop mapM]. rewrite (lambda_execute _ _ _ _ N' Hh), (executes h name f [x] R A), IH. reflexivity.
  Qed.
End Plain.
