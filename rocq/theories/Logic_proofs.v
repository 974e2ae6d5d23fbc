From Coq Require Import Floats.SpecFloat.
From Coq Require Import String List ZArith NArith Bool Lia.
From Verif Require Import Base Base_proofs F64 Syntax Ext Utils Arith Logic Arrays Strings Dates Financial Stats Dispatch Registry Methods Core Evaluator Api Spec Value_proofs Array_proofs.
Import ListNotations.

Lemma truthy_spec : forall v, truthy v = true <-> counts_as_true v.
Proof.
  unfold counts_as_true. intros v.
  assert (N : forall f, truthy (VNumber f) = true <-> forall sign, f <> S754_zero sign).
  { intros f. destruct f as [s|s| |s m e].
    - split; [destruct s; discriminate|intros H; now destruct (H s)].
    - split; [discriminate|destruct s; reflexivity].
    - split; [discriminate|reflexivity].
    - split; [discriminate|destruct s; reflexivity]. }
  split.
  - intros H. destruct v; try discriminate H.
    + right. eexists. split; [reflexivity|]. now apply N.
    + left. simpl in H. congruence.
  - intros [-> | (n & -> & H)]; auto. now apply N.
Qed.
Lemma truthy_false : forall v, truthy v = false <-> ~ counts_as_true v.
Proof. intros. rewrite <- truthy_spec. destruct (truthy v); split; congruence. Qed.

Section Calls.
  Context {X : Ext}.
  Lemma and_call : forall c es vs, uncustomised c "AND" -> evaluate_to c es vs ->
    exists b, eval (call "AND" es) c = Ok (VBoolean b) /\ (b = true <-> Forall counts_as_true vs).
  Proof.
    intros c es vs Hu He. exists (and_loop vs). split; [run_builtin; reflexivity|].
    clear He. induction vs as [|v vs IH]; simpl; [split; auto|].
    destruct (truthy v) eqn:E.
    - rewrite IH. apply truthy_spec in E. split; [now constructor|intros H; now inversion H].
    - apply truthy_false in E. split; [discriminate|intros H; now inversion H].
  Qed.
  Lemma or_call : forall c es vs, uncustomised c "OR" -> evaluate_to c es vs ->
    exists b, eval (call "OR" es) c = Ok (VBoolean b) /\ (b = true <-> Exists counts_as_true vs).
  Proof.
    intros c es vs Hu He. exists (or_loop vs). split; [run_builtin; reflexivity|].
    clear He. induction vs as [|v vs IH]; simpl.
    - split; [discriminate|intros H; inversion H].
    - destruct (truthy v) eqn:E.
      + apply truthy_spec in E. split; [now constructor|auto].
      + apply truthy_false in E. rewrite IH. split; [now constructor 2|].
        intros H; inversion H; subst; auto; contradiction.
  Qed.
  Lemma xor_call : forall c e1 e2 v1 v2, uncustomised c "XOR" -> eval e1 c = Ok v1 -> eval e2 c = Ok v2 ->
    exists b, eval (call "XOR" [e1; e2]) c = Ok (VBoolean b)
      /\ (b = true <-> (counts_as_true v1 /\ ~ counts_as_true v2) \/ (~ counts_as_true v1 /\ counts_as_true v2)).
  Proof.
    intros c e1 e2 v1 v2 Hu H1 H2. exists (xorb (truthy v1) (truthy v2)).
    assert (He : evaluate_to c [e1; e2] [v1; v2]) by (repeat constructor; auto).
    split; [run_builtin; reflexivity|].
    rewrite <- !truthy_spec. destruct (truthy v1), (truthy v2); simpl; intuition congruence.
  Qed.
  Lemma xor_arity : forall c es vs, uncustomised c "XOR" -> evaluate_to c es vs -> length vs <> 2%nat ->
    fails (eval (call "XOR" es) c).
  Proof.
    intros c es vs Hu He Hl. run_builtin.
    change (fails (fn_xor vs)). destruct vs as [|a [|b [|d vs]]]; simpl in *; try lia; eexists; reflexivity.
  Qed.
  Lemma not_call : forall c e v, uncustomised c "NOT" -> eval e c = Ok v ->
    exists b, eval (call "NOT" [e]) c = Ok (VBoolean b) /\ (b = true <-> ~ counts_as_true v).
  Proof.
    intros c e v Hu H. exists (negb (truthy v)).
    assert (He : evaluate_to c [e] [v]) by (repeat constructor; auto).
    split; [run_builtin; reflexivity|]. rewrite <- truthy_spec. destruct (truthy v); simpl; intuition congruence.
  Qed.
  Lemma if_call : forall c e1 e2 e3 v1 v2 v3, uncustomised c "IF" ->
    eval e1 c = Ok v1 -> eval e2 c = Ok v2 -> eval e3 c = Ok v3 ->
    (counts_as_true v1 -> eval (call "IF" [e1; e2; e3]) c = Ok v2 /\ eval (call "IF" [e1; e2]) c = Ok v2)
    /\ (~ counts_as_true v1 -> eval (call "IF" [e1; e2; e3]) c = Ok v3
                               /\ eval (call "IF" [e1; e2]) c = Ok (VBoolean false)).
  Proof.
    intros c e1 e2 e3 v1 v2 v3 Hu H1 H2 H3.
    rewrite (call_builtin "IF" [e1; e2; e3] [v1; v2; v3]); auto; [|repeat constructor; auto].
    rewrite (call_builtin "IF" [e1; e2] [v1; v2]); auto; [|repeat constructor; auto].
    change (exec_builtin_fast (lit "IF") [v1; v2; v3]) with (fn_if [v1; v2; v3]).
    change (exec_builtin_fast (lit "IF") [v1; v2]) with (fn_if [v1; v2]). unfold fn_if.
    split; intros H; [apply truthy_spec in H|apply truthy_false in H]; rewrite H; auto.
  Qed.
  Definition pair_up (ps : list (value * value)) : list value := flat_map (fun p => [fst p; snd p]) ps.
  Lemma ifs_call : forall c es ps, uncustomised c "IFS" ->
    evaluate_to c es (flat_map (fun p => [fst p; snd p]) ps) ->
    (forall before cond v after, ps = before ++ (cond, v) :: after ->
        Forall (fun p => ~ counts_as_true (fst p)) before -> counts_as_true cond ->
        eval (call "IFS" es) c = Ok v)
    /\ (Forall (fun p => ~ counts_as_true (fst p)) ps -> eval (call "IFS" es) c = Ok (VBoolean false)).
  Proof.
    intros c es ps Hu He.
    assert (Hev : Nat.even (length (flat_map (fun p : value * value => [fst p; snd p]) ps)) = true).
    { clear. induction ps; simpl; auto. }
    run_builtin.
    change (exec_builtin_fast (lit "IFS") (flat_map (fun p => [fst p; snd p]) ps))
      with (fn_ifs (flat_map (fun p => [fst p; snd p]) ps)).
    unfold fn_ifs. rewrite Hev. clear. split.
    - intros before cond v after -> H Hc. f_equal. induction H as [|[a b] before Ha H IH]; simpl.
      + apply truthy_spec in Hc. now rewrite Hc.
      + apply truthy_false in Ha. simpl in Ha. now rewrite Ha.
    - intros H. f_equal. induction H as [|[a b] ps Ha H IH]; simpl; auto.
      apply truthy_false in Ha. simpl in Ha. now rewrite Ha.
  Qed.
  Lemma ifs_odd : forall c es vs, uncustomised c "IFS" -> evaluate_to c es vs -> Nat.even (length vs) = false ->
    fails (eval (call "IFS" es) c).
  Proof.
    intros c es vs Hu He Hl. run_builtin. change (fails (fn_ifs vs)). unfold fn_ifs. rewrite Hl. eexists; reflexivity.
  Qed.

  (** ** Aggregates *)
  Lemma sum_flat : forall v acc, sum_value acc v = fold_left f_add (figures (flatten v)) acc.
  Proof.
    induction v using value_ind'; intros acc; auto. simpl.
    revert acc. induction H as [|x xs Hx H IH]; intros acc; simpl; auto.
    unfold figures in *. rewrite flat_map_app, fold_left_app. rewrite Hx, IH. reflexivity.
  Qed.
  Lemma mul_flat : forall v acc, mul_value acc v = fold_left f_mul (figures (flatten v)) acc.
  Proof.
    induction v using value_ind'; intros acc; auto. simpl.
    revert acc. induction H as [|x xs Hx H IH]; intros acc; simpl; auto.
    unfold figures in *. rewrite flat_map_app, fold_left_app. rewrite Hx, IH. reflexivity.
  Qed.
  Lemma minmax_flat : forall pick v acc, minmax_value pick acc v = fold_left (pick_opt pick) (figures (flatten v)) acc.
  Proof.
    intros pick. induction v using value_ind'; intros acc; auto. simpl.
    revert acc. induction H as [|x xs Hx H IH]; intros acc; simpl; auto.
    unfold figures in *. rewrite flat_map_app, fold_left_app. rewrite Hx, IH. reflexivity.
  Qed.
  Lemma avg_flat : forall v acc, avg_value acc v =
    (fold_left f_add (figures (flatten v)) (fst acc), (snd acc + Z.of_nat (length (figures (flatten v))))%Z).
  Proof.
    induction v using value_ind'; intros acc;
      try (destruct acc; simpl; f_equal; lia).
    simpl. revert acc. induction H as [|x xs Hx H IH]; intros acc; simpl.
    - destruct acc; simpl; f_equal; lia.
    - unfold figures in *. rewrite flat_map_app, fold_left_app, app_length. rewrite Hx, IH. simpl. f_equal. lia.
  Qed.
  Lemma sum_call : forall c es vs, uncustomised c "SUM" -> evaluate_to c es vs ->
    exists ls, leaves_of (VArray vs) ls /\
      eval (call "SUM" es) c = Ok (VNumber (fold_left f_add (figures ls) f_zero)).
  Proof.
    intros c es vs Hu He. exists (flatten (VArray vs)). split; [apply flatten_leaves|]. run_builtin.
    rewrite <- sum_flat. reflexivity.
  Qed.
  Lemma product_call : forall name c es vs, name = "PRODUCT"%string \/ name = "MULTIPLY"%string ->
    uncustomised c name -> evaluate_to c es vs ->
    exists ls, leaves_of (VArray vs) ls /\
      eval (call name es) c = Ok (VNumber (fold_left f_mul (figures ls) (f_of_Z 1))).
  Proof.
    intros name c es vs Hn Hu He. exists (flatten (VArray vs)). split; [apply flatten_leaves|].
    rewrite <- mul_flat. destruct Hn as [-> | ->]; run_builtin; reflexivity.
  Qed.
  Lemma avg_call : forall name c es vs, name = "AVG"%string \/ name = "AVERAGE"%string ->
    uncustomised c name -> evaluate_to c es vs ->
    exists ls, leaves_of (VArray vs) ls /\
      eval (call name es) c =
        Ok (VNumber (match figures ls with
                     | [] => f_zero
                     | fs => f_div (fold_left f_add fs f_zero) (f_of_Z (Z.of_nat (length fs)))
                     end)).
  Proof.
    intros name c es vs Hn Hu He. exists (flatten (VArray vs)). split; [apply flatten_leaves|].
    assert (E : fn_avg vs = Ok (VNumber (match figures (flatten (VArray vs)) with
                     | [] => f_zero
                     | fs => f_div (fold_left f_add fs f_zero) (f_of_Z (Z.of_nat (length fs)))
                     end))).
    { unfold fn_avg. change (fold_left avg_value vs (f_zero, 0%Z)) with (avg_value (f_zero, 0%Z) (VArray vs)).
      rewrite avg_flat. cbn [fst snd]. rewrite Z.add_0_l.
      destruct (figures (flatten (VArray vs))) as [|f fs]; reflexivity. }
    rewrite <- E. destruct Hn as [-> | ->]; run_builtin; reflexivity.
  Qed.
End Calls.

(** ** Minimum and maximum *)
Section Extreme.
  Variable pick : f64 -> f64 -> f64.
  Variable le : f64 -> f64 -> Prop.
  Hypothesis le_refl : forall x, not_nan x -> le x x.
  Hypothesis le_trans : forall x y z, le x y -> le y z -> le x z.
  Hypothesis pick_nan_l : forall y, pick f_nan y = y.
  Hypothesis pick_nan_r : forall x, pick x f_nan = x.
  Hypothesis pick_ok : forall x y, not_nan x -> not_nan y ->
    (pick x y = x /\ le x y) \/ (pick x y = y /\ le y x).
  Lemma nan_dec : forall x : f64, {x = f_nan} + {not_nan x}.
  Proof. intros [s|s| |s m e]; unfold not_nan, f_nan; try (right; discriminate); now left. Qed.
  Lemma pick_extreme : forall fs x, extreme le (x :: fs) (or_zero (fold_left (pick_opt pick) fs (Some x))).
  Proof.
    induction fs as [|y fs IH]; intros x; simpl.
    - right. destruct (nan_dec x) as [->|H].
      + left. repeat split; try discriminate. repeat constructor.
      + right. repeat split; simpl; auto.
    - unfold pick_opt at 2. specialize (IH (pick x y)).
      set (m := or_zero (fold_left (pick_opt pick) fs (Some (pick x y)))) in *. clearbody m.
      destruct IH as [[IH _]|[(_ & Hall & Hm)|(Hin & Hm & Hall)]]; [discriminate| |].
      + right. inversion Hall as [|? ? Hp Hfs]; subst.
        destruct (nan_dec x) as [->|Hx].
        * rewrite pick_nan_l in Hp. subst. left. repeat split; try discriminate; auto.
        * exfalso. destruct (nan_dec y) as [->|Hy].
          -- rewrite pick_nan_r in Hp. contradiction.
          -- destruct (pick_ok x y Hx Hy) as [[E _]|[E _]]; rewrite E in Hp; contradiction.
      + right. right. inversion Hall as [|? ? Hp Hfs]; subst.
        destruct (nan_dec x) as [->|Hx].
        { rewrite pick_nan_l in *. split; [|split; auto].
          - destruct Hin as [->|Hin]; simpl; auto.
          - constructor; auto. intros C. now destruct C. }
        destruct (nan_dec y) as [->|Hy].
        { rewrite pick_nan_r in *. split; [|split; auto].
          - destruct Hin as [->|Hin]; simpl; auto.
          - constructor; auto. constructor; auto. intros C. now destruct C. }
        destruct (pick_ok x y Hx Hy) as [[E L]|[E L]]; rewrite E in *.
        * split; [|split; auto].
          -- destruct Hin as [->|Hin]; simpl; auto.
          -- constructor; auto. constructor; auto. intros _. eapply le_trans; eauto.
        * split; [|split; auto].
          -- destruct Hin as [->|Hin]; simpl; auto.
          -- constructor; [|constructor]; auto. intros _. eapply le_trans; eauto.
  Qed.
  Lemma pick_extreme_all : forall fs, extreme le fs (or_zero (fold_left (pick_opt pick) fs None)).
  Proof. destruct fs as [|x fs]; [left; auto|]. apply pick_extreme. Qed.
End Extreme.

Lemma f_ltb_leb : forall x y, not_nan x -> not_nan y -> f_ltb y x = false -> f_le x y.
Proof.
  intros x y Hx Hy H. apply f_leb_key; auto. unfold f_ltb, SFltb in H.
  change (SFcompare y x) with (f_cmp y x) in H. rewrite f_cmp_key in H by auto.
  rewrite kcmp_antisym. destruct (kcmp (fkey y) (fkey x)); simpl; congruence.
Qed.
Lemma f_ltb_le : forall x y, f_ltb x y = true -> f_le x y.
Proof.
  intros x y H. unfold f_le, f_leb, SFleb, f_ltb, SFltb in *. destruct (SFcompare x y) as [[]|]; congruence.
Qed.
Lemma f_min_nan_r : forall x, f_min x f_nan = x.
Proof. now destruct x. Qed.
Lemma f_max_nan_r : forall x, f_max x f_nan = x.
Proof. now destruct x. Qed.
Lemma f_min_ok : forall x y, not_nan x -> not_nan y -> (f_min x y = x /\ f_le x y) \/ (f_min x y = y /\ f_le y x).
Proof.
  intros x y Hx Hy.
  assert (E : f_min x y = if f_ltb y x then y else x).
  { destruct x; try now destruct Hx. all: destruct y; try now destruct Hy. all: reflexivity. }
  rewrite E. destruct (f_ltb y x) eqn:L.
  - right. split; auto. now apply f_ltb_le.
  - left. split; auto. now apply f_ltb_leb.
Qed.
Lemma f_max_ok : forall x y, not_nan x -> not_nan y -> (f_max x y = x /\ f_le y x) \/ (f_max x y = y /\ f_le x y).
Proof.
  intros x y Hx Hy.
  assert (E : f_max x y = if f_ltb x y then y else x).
  { destruct x; try now destruct Hx. all: destruct y; try now destruct Hy. all: reflexivity. }
  rewrite E. destruct (f_ltb x y) eqn:L.
  - right. split; auto. now apply f_ltb_le.
  - left. split; auto. now apply f_ltb_leb.
Qed.

Section Calls2.
  Context {X : Ext}.
  Lemma min_call : forall c es vs, uncustomised c "MIN" -> evaluate_to c es vs ->
    exists ls m, leaves_of (VArray vs) ls /\ eval (call "MIN" es) c = Ok (VNumber m) /\ extreme f_le (figures ls) m.
  Proof.
    intros c es vs Hu He. exists (flatten (VArray vs)), (or_zero (minmax_value f_min None (VArray vs))).
    split; [apply flatten_leaves|split].
    - run_builtin. reflexivity.
    - rewrite minmax_flat. apply pick_extreme_all; auto using f_le_refl, f_min_nan_r, f_min_ok.
      intros; eapply f_le_trans; eauto.
  Qed.
  Lemma max_call : forall c es vs, uncustomised c "MAX" -> evaluate_to c es vs ->
    exists ls m, leaves_of (VArray vs) ls /\ eval (call "MAX" es) c = Ok (VNumber m)
      /\ extreme (fun a b => f_le b a) (figures ls) m.
  Proof.
    intros c es vs Hu He. exists (flatten (VArray vs)), (or_zero (minmax_value f_max None (VArray vs))).
    split; [apply flatten_leaves|split].
    - run_builtin. reflexivity.
    - rewrite minmax_flat. apply pick_extreme_all; auto using f_le_refl, f_max_nan_r, f_max_ok.
      intros; eapply f_le_trans; eauto.
  Qed.
End Calls2.

(** ** The two dispatchers *)
Section Dispatch.
  Context {X : Ext}.
  Lemma ev_call : forall name es vars vs,
    one_of ("__TERNARY__" :: higher_order_names)%string name = false ->
    Forall2 (fun e v => ev e (Some vars) = Ok v) es vs ->
    ev (EFunctionCall name es) (Some vars) = exec_builtin name vs.
  Proof.
    intros name es vars vs Hs He.
    change (ev (EFunctionCall name es) (Some vars)) with
      (core_call (Some vars) name
         (map (fun a => mkArg (ev a) (match a with ESpread i => Some (ev i) | _ => None end)) es)).
    unfold core_call. unfold one_of in Hs. cbn [existsb] in Hs. apply orb_false_iff in Hs as [H1 H2].
    rewrite H1. unfold one_of. rewrite H2.
    assert (collect_args (Some vars) (map (fun a => mkArg (ev a) (match a with ESpread i => Some (ev i) | _ => None end)) es)
            = Ok vs) as ->; [|reflexivity].
    clear H1 H2. induction He as [|e v es vs He1 He IH]; auto.
    cbn [map collect_args a_spread a_eval].
    assert (Hsp : match e with ESpread i => Some (ev i) | _ => None end = None)
      by (destruct e; auto; discriminate He1).
    rewrite Hsp, He1. cbn [bind]. now rewrite IH.
  Qed.

  Ltac falls := eexists; reflexivity.
  Lemma try_else_agree : forall r k, fails k -> agree r (try_else r k).
  Proof. intros r k (er & ->). unfold try_else, agree. destruct r; auto. Qed.
  Lemma try_else_skip : forall r k, fails r -> try_else r k = k.
  Proof. now intros r k (er & ->). Qed.
  Lemma agree_refl : forall A (r : res A), agree r r.
  Proof. intros A [a|er|w]; simpl; auto. Qed.
  Lemma shared_arith : forall name args, In name arithmetic_functions ->
    agree (exec_builtin_fast (lit name) args) (exec_builtin (lit name) args).
  Proof.
    intros name args H. unfold exec_builtin. unfold arithmetic_functions in H. cbn [In] in H.
    repeat (destruct H as [<-|H];
      [match goal with |- agree (exec_builtin_fast ?n args) _ =>
         change (exec_builtin_fast n args) with (exec_arithmetic n args) end;
       apply try_else_agree; falls|]). destruct H.
  Qed.
  Lemma shared_logical : forall name args, In name logical_functions ->
    agree (exec_builtin_fast (lit name) args) (exec_builtin (lit name) args).
  Proof.
    intros name args H. unfold exec_builtin. unfold logical_functions in H. cbn [In] in H.
    repeat (destruct H as [<-|H];
      [match goal with |- agree (exec_builtin_fast ?n args) _ =>
         change (exec_builtin_fast n args) with (exec_logical n args) end;
       rewrite (try_else_skip (exec_arithmetic _ _)) by falls;
       apply try_else_agree; falls|]). destruct H.
  Qed.
  Lemma shared_string : forall name args, In name string_functions ->
    agree (exec_builtin_fast (lit name) args) (exec_builtin (lit name) args).
  Proof.
    intros name args H. unfold exec_builtin. unfold string_functions in H. cbn [In] in H.
    repeat (destruct H as [<-|H];
      [match goal with |- agree (exec_builtin_fast ?n args) _ =>
         change (exec_builtin_fast n args) with (exec_string n args) end;
       rewrite (try_else_skip (exec_arithmetic _ _)) by falls;
       rewrite (try_else_skip (exec_logical _ _)) by falls;
       apply try_else_agree; falls|]). destruct H.
  Qed.
  Lemma shared_array : forall name args, In name array_functions -> name <> "REVERSE"%string ->
    agree (exec_builtin_fast (lit name) args) (exec_builtin (lit name) args).
  Proof.
    intros name args H Hr. unfold exec_builtin. unfold array_functions in H. cbn [In] in H.
    repeat (destruct H as [<-|H];
      [first [now destruct Hr |
       match goal with |- agree (exec_builtin_fast ?n args) _ =>
         change (exec_builtin_fast n args) with (exec_array n args) end;
       rewrite (try_else_skip (exec_arithmetic _ _)) by falls;
       rewrite (try_else_skip (exec_logical _ _)) by falls;
       rewrite (try_else_skip (exec_string _ _)) by falls;
       apply try_else_agree; falls]|]). destruct H.
  Qed.
  Lemma shared_datetime : forall name args, In name datetime_functions ->
    exec_builtin_fast (lit name) args = exec_builtin (lit name) args.
  Proof.
    intros name args H. unfold exec_builtin. unfold datetime_functions in H. cbn [In] in H.
    repeat (destruct H as [<-|H]; [reflexivity|]). destruct H.
  Qed.
  Lemma shared_financial : forall name args, In name financial_functions ->
    agree (exec_builtin_fast (lit name) args) (exec_builtin (lit name) args).
  Proof.
    intros name args H. unfold exec_builtin. unfold financial_functions in H. cbn [In] in H.
    repeat (destruct H as [<-|H];
      [match goal with |- agree (exec_builtin_fast ?n args) _ =>
         change (exec_builtin_fast n args) with (exec_financial n args);
         change (is_datetime_function n) with false end;
       rewrite (try_else_skip (exec_arithmetic _ _)) by falls;
       rewrite (try_else_skip (exec_logical _ _)) by falls;
       rewrite (try_else_skip (exec_string _ _)) by falls;
       rewrite (try_else_skip (exec_array _ _)) by falls; cbv iota;
       apply try_else_agree; falls|]). destruct H.
  Qed.
  Lemma shared_statistical : forall name args, In name statistical_functions ->
    agree (exec_builtin_fast (lit name) args) (exec_builtin (lit name) args).
  Proof.
    intros name args H. unfold exec_builtin. unfold statistical_functions in H. cbn [In] in H.
    repeat (destruct H as [<-|H];
      [match goal with |- agree (exec_builtin_fast ?n args) _ =>
         change (exec_builtin_fast n args) with (exec_statistical n args);
         change (is_datetime_function n) with false end;
       rewrite (try_else_skip (exec_arithmetic _ _)) by falls;
       rewrite (try_else_skip (exec_logical _ _)) by falls;
       rewrite (try_else_skip (exec_string _ _)) by falls;
       rewrite (try_else_skip (exec_array _ _)) by falls; cbv iota;
       rewrite (try_else_skip (exec_financial _ _)) by falls;
       apply try_else_agree; falls|]). destruct H.
  Qed.
  Lemma in_names : forall n ns, existsb (String.eqb n) ns = true -> In n ns.
  Proof.
    intros n ns H. apply existsb_exists in H as (m & Hm & E). apply String.eqb_eq in E. now subst.
  Qed.
  Lemma incl_names : forall ms ns, forallb (fun n => existsb (String.eqb n) ns) ms = true -> incl ms ns.
  Proof. intros ms ns H n Hn. rewrite forallb_forall in H. apply in_names. auto. Qed.
  Lemma shared_agree : forall name args, In name shared_names ->
    agree (exec_builtin_fast (lit name) args) (exec_builtin (lit name) args).
  Proof.
    intros name args H.
    assert (D : (In name array_functions /\ name <> "REVERSE"%string) \/ In name arithmetic_functions
      \/ In name logical_functions \/ In name string_functions \/ In name datetime_functions
      \/ In name financial_functions \/ In name statistical_functions).
    { assert (F : forallb (fun n => let inb ns := existsb (String.eqb n) ns in
          (inb array_functions && negb (String.eqb n "REVERSE")) || (inb arithmetic_functions || (inb logical_functions
          || (inb string_functions || (inb datetime_functions || (inb financial_functions || inb statistical_functions))))))%bool
          shared_names = true) by (vm_compute; reflexivity).
      rewrite forallb_forall in F. specialize (F name H). cbv beta zeta in F.
      apply orb_true_iff in F; destruct F as [F|F].
      { apply andb_true_iff in F; destruct F as [F G]; apply negb_true_iff, String.eqb_neq in G.
        apply in_names in F; tauto. }
      do 5 (apply orb_true_iff in F; destruct F as [F|F]; [apply in_names in F; tauto|]).
      apply in_names in F; tauto. }
    destruct D as [[D E]|[D|[D|[D|[D|[D|D]]]]]].
    - now apply shared_array.
    - now apply shared_arith.
    - now apply shared_logical.
    - now apply shared_string.
    - rewrite (shared_datetime name args D). apply agree_refl.
    - now apply shared_financial.
    - now apply shared_statistical.
  Qed.
  Lemma special_shared : forall name, In name shared_names -> one_of special_names (lit name) = false
    /\ one_of ("__TERNARY__" :: higher_order_names)%string (lit name) = false.
  Proof. intros name H. repeat (destruct H as [<-|H]; [split; reflexivity|]). destruct H. Qed.

  Lemma outer_inner_agree : forall name es vs c vars,
    In name shared_names -> uncustomised c name -> evaluate_to c es vs ->
    Forall2 (fun e v => ev e (Some vars) = Ok v) es vs ->
    agree (eval (call name es) c) (ev (call name es) (Some vars)).
  Proof.
    intros name es vs c vars Hn Hu He Hi. destruct (special_shared name Hn) as [S1 S2].
    rewrite (call_builtin name es vs) by auto. unfold call. rewrite (ev_call _ es vars vs) by auto.
    now apply shared_agree.
  Qed.
  Lemma outer_reverse : forall c e v, uncustomised c "REVERSE" -> eval e c = Ok v ->
    eval (call "REVERSE" [e]) c =
      match v with VArray xs => Ok (VArray (rev xs)) | _ => Err (err "REVERSE expects array") end.
  Proof.
    intros c e v Hu H. rewrite (call_builtin "REVERSE" [e] [v]) by (auto; repeat constructor; auto).
    change (exec_builtin_fast (lit "REVERSE") [v]) with (fn_reverse_array [v]). now destruct v.
  Qed.
  Lemma inner_reverse : forall vars e v, ev e (Some vars) = Ok v ->
    match v with
    | VArray xs => ev (call "REVERSE" [e]) (Some vars) = Ok (VArray (rev xs))
    | VString s => ev (call "REVERSE" [e]) (Some vars) = Ok (VString (rev s))
    | _ => fails (ev (call "REVERSE" [e]) (Some vars))
    end.
  Proof.
    intros vars e v H.
    assert (E : ev (call "REVERSE" [e]) (Some vars) = exec_builtin (lit "REVERSE") [v])
      by (apply ev_call; [reflexivity|repeat constructor; auto]).
    rewrite E. destruct v; try (eexists; reflexivity); reflexivity.
  Qed.

  Lemma one_of_false : forall ns name, one_of ns name = false <-> (forall n, In n ns -> name <> lit n).
  Proof.
    intros ns name. unfold one_of. induction ns as [|n ns IH]; simpl.
    - split; [intros _ n []|auto].
    - rewrite orb_false_iff, IH. unfold is. split.
      + intros [H1 H2] m [<-|Hm]; auto. intros ->. now rewrite str_eqb_refl in H1.
      + intros H. split; [|auto]. destruct (str_eqb name (lit n)) eqn:E; auto.
        apply str_eqb_eq in E. exfalso. apply (H n); auto.
  Qed.
  Lemma unknown_both : forall name args, (forall n, In n known_names -> name <> lit n) ->
    fails (exec_builtin_fast name args) /\ fails (exec_builtin name args).
  Proof.
    intros name args H.
    assert (K : forall n, In n known_names -> is name n = false).
    { intros n Hn. unfold is. destruct (str_eqb name (lit n)) eqn:E; auto. apply str_eqb_eq in E.
      now destruct (H n Hn). }
    split.
    - exists (unknown_function name). unfold exec_builtin_fast.
      assert (S : forall ns, incl ns known_names -> one_of ns name = false).
      { intros ns Hi. apply one_of_false. intros n Hn. apply H. auto. }
      rewrite !S by (apply incl_names; vm_compute; reflexivity). reflexivity.
    - exists (unknown_function name). unfold exec_builtin, exec_arithmetic, exec_logical, exec_string, exec_array,
        is_datetime_function, exec_financial, exec_statistical.
      rewrite !K by (apply in_names; vm_compute; reflexivity). reflexivity.
  Qed.
  Lemma ev_custom_call : forall reg name es vars vs,
    one_of ("__TERNARY__" :: higher_order_names)%string name = false -> reg_has reg name = false ->
    Forall2 (fun e v => ev_custom reg e vars = Ok v) es vs ->
    ev_custom reg (EFunctionCall name es) vars = exec_builtin name vs.
  Proof.
    intros reg name es vars vs Hs Hr He.
    change (ev_custom reg (EFunctionCall name es) vars) with
      (custom_call reg vars name
         (map (fun a => mkArg (ev_custom reg a) (match a with ESpread i => Some (ev_custom reg i) | _ => None end)) es)).
    unfold custom_call. unfold one_of in Hs. cbn [existsb] in Hs. apply orb_false_iff in Hs as [H1 H2].
    rewrite H1, Hr. unfold one_of. rewrite H2.
    assert (collect_args vars (map (fun a => mkArg (ev_custom reg a) (match a with ESpread i => Some (ev_custom reg i) | _ => None end)) es)
            = Ok vs) as ->; [|reflexivity].
    clear H1 H2. induction He as [|e v es vs He1 He IH]; auto.
    cbn [map collect_args a_spread a_eval].
    assert (Hsp : match e with ESpread i => Some (ev_custom reg i) | _ => None end = None)
      by (destruct e; auto; discriminate He1).
    rewrite Hsp, He1. cbn [bind]. now rewrite IH.
  Qed.
  Lemma outer_inner_custom_agree : forall name es vs reg vars,
    In name shared_names -> has_custom_function reg (lit name) = false ->
    evaluate_to (custom_ctx vars reg) es vs ->
    Forall2 (fun e v => ev_custom reg e vars = Ok v) es vs ->
    agree (eval (call name es) (custom_ctx vars reg)) (ev_custom reg (call name es) vars).
  Proof.
    intros name es vs reg vars Hn Hu He Hi. destruct (special_shared name Hn) as [S1 S2].
    rewrite (call_builtin name es vs) by auto. unfold call. rewrite (ev_custom_call reg _ es vars vs) by auto.
    now apply shared_agree.
  Qed.
  Lemma names_false : forall ms ns name, forallb (fun n => existsb (String.eqb n) ns) ms = true ->
    (forall n, In n ns -> name <> lit n) -> one_of ms name = false.
  Proof. intros ms ns name H Hn. apply one_of_false. intros n Hm. apply Hn. eapply incl_names; eauto. Qed.
  Lemma unknown_call : forall name es vs c vars,
    (forall n, In n known_names -> name <> lit n) ->
    match c_reg c with Some reg => has_custom_function reg name = false | None => True end ->
    evaluate_to c es vs -> Forall2 (fun e v => ev e (Some vars) = Ok v) es vs ->
    fails (eval (EFunctionCall name es) c) /\ fails (ev (EFunctionCall name es) (Some vars)).
  Proof.
    intros name es vs c vars H Hc He Hi. split.
    - rewrite eval_call. unfold top_call.
      assert (K : forall n, In n known_names -> is name n = false).
      { intros n Hn. unfold is. destruct (str_eqb name (lit n)) eqn:E; auto. apply str_eqb_eq in E.
        now destruct (H n Hn). }
      rewrite !K by (apply in_names; vm_compute; reflexivity).
      assert (Hh : custom_hit c name = None).
      { unfold custom_hit. unfold has_custom_function in Hc. destruct (c_reg c); auto. now rewrite Hc. }
      rewrite Hh, (collect_ok _ _ _ He). cbn [bind]. now apply unknown_both.
    - rewrite (ev_call _ es vars vs); auto.
      + now apply unknown_both.
      + eapply names_false; [|exact H]. vm_compute. reflexivity.
  Qed.
  Lemma inner_unknown : forall name es vs vars, In name ["DIG"; "JQ"]%string ->
    Forall2 (fun e v => ev e (Some vars) = Ok v) es vs -> fails (ev (call name es) (Some vars)).
  Proof.
    intros name es vs vars H He. destruct H as [<-|[<-|[]]]; unfold call; rewrite (ev_call _ es vars vs); auto; falls.
  Qed.
  Lemma outer_between : forall es vs c, uncustomised c "BETWEEN" -> evaluate_to c es vs ->
    fails (eval (call "BETWEEN" es) c).
  Proof. intros es vs c Hu He. run_builtin. falls. Qed.
End Dispatch.
