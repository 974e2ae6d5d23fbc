From Coq Require Import Floats.SpecFloat.
From Coq Require Import String List ZArith NArith Bool Lia Sorting Permutation.
From Verif Require Import Base Base_proofs F64 Syntax Ext Utils Arrays Dispatch Registry Methods Core Evaluator Spec Value_proofs.
Import ListNotations.

(** ** FLATTEN *)
Lemma flatten_leaves : forall v, leaves_of v (flatten v).
Proof.
  induction v using value_ind'; simpl; try (apply leaf; intros; discriminate).
  rewrite flat_map_concat_map. apply node.
  induction H; simpl; constructor; auto.
Qed.
Lemma leaves_unique : forall v ls, leaves_of v ls -> ls = flatten v.
Proof.
  induction v using value_ind'; intros ls L; inversion L as [? Hl|? parts F]; subst; auto.
  - now destruct (Hl xs).
  - simpl. rewrite flat_map_concat_map. f_equal.
    clear L. revert parts F. induction H; intros parts F; inversion F; subst; simpl; auto.
    f_equal; auto.
Qed.
Lemma flatten_no_array : forall v x, In x (flatten v) -> forall ys, x <> VArray ys.
Proof.
  induction v using value_ind'; simpl; intros x Hin; try (destruct Hin as [<-|[]]; discriminate).
  apply in_flat_map in Hin as (y & Hy & Hin). rewrite Forall_forall in H. eauto.
Qed.
Lemma flatten_atoms : forall ls, (forall x, In x ls -> forall ys, x <> VArray ys) -> flat_map flatten ls = ls.
Proof.
  induction ls as [|x ls IH]; simpl; intros H; auto.
  rewrite IH by auto. destruct x; auto. now destruct (H (VArray xs) (or_introl eq_refl) xs).
Qed.

(** ** SORT *)
Lemma insert_num_perm : forall x xs, Permutation (insert_num x xs) (x :: xs).
Proof.
  induction xs as [|y xs IH]; simpl; auto. destruct (f_leb x y); auto.
  rewrite IH. apply perm_swap.
Qed.
Lemma insertion_sort_perm : forall xs, Permutation (insertion_sort xs) xs.
Proof.
  induction xs; simpl; auto. unfold insertion_sort in *. simpl. now rewrite insert_num_perm, IHxs.
Qed.
Lemma insert_num_sorted : forall x xs, Forall not_nan (x :: xs) -> StronglySorted f_le xs ->
  StronglySorted f_le (insert_num x xs).
Proof.
  intros x xs Hn Hs. inversion Hn as [|? ? Hx Hxs]; subst. clear Hn.
  induction Hs as [|y ys Hs IH Hy]; simpl.
  - constructor; constructor.
  - inversion Hxs; subst. destruct (f_leb x y) eqn:E.
    + constructor; [constructor; auto|]. constructor; auto.
      eapply Forall_impl; [|exact Hy]. simpl. intros a Ha. eapply f_le_trans; eauto.
    + constructor; auto. apply Forall_forall. intros z Hz.
      apply (Permutation_in _ (insert_num_perm x ys)) in Hz. destruct Hz as [<-|Hz].
      * now apply f_le_total.
      * rewrite Forall_forall in Hy. auto.
Qed.
Lemma insertion_sort_sorted : forall xs, Forall not_nan xs -> StronglySorted f_le (insertion_sort xs).
Proof.
  induction 1; simpl.
  - constructor.
  - unfold insertion_sort in *. simpl. apply insert_num_sorted; auto. constructor; auto.
    rewrite Forall_forall in *. intros z Hz. apply H0.
    eapply Permutation_in; [apply insertion_sort_perm|]; auto.
Qed.

Lemma existsb_nan_false : forall ns, Forall not_nan ns -> existsb is_nan ns = false.
Proof.
  induction 1; simpl; auto. rewrite IHForall, orb_false_r.
  destruct (is_nan x) eqn:E; auto. now apply is_nan_spec in E.
Qed.
Lemma numbers_of_map : forall ns, numbers_of (map VNumber ns) = Ok ns.
Proof.
  intros. unfold numbers_of. rewrite mapM_map. rewrite (mapM_pure _ _ _ (fun n => n)); auto. now rewrite map_id.
Qed.
Lemma numbers_of_ok : forall xs ns, numbers_of xs = Ok ns -> xs = map VNumber ns.
Proof.
  unfold numbers_of. intros xs ns H. apply mapM_ok in H.
  induction H as [|x n xs ns Hx]; simpl; auto. destruct x; try discriminate. congruence.
Qed.

(** ** UNIQUE *)
Lemma unique_loop_spec : forall items seen,
  unique_loop seen items =
  map VNumber (rev (nodup f64_dec (rev (filter (fun n => negb (existsb (f_bits_eqb n) seen)) (numbers_in items))))).
Proof.
  assert (Hdup : forall (l : list f64) a, rev (nodup f64_dec (rev (a :: l))) =
            a :: rev (nodup f64_dec (rev (filter (fun n => negb (f_bits_eqb n a)) l)))).
  { assert (Hnd : forall (p : f64 -> bool) l, nodup f64_dec (filter p l) = filter p (nodup f64_dec l)).
    { intros p. induction l as [|b l IH]; simpl; auto. destruct (p b) eqn:Ep; simpl.
      - destruct (in_dec f64_dec b (filter p l)) as [i|n]; destruct (in_dec f64_dec b l) as [i2|n2]; simpl.
        + auto.
        + apply filter_In in i. tauto.
        + exfalso. apply n, filter_In. auto.
        + rewrite Ep. now rewrite IH.
      - destruct (in_dec f64_dec b l); simpl; auto. now rewrite Ep. }
    assert (Happ : forall l a, nodup f64_dec (l ++ [a]) = filter (fun n => negb (f_bits_eqb n a)) (nodup f64_dec l) ++ [a]).
    { induction l as [|b l IH]; intros a; simpl; auto.
      destruct (in_dec f64_dec b (l ++ [a])) as [i|n]; destruct (in_dec f64_dec b l) as [i2|n2]; simpl.
      - auto.
      - rewrite in_app_iff in i. simpl in i. assert (b = a) by (destruct i as [i|[i|[]]]; [contradiction|congruence]). subst.
        assert (f_bits_eqb a a = true) by (now apply f_bits_eqb_eq). rewrite H. simpl. auto.
      - rewrite in_app_iff in n. tauto.
      - rewrite in_app_iff in n. simpl in n.
        destruct (f_bits_eqb b a) eqn:E; [apply f_bits_eqb_eq in E; subst; tauto|]. simpl. now rewrite IH. }
    intros l a. simpl. rewrite Happ, rev_app_distr. simpl. f_equal. f_equal.
    rewrite <- Hnd. f_equal. clear. induction l as [|b l IH]; simpl; auto.
    rewrite filter_app, IH. simpl. destruct (negb (f_bits_eqb b a)); simpl; auto using app_nil_r. }
  induction items as [|v items IH]; intros seen; auto.
  destruct v; try apply IH.
  change (numbers_in (VNumber n :: items)) with (n :: numbers_in items).
  cbn [unique_loop filter].
  destruct (existsb (f_bits_eqb n) seen) eqn:E; cbn [negb]; auto.
  rewrite Hdup. cbn [map]. f_equal. rewrite IH. do 4 f_equal.
  generalize (numbers_in items) as ns. clear.
  induction ns as [|m ns IH]; simpl; auto.
  destruct (existsb (f_bits_eqb m) seen); simpl.
  - now rewrite orb_true_r.
  - rewrite orb_false_r. destruct (f_bits_eqb m n); simpl; rewrite <- IH; auto.
Qed.
Lemma unique_spec : forall items,
  unique_loop [] items = map VNumber (rev (nodup f64_dec (rev (numbers_in items)))).
Proof.
  intros. rewrite unique_loop_spec. do 4 f_equal.
  cbn [existsb negb]. induction (numbers_in items) as [|n l IH]; simpl; auto. now rewrite IH.
Qed.

(** ** CONTAINS *)
Lemma values_equal_same : forall a b, values_equal a b = true <-> same a b.
Proof.
  induction a using value_ind'; intros w; destruct w; simpl;
    try (split; [discriminate|intros S; inversion S; fail]).
  all: try (split; [intros E; try apply eqb_prop in E; try apply str_eqb_eq in E; try apply Z.eqb_eq in E;
                    subst; constructor; auto
                   |intros S; inversion S; subst; auto using eqb_reflx, str_eqb_refl, Z.eqb_refl]; fail).
  match goal with |- ?f xs xs0 = true <-> _ => set (all2 := f) end.
  assert (HH : all2 xs xs0 = true <-> Forall2 same xs xs0).
  { revert xs0. induction H as [|x xs Hx H IH]; destruct xs0 as [|y ys]; simpl; split; intros E; auto;
      try discriminate; try (inversion E; fail).
    - apply andb_true_iff in E as [E1 E2]. constructor; [now apply Hx|now apply IH].
    - inversion E; subst. apply andb_true_iff. split; [now apply Hx|now apply IH]. }
  rewrite HH. split; [now constructor|intros S; now inversion S].
Qed.
Lemma any_equal_spec : forall xs v, any_equal xs v = true <-> exists x, In x xs /\ same x v.
Proof.
  intros. unfold any_equal. rewrite existsb_exists. split; intros (x & Hx & H); exists x; split; auto;
    now apply values_equal_same.
Qed.
Lemma last_opt_app : forall A (xs : list A) x, last_opt (xs ++ [x]) = Some x.
Proof.
  induction xs as [|y xs IH]; simpl; auto. intros x. specialize (IH x). destruct xs; simpl in *; auto.
Qed.

(** ** The calls *)
Lemma firsts_spec : forall l, firsts l (rev (nodup f64_dec (rev l))).
Proof.
  induction l as [|x l IH] using rev_ind; simpl; [constructor|].
  rewrite rev_app_distr. simpl. destruct (in_dec f64_dec x (rev l)) as [i|n].
  - apply firsts_old; auto. now apply in_rev.
  - simpl. apply firsts_new; auto. intros Hn. apply n. now apply in_rev in Hn.
Qed.

Lemma insert_num_stable : forall p x xs, (forall y, In y xs -> p x = true -> p y = true -> f_leb x y = true) ->
  filter p (insert_num x xs) = filter p (x :: xs).
Proof.
  induction xs as [|y xs IH]; intros H; auto. cbn [insert_num].
  destruct (f_leb x y) eqn:E; auto.
  assert (filter p (y :: insert_num x xs) = filter p (y :: x :: xs)) as ->.
  { simpl. rewrite IH; auto. intros; apply H; simpl; auto. }
  simpl. destruct (p x) eqn:Ex, (p y) eqn:Ey; auto.
  rewrite (H y) in E; simpl; auto; discriminate.
Qed.
Lemma f_eqb_le : forall x y z, f_eqb x y = true -> f_eqb x z = true -> f_leb y z = true.
Proof.
  unfold f_eqb, SFeqb. intros x y z H1 H2.
  assert (x <> f_nan) by (intros ->; discriminate).
  assert (y <> f_nan) by (intros ->; destruct x; discriminate).
  assert (z <> f_nan) by (intros ->; destruct x; discriminate).
  apply f_leb_key; auto.
  change (SFcompare x y) with (f_cmp x y) in H1.
  change (SFcompare x z) with (f_cmp x z) in H2.
  rewrite f_cmp_key in H1, H2 by auto.
  apply kcmp_trans with (fkey x).
  - rewrite kcmp_antisym. destruct (kcmp (fkey x) (fkey y)); discriminate.
  - destruct (kcmp (fkey x) (fkey z)); discriminate.
Qed.
Lemma insertion_sort_stable : forall x xs, filter (f_eqb x) (insertion_sort xs) = filter (f_eqb x) xs.
Proof.
  induction xs as [|y xs IH]; auto. unfold insertion_sort in *. cbn [fold_right].
  rewrite insert_num_stable.
  - cbn [filter]. now rewrite IH.
  - intros z _ H1 H2. eapply f_eqb_le; eauto.
Qed.

Section Calls.
  Context {X : Ext}.
  Lemma flatten_call : forall c es vs, uncustomised c "FLATTEN" -> evaluate_to c es vs ->
    exists ls, eval (call "FLATTEN" es) c = Ok (VArray ls) /\ leaves_of (VArray vs) ls.
  Proof.
    intros c es vs Hu He. exists (flatten (VArray vs)). split.
    - run_builtin. reflexivity.
    - apply flatten_leaves.
  Qed.
  Lemma flatten_twice : forall c es vs, uncustomised c "FLATTEN" -> evaluate_to c es vs ->
    eval (call "FLATTEN" [call "FLATTEN" es]) c = eval (call "FLATTEN" es) c.
  Proof.
    intros c es vs Hu He.
    assert (H : eval (call "FLATTEN" es) c = Ok (VArray (flatten (VArray vs)))).
    { run_builtin. reflexivity. }
    rewrite (call_builtin "FLATTEN" _ [VArray (flatten (VArray vs))]); auto.
    2: { constructor; auto. }
    rewrite H. change (Ok (VArray (flat_map flatten (flatten (VArray vs)) ++ [])) = Ok (VArray (flatten (VArray vs)))).
    rewrite app_nil_r, flatten_atoms; auto. apply flatten_no_array.
  Qed.
  Lemma leaves_functional : forall v l1 l2, leaves_of v l1 -> leaves_of v l2 -> l1 = l2.
  Proof. intros. apply leaves_unique in H, H0. congruence. Qed.

  Lemma sort_asc : forall c e ns, uncustomised c "SORT" ->
    eval e c = Ok (VArray (map VNumber ns)) -> Forall not_nan ns ->
    exists out, eval (call "SORT" [e]) c = Ok (VArray (map VNumber out))
      /\ Permutation ns out /\ StronglySorted f_le out /\ (forall x, filter (f_eqb x) out = filter (f_eqb x) ns).
  Proof.
    intros c e ns Hu He Hn. exists (insertion_sort ns). repeat split.
    - rewrite (call_builtin "SORT" _ [VArray (map VNumber ns)]); auto.
      2: { repeat constructor; auto. }
      change (fn_sort [VArray (map VNumber ns)] = Ok (VArray (map VNumber (insertion_sort ns)))).
      unfold fn_sort, sort_nums. rewrite numbers_of_map. cbn [bind].
      rewrite existsb_nan_false, andb_false_r; auto.
    - apply Permutation_sym, insertion_sort_perm.
    - now apply insertion_sort_sorted.
    - intros x. apply insertion_sort_stable.
  Qed.
  Lemma sort_order_arg : forall c e d v ns, uncustomised c "SORT" ->
    eval e c = Ok (VArray (map VNumber ns)) -> Forall not_nan ns -> eval d c = Ok v ->
    exists up out, eval (call "SORT" [e]) c = Ok (VArray (map VNumber up))
      /\ eval (call "SORT" [e; d]) c = Ok (VArray (map VNumber out))
      /\ ((exists s, v = VString s /\ says_desc s) -> out = rev up)
      /\ (~ (exists s, v = VString s /\ says_desc s) -> out = up).
  Proof.
    intros c e d v ns Hu He Hn Hd. exists (insertion_sort ns).
    set (desc := match v with VString s => eq_ignore_ascii_case s (lit "DESC") | _ => false end).
    exists (if desc then rev (insertion_sort ns) else insertion_sort ns).
    assert (Hdesc : desc = true <-> exists s, v = VString s /\ says_desc s).
    { unfold desc, says_desc. destruct v; try (split; [discriminate|intros (?&?&?); discriminate]).
      unfold eq_ignore_ascii_case. rewrite str_eqb_eq. change (map lower_ascii (lit "DESC")) with (lit "desc").
      split; [eauto|intros (?&[= <-]&?); auto]. }
    repeat split.
    - rewrite (call_builtin "SORT" _ [VArray (map VNumber ns)]); auto.
      2: { repeat constructor; auto. }
      change (fn_sort [VArray (map VNumber ns)] = Ok (VArray (map VNumber (insertion_sort ns)))).
      unfold fn_sort, sort_nums. rewrite numbers_of_map. cbn [bind].
      rewrite existsb_nan_false, andb_false_r; auto.
    - rewrite (call_builtin "SORT" _ [VArray (map VNumber ns); v]); auto.
      2: { repeat constructor; auto. }
      change (exec_builtin_fast (lit "SORT") [VArray (map VNumber ns); v]) with (fn_sort [VArray (map VNumber ns); v]).
      unfold fn_sort, sort_nums. rewrite numbers_of_map. cbn [bind].
      rewrite existsb_nan_false, andb_false_r; auto.
    - intros Hs. apply Hdesc in Hs. now rewrite Hs.
    - intros Hs. destruct desc; auto. now destruct Hs; apply Hdesc.
  Qed.
  Lemma sort_panics : forall c e xs, uncustomised c "SORT" -> eval e c = Ok (VArray xs) ->
    ((exists w, eval (call "SORT" [e]) c = Panic w) <->
     exists ns, xs = map VNumber ns /\ (2 <= length ns)%nat /\ In f_nan ns).
  Proof.
    intros c e xs Hu He.
    rewrite (call_builtin "SORT" _ [VArray xs]); auto. 2: { repeat constructor; auto. }
    change (exec_builtin_fast (lit "SORT") [VArray xs]) with (fn_sort [VArray xs]). unfold fn_sort, sort_nums.
    split.
    - intros (w & H). destruct (numbers_of xs) as [ns|er|pw] eqn:E; try discriminate.
      + apply numbers_of_ok in E. exists ns. split; auto. cbn [bind] in H.
        destruct (2 <=? length ns)%nat eqn:E2; [|discriminate]. apply Nat.leb_le in E2. split; auto.
        destruct (existsb is_nan ns) eqn:E3; [|discriminate].
        apply existsb_exists in E3 as (x & Hx & Hn). apply is_nan_spec in Hn. now subst.
      + exfalso. revert E. clear. unfold numbers_of. revert pw.
        induction xs as [|x xs IH]; intros pw E; simpl in E; [discriminate|].
        destruct x; try discriminate. cbn [bind] in E.
        destruct (mapM _ xs) eqn:E2; try discriminate. eapply IH; eauto.
    - intros (ns & -> & Hl & Hin). rewrite numbers_of_map. cbn [bind].
      assert ((2 <=? length ns)%nat = true) as -> by now apply Nat.leb_le.
      assert (existsb is_nan ns = true) as ->.
      { apply existsb_exists. exists f_nan. auto. }
      simpl. eauto.
  Qed.
  Lemma sort_rejects : forall c e xs v, uncustomised c "SORT" -> eval e c = Ok (VArray xs) ->
    In v xs -> (forall n, v <> VNumber n) -> exists er, eval (call "SORT" [e]) c = Err er.
  Proof.
    intros c e xs v Hu He Hin Hv.
    rewrite (call_builtin "SORT" _ [VArray xs]); auto. 2: { repeat constructor; auto. }
    change (exec_builtin_fast (lit "SORT") [VArray xs]) with (fn_sort [VArray xs]). unfold fn_sort.
    assert (exists er, numbers_of xs = Err er) as (er & ->); [|simpl; eauto].
    clear He. unfold numbers_of. induction xs as [|x xs IH]; [destruct Hin|]. simpl.
    destruct Hin as [->|Hin].
    - destruct v; simpl; eauto. now destruct (Hv n).
    - destruct x; simpl; eauto. destruct IH as (er & IH); auto. rewrite IH. simpl. eauto.
  Qed.

  Lemma unique_call : forall c e xs, uncustomised c "UNIQUE" -> eval e c = Ok (VArray xs) ->
    exists out, eval (call "UNIQUE" [e]) c = Ok (VArray (map VNumber out)) /\ firsts (numbers_in xs) out.
  Proof.
    intros c e xs Hu He. exists (rev (nodup f64_dec (rev (numbers_in xs)))). split.
    - rewrite (call_builtin "UNIQUE" _ [VArray xs]); auto. 2: { repeat constructor; auto. }
      change (Ok (VArray (unique_loop [] xs)) = Ok (VArray (map VNumber (rev (nodup f64_dec (rev (numbers_in xs))))))).
      now rewrite unique_spec.
    - apply firsts_spec.
  Qed.
  Lemma firsts_facts : forall l (out : list f64), firsts l out -> NoDup out /\ (forall x, In x out <-> In x l).
  Proof.
    induction 1 as [|l out x H [Hn Hi] Hx|l out x H [Hn Hi] Hx].
    - split; [constructor|tauto].
    - split.
      + apply NoDup_rev in Hn. rewrite <- (rev_involutive (out ++ [x])). apply NoDup_rev.
        rewrite rev_app_distr. simpl. constructor; auto. rewrite <- in_rev. now rewrite Hi.
      + intros y. rewrite !in_app_iff, Hi. tauto.
    - split; auto. intros y. rewrite in_app_iff, Hi. simpl. split; [tauto|].
      intros [?|[<-|[]]]; auto.
  Qed.

  Lemma reverse_call : forall c e xs, uncustomised c "REVERSE" -> eval e c = Ok (VArray xs) ->
    eval (call "REVERSE" [e]) c = Ok (VArray (rev xs)).
  Proof.
    intros. rewrite (call_builtin "REVERSE" _ [VArray xs]); auto. repeat constructor; auto.
  Qed.
  Lemma reverse_twice : forall c e xs, uncustomised c "REVERSE" -> eval e c = Ok (VArray xs) ->
    eval (call "REVERSE" [call "REVERSE" [e]]) c = Ok (VArray xs).
  Proof.
    intros. rewrite (reverse_call _ _ (rev xs)); auto. now rewrite rev_involutive.
    now apply reverse_call.
  Qed.
  Lemma contains_call : forall name c e d xs v, name = "CONTAINS"%string \/ name = "IN"%string ->
    uncustomised c name -> eval e c = Ok (VArray xs) -> eval d c = Ok v ->
    exists b, eval (call name [e; d]) c = Ok (VBoolean b) /\ (b = true <-> exists x, In x xs /\ same x v).
  Proof.
    intros name c e d xs v Hn Hu He Hd. exists (any_equal xs v). split; [|apply any_equal_spec].
    rewrite (call_builtin name _ [VArray xs; v]); auto; try (repeat constructor; auto; fail);
      destruct Hn as [-> | ->]; reflexivity.
  Qed.
  Lemma first_last_count : forall c e xs, uncustomised c "FIRST" -> uncustomised c "LAST" -> uncustomised c "COUNT" ->
    eval e c = Ok (VArray xs) ->
    eval (call "COUNT" [e]) c = Ok (VNumber (f_of_Z (Z.of_nat (length xs))))
    /\ (xs = [] -> (exists er, eval (call "FIRST" [e]) c = Err er) /\ (exists er, eval (call "LAST" [e]) c = Err er))
    /\ (forall x r, xs = x :: r -> eval (call "FIRST" [e]) c = Ok x)
    /\ (forall r x, xs = r ++ [x] -> eval (call "LAST" [e]) c = Ok x).
  Proof.
    intros c e xs H1 H2 H3 He.
    assert (Ht : evaluate_to c [e] [VArray xs]) by (repeat constructor; auto).
    rewrite (call_builtin "COUNT" _ [VArray xs]); auto.
    rewrite (call_builtin "FIRST" _ [VArray xs]); auto.
    rewrite (call_builtin "LAST" _ [VArray xs]); auto.
    change (exec_builtin_fast (lit "COUNT") [VArray xs]) with (fn_count [VArray xs]).
    change (exec_builtin_fast (lit "FIRST") [VArray xs]) with (fn_first [VArray xs]).
    change (exec_builtin_fast (lit "LAST") [VArray xs]) with (fn_last [VArray xs]).
    split; [reflexivity|split; [|split]].
    - intros ->. simpl. eauto.
    - intros x r ->. reflexivity.
    - intros r x ->. unfold fn_last. now rewrite last_opt_app.
  Qed.
End Calls.
