(** Array, number and object methods; unknown methods; missing arguments. *)
From Coq Require Import String List ZArith NArith Bool Lia QArith Qabs Sorting Permutation.
From Coq Require Import Floats.SpecFloat.
From Verif Require Import Base Base_proofs F64 F64Text Syntax Ext Json Utils Arrays Arith Utf8 Strings Dispatch Methods Core Evaluator Api Spec Spec_syntax Spec_text Spec_numbers Spec_json Spec_http Spec_methods Spec_stats.
From Verif Require Import Float_proofs Text_proofs Display_proofs Cast_proofs Array_proofs String_proofs Logic_proofs Value_proofs DateFn_proofs HttpRead_proofs Rounding_proofs Number_proofs Object_proofs Debug_proofs Eval_proofs Sqrt_proofs Method_proofs.
Import ListNotations.
Local Open Scope Z_scope.

Ltac method_call Hv S0 := rewrite (method_run _ _ _ _ _ Hv); unfold exec_method, exec_conversion, exec_string_method, exec_array_method, exec_number_method, exec_json_method;
  rewrite !(spelled_lower _ _ S0) by reflexivity; name_tests.
Ltac first_arg Ha := cbn [margs_of map arg0 m_eval]; unfold argument in Ha; rewrite Ha; cbn [bind str_of num_of].
Ltac cases I := repeat (destruct I as [<-|I]); [..|contradiction I].

Section ArrayMethods.
  Context {X : Ext}.
  Lemma array_length : forall c t xs n args, any_of ["length"; "len"; "count"]%string n -> eval t c = Ok (VArray xs) -> eval (method t n args) c = Ok (num (Z.of_nat (length xs))).
  Proof. intros c t xs n args (name & I & S0) Hv. destruct I as [<-|[<-|[<-|[]]]]; method_call Hv S0; reflexivity. Qed.
  Lemma array_first : forall c t xs n args, spelled "first" n -> eval t c = Ok (VArray xs) -> eval (method t n args) c = Ok (hd VNull xs).
  Proof. intros c t xs n args S0 Hv. method_call Hv S0. destruct xs; reflexivity. Qed.
  Lemma last_opt_last : forall (xs : list value), match last_opt xs with Some x => x | None => VNull end = last xs VNull.
  Proof. intros xs. destruct xs as [|x xs] using rev_ind; [reflexivity|]. now rewrite last_opt_app, last_last. Qed.
  Lemma array_last : forall c t xs n args, spelled "last" n -> eval t c = Ok (VArray xs) -> eval (method t n args) c = Ok (last xs VNull).
  Proof. intros c t xs n args S0 Hv. method_call Hv S0. now rewrite last_opt_last. Qed.
  Lemma array_reverse : forall c t xs n args, spelled "reverse" n -> eval t c = Ok (VArray xs) -> eval (method t n args) c = Ok (VArray (rev xs)).
  Proof. intros c t xs n args S0 Hv. method_call Hv S0. reflexivity. Qed.
  Lemma debug_eq : forall v w, doubles v -> doubles w -> value_debug v = value_debug w -> v = w.
  Proof.
    intros v w D1 D2 E. destruct (debug_inj v D1 w [] [] D2) as [H _]; auto; [now left|now left|now rewrite E].
  Qed.
  Lemma unique_debug_firsts : forall xs l acc seen, Forall doubles l -> Forall doubles xs -> firsts l acc -> (forall k, In k seen <-> exists v, In v l /\ k = value_debug v) ->
    firsts (l ++ xs) (acc ++ unique_debug seen xs).
  Proof.
    induction xs as [|v xs IH]; intros l acc seen Dl Dx F S0; cbn [unique_debug]; [now rewrite !app_nil_r|]. inversion Dx as [|? ? Dv Dxs]; subst.
    replace (l ++ v :: xs) with ((l ++ [v]) ++ xs) by now rewrite <- app_assoc. assert (Dl' : Forall doubles (l ++ [v])) by (apply Forall_app; split; auto).
    assert (K : existsb (str_eqb (value_debug v)) seen = true <-> In v l).
    { rewrite existsb_exists. split.
      - intros (k & Hk & E). apply str_eqb_eq in E. subst k. apply S0 in Hk as (w & Hw & E). rewrite (debug_eq v w); auto. rewrite Forall_forall in Dl. auto.
      - intros H. exists (value_debug v). split; [|apply str_eqb_refl]. apply S0. eauto. }
    destruct (existsb (str_eqb (value_debug v)) seen).
    - apply IH; auto; [apply firsts_old; [assumption|now apply K]|]. intros k. rewrite S0. split; intros (w & Hw & E).
      + exists w. split; [apply in_app_iff; now left|assumption].
      + apply in_app_iff in Hw as [Hw|[<-|[]]]; [eauto|]. exists v. split; [now apply K|assumption].
    - replace (acc ++ v :: unique_debug (value_debug v :: seen) xs) with ((acc ++ [v]) ++ unique_debug (value_debug v :: seen) xs) by now rewrite <- app_assoc.
      apply IH; auto; [apply firsts_new; [assumption|intros H; apply K in H; discriminate]|]. intros k. cbn [In]. rewrite S0. split.
      + intros [<-|(w & Hw & E)]; [exists v; split; [apply in_app_iff; right; now left|reflexivity]|exists w; split; [apply in_app_iff; now left|assumption]].
      + intros (w & Hw & E). apply in_app_iff in Hw as [Hw|[<-|[]]]; [right; eauto|left; now symmetry].
  Qed.
  Lemma array_unique : forall c t xs n args, spelled "unique" n -> eval t c = Ok (VArray xs) -> Forall doubles xs ->
    exists out, eval (method t n args) c = Ok (VArray out) /\ firsts xs out.
  Proof.
    intros c t xs n args S0 Hv D. exists (unique_debug [] xs). split; [method_call Hv S0; reflexivity|].
    apply (unique_debug_firsts xs [] [] []); auto; [constructor|]. intros k. split; [contradiction|]. intros (v & [] & _).
  Qed.
  (** ** Sorting *)
  Lemma insert_desc_perm : forall x xs, Permutation (insert_desc x xs) (x :: xs).
  Proof. induction xs as [|y xs IH]; cbn; auto. destruct (f_leb y x); auto. rewrite IH. apply perm_swap. Qed.
  Lemma desc_perm : forall xs, Permutation (fold_right insert_desc [] xs) xs.
  Proof. induction xs as [|x xs IH]; cbn; auto. rewrite insert_desc_perm. now constructor. Qed.
  Definition f_ge (x y : f64) : Prop := f_le y x.
  Lemma insert_desc_sorted : forall x xs, Forall not_nan (x :: xs) -> StronglySorted f_ge xs -> StronglySorted f_ge (insert_desc x xs).
  Proof.
    intros x xs Hn Hs. inversion Hn as [|? ? Hx Hxs]; subst. clear Hn. induction Hs as [|y ys Hs IH Hy]; cbn [insert_desc].
    - constructor; constructor.
    - inversion Hxs; subst. destruct (f_leb y x) eqn:E.
      + constructor; [constructor; auto|]. constructor; auto. eapply Forall_impl; [|exact Hy]. unfold f_ge. intros a Ha. eapply f_le_trans; eauto.
      + constructor; auto. apply Forall_forall. intros z Hz. apply (Permutation_in _ (insert_desc_perm x ys)) in Hz. destruct Hz as [<-|Hz].
        * unfold f_ge. now apply f_le_total.
        * rewrite Forall_forall in Hy. auto.
  Qed.
  Lemma desc_sorted : forall xs, Forall not_nan xs -> StronglySorted f_ge (fold_right insert_desc [] xs).
  Proof.
    induction 1 as [|x xs H H0 IH]; cbn; [constructor|]. apply insert_desc_sorted; auto. constructor; auto. rewrite Forall_forall in *. intros z Hz. apply H0. eapply Permutation_in; [apply desc_perm|]; auto.
  Qed.
  Lemma insert_desc_stable : forall p x xs, (forall y, In y xs -> p x = true -> p y = true -> f_leb y x = true) -> filter p (insert_desc x xs) = filter p (x :: xs).
  Proof.
    induction xs as [|y xs IH]; intros H; auto. cbn [insert_desc]. destruct (f_leb y x) eqn:E; auto.
    assert (filter p (y :: insert_desc x xs) = filter p (y :: x :: xs)) as ->. { cbn [filter]. rewrite IH; auto. intros; apply H; cbn; auto. }
    cbn [filter]. destruct (p x) eqn:Ex, (p y) eqn:Ey; auto. rewrite (H y) in E; cbn; auto; discriminate.
  Qed.
  Lemma desc_stable : forall x xs, filter (f_eqb x) (fold_right insert_desc [] xs) = filter (f_eqb x) xs.
  Proof.
    intros x xs. induction xs as [|y xs IH]; [reflexivity|]. cbn [fold_right]. rewrite insert_desc_stable.
    - cbn [filter]. now rewrite IH.
    - intros z _ H1 H2. eapply f_eqb_le; eauto.
  Qed.
  Lemma nums_map : forall e ns, mapM (fun v => num_of v e) (map VNumber ns) = Ok ns.
  Proof. intros e ns. induction ns as [|x ns IH]; [reflexivity|]. cbn [map mapM num_of bind]. rewrite IH. reflexivity. Qed.
  Lemma sort_method_ok : forall desc ns, Forall not_nan ns -> sort_method desc ns = Ok (if desc then fold_right insert_desc [] ns else insertion_sort ns).
  Proof. intros desc ns H. unfold sort_method. rewrite existsb_nan_false, andb_false_r by assumption. reflexivity. Qed.
  Lemma sort_up : forall ns, Forall not_nan ns -> Permutation ns (insertion_sort ns) /\ StronglySorted f_le (insertion_sort ns) /\ (forall x, filter (f_eqb x) (insertion_sort ns) = filter (f_eqb x) ns).
  Proof. intros ns H. split; [symmetry; apply insertion_sort_perm|split; [now apply insertion_sort_sorted|intros x; apply insertion_sort_stable]]. Qed.
  Lemma array_sort : forall c t ns n, spelled "sort" n -> eval t c = Ok (VArray (map VNumber ns)) -> Forall not_nan ns ->
    exists out, eval (method t n []) c = Ok (VArray (map VNumber out)) /\ Permutation ns out /\ StronglySorted f_le out /\ (forall x, filter (f_eqb x) out = filter (f_eqb x) ns).
  Proof.
    intros c t ns n S0 Hv Hn. exists (insertion_sort ns). split; [|now apply sort_up]. method_call Hv S0. cbn [margs_of map bind]. rewrite nums_map. cbn [bind]. rewrite sort_method_ok by assumption. reflexivity.
  Qed.
  Lemma upper_desc : forall s, ascii s -> is (to_uppercase s) "DESC" = true <-> says_desc s.
  Proof.
    intros s A. assert (U : to_uppercase s = map upper_ascii s).
    { clear - A. induction A as [|ch s H A IH]; [reflexivity|]. unfold to_uppercase in *. cbn [flat_map map]. rewrite IH. unfold upper_char, is_ascii. apply N.ltb_lt in H. now rewrite H. }
    unfold is. rewrite U, str_eqb_eq. unfold says_desc.
    assert (K : forall a b ch, is_upper_ascii a = true -> b = (a + 32)%N -> (upper_ascii ch = a <-> lower_ascii ch = b)).
    { intros a b ch Ha ->. unfold upper_ascii, lower_ascii, is_lower_ascii, is_upper_ascii in *. apply andb_true_iff in Ha as [A1 A2]. apply N.leb_le in A1, A2.
      destruct (97 <=? ch)%N eqn:B1, (ch <=? 122)%N eqn:B2, (65 <=? ch)%N eqn:B3, (ch <=? 90)%N eqn:B4; cbn [andb]; rewrite ?N.leb_le, ?N.leb_gt in *; lia. }
    destruct s as [|a [|b [|d [|e [|? ?]]]]]; cbn; try (split; discriminate).
    split; intros H; injection H as H1 H2 H3 H4; f_equal; [eapply K|f_equal; [eapply K|f_equal; [eapply K|f_equal; eapply K]]|eapply K|f_equal; [eapply K|f_equal; [eapply K|f_equal; eapply K]]]; try eassumption; reflexivity.
  Qed.
  Lemma array_sort_order : forall c t ns n a s more, spelled "sort" n -> eval t c = Ok (VArray (map VNumber ns)) -> Forall not_nan ns -> argument c a (VString s) -> ascii s ->
    exists out, eval (method t n (a :: more)) c = Ok (VArray (map VNumber out)) /\ Permutation ns out /\ (forall x, filter (f_eqb x) out = filter (f_eqb x) ns)
      /\ (says_desc s -> StronglySorted (fun x y => f_le y x) out) /\ (~ says_desc s -> StronglySorted f_le out).
  Proof.
    intros c t ns n a s more S0 Hv Hn Ha A. pose proof (upper_desc s A) as U. exists (if is (to_uppercase s) "DESC" then fold_right insert_desc [] ns else insertion_sort ns). split.
    - rewrite (method_run _ _ _ _ _ Hv). unfold exec_method, exec_array_method. rewrite !(spelled_lower _ _ S0) by reflexivity. cbv zeta.
      repeat (match goal with
          | |- context [one_of ?l (lit "sort")] => let b := eval vm_compute in (one_of l (lit "sort")) in change (one_of l (lit "sort")) with b
          | |- context [is (lit "sort") ?s] => let b := eval vm_compute in (is (lit "sort") s) in change (is (lit "sort") s) with b
          end; cbv iota).
      cbn [margs_of map m_eval]. unfold argument in Ha. rewrite Ha. cbn [bind]. rewrite nums_map. cbn [bind]. rewrite sort_method_ok by assumption. reflexivity.
    - destruct (is (to_uppercase s) "DESC").
      + split; [symmetry; apply desc_perm|]. split; [intros x; apply desc_stable|]. split; [intros _; now apply desc_sorted|intros H; exfalso; apply H; now apply U].
      + destruct (sort_up ns Hn) as (P & S1 & F). split; [assumption|]. split; [assumption|]. split; [|auto]. intros H. apply U in H. discriminate.
  Qed.
  Lemma array_sort_rejects : forall c t xs n v, spelled "sort" n -> eval t c = Ok (VArray xs) -> In v xs -> (forall x, v <> VNumber x) -> fails (eval (method t n []) c).
  Proof.
    intros c t xs n v S0 Hv I N0. method_call Hv S0. cbn [margs_of map bind]. assert (K : exists e, mapM (fun v => num_of v (err "sort expects numeric array")) xs = Err e).
    { clear Hv. induction xs as [|w xs IH]; [contradiction|]. cbn [mapM]. destruct I as [->|I].
      - destruct v; try (eexists; reflexivity). now destruct (N0 n0).
      - destruct (IH I) as [e E]. destruct w; cbn [num_of bind]; try (eexists; reflexivity). rewrite E. eexists. reflexivity. }
    destruct K as [e ->]. eexists. reflexivity.
  Qed.
  (** ** Aggregates *)
  Lemma nums_of_figures : forall e xs fs, all_figures xs fs -> nums_of e xs = Ok fs.
  Proof.
    intros e xs fs H. unfold nums_of. induction H as [|v f xs fs H H0 IH]; [reflexivity|]. cbn [mapM]. destruct H as [-> | ->]; cbn [bind]; rewrite IH; reflexivity.
  Qed.
  Lemma nums_of_rejects : forall e xs v, In v xs -> (forall x, v <> VNumber x /\ v <> VCurrency x) -> nums_of e xs = Err e.
  Proof.
    intros e xs v I N0. unfold nums_of. induction xs as [|w xs IH]; [contradiction|]. cbn [mapM]. destruct I as [->|I].
    - destruct v as [x| | | | |x| |]; try reflexivity; now destruct (N0 x).
    - destruct w; cbn [bind]; try reflexivity; rewrite (IH I); reflexivity.
  Qed.
  Lemma array_sum : forall c t xs fs n args, spelled "sum" n -> eval t c = Ok (VArray xs) -> all_figures xs fs -> eval (method t n args) c = Ok (VNumber (Spec.total fs)).
  Proof. intros c t xs fs n args S0 Hv F. method_call Hv S0. rewrite (nums_of_figures _ _ _ F). reflexivity. Qed.
  Lemma figures_length : forall xs fs, all_figures xs fs -> length xs = length fs.
  Proof. intros xs fs F. induction F; cbn; congruence. Qed.
  Lemma array_avg : forall c t xs fs n args, any_of ["avg"; "average"]%string n -> eval t c = Ok (VArray xs) -> all_figures xs fs -> eval (method t n args) c = Ok (VNumber (mean fs)).
  Proof.
    intros c t xs fs n args (name & I & S0) Hv F. pose proof (figures_length _ _ F) as L. destruct I as [<-|[<-|[]]]; method_call Hv S0;
    (destruct xs as [|x xs]; [inversion F; reflexivity|]; rewrite (nums_of_figures _ _ _ F); cbn [bind]; destruct fs; [discriminate|]; unfold mean, zlen, Spec.total; now rewrite L).
  Qed.
  Lemma pick_method_opt : forall pick fs, (forall x, pick f_nan x = x /\ pick x f_nan = x) -> forall o, fold_left (fun cur n => Some (match cur with None => n | Some c => pick n c end)) fs o
    = fold_left (pick_opt (fun x y => pick y x)) fs o.
  Proof. intros pick fs H. induction fs as [|x fs IH]; intros o; [reflexivity|]. cbn [fold_left]. rewrite IH. destruct o; reflexivity. Qed.
  Lemma or_default_zero : forall o, or_default o = or_zero o.
  Proof. intros [|]; reflexivity. Qed.
  Lemma f_min_nan_l : forall x, f_min f_nan x = x.
  Proof. intros x. destruct x as [[]|[]| |]; reflexivity. Qed.
  Lemma f_max_nan_l : forall x, f_max f_nan x = x.
  Proof. intros x. destruct x as [[]|[]| |]; reflexivity. Qed.
  Lemma array_min : forall c t xs fs n args, spelled "min" n -> eval t c = Ok (VArray xs) -> all_figures xs fs -> fs <> [] ->
    exists m, eval (method t n args) c = Ok (VNumber m) /\ extreme f_le fs m.
  Proof.
    intros c t xs fs n args S0 Hv F N0. exists (or_default (pick_method f_min fs)). split.
    - method_call Hv S0. destruct xs as [|x xs]; [inversion F; subst; congruence|]. rewrite (nums_of_figures _ _ _ F). reflexivity.
    - unfold pick_method. rewrite pick_method_opt by (intros x; split; [apply f_min_nan_l|apply f_min_nan_r]). rewrite or_default_zero.
      apply pick_extreme_all; auto using f_le_refl, f_min_nan_l, f_min_nan_r; [intros; eapply f_le_trans; eauto|]. intros x y Hx Hy. destruct (f_min_ok y x Hy Hx) as [[E L]|[E L]]; auto.
  Qed.
  Lemma array_max : forall c t xs fs n args, spelled "max" n -> eval t c = Ok (VArray xs) -> all_figures xs fs -> fs <> [] ->
    exists m, eval (method t n args) c = Ok (VNumber m) /\ extreme (fun x y => f_le y x) fs m.
  Proof.
    intros c t xs fs n args S0 Hv F N0. exists (or_default (pick_method f_max fs)). split.
    - method_call Hv S0. destruct xs as [|x xs]; [inversion F; subst; congruence|]. rewrite (nums_of_figures _ _ _ F). reflexivity.
    - unfold pick_method. rewrite pick_method_opt by (intros x; split; [apply f_max_nan_l|apply f_max_nan_r]). rewrite or_default_zero.
      apply pick_extreme_all; auto using f_le_refl, f_max_nan_l, f_max_nan_r; [intros; eapply f_le_trans; eauto|]. intros x y Hx Hy. destruct (f_max_ok y x Hy Hx) as [[E L]|[E L]]; auto.
  Qed.
  Lemma array_min_empty : forall c t n args, any_of ["min"; "max"]%string n -> eval t c = Ok (VArray []) -> eval (method t n args) c = Ok VNull.
  Proof. intros c t n args (name & I & S0) Hv. destruct I as [<-|[<-|[]]]; method_call Hv S0; reflexivity. Qed.
  Lemma array_figures_only : forall c t xs n args v, any_of ["sum"; "avg"; "average"; "min"; "max"]%string n -> eval t c = Ok (VArray xs) -> In v xs -> (forall x, v <> VNumber x /\ v <> VCurrency x) ->
    fails (eval (method t n args) c).
  Proof.
    intros c t xs n args v (name & I & S0) Hv J N0. destruct I as [<-|[<-|[<-|[<-|[<-|[]]]]]]; method_call Hv S0; (destruct xs; [contradiction|]); rewrite (nums_of_rejects _ _ v J N0); eexists; reflexivity.
  Qed.
  (** ** Joining *)
  Lemma join_texts : forall xs, Forall doubles xs -> Forall (fun v => (exists s, v = VString s) \/ (exists x, v = VNumber x) \/ exists b, v = VBoolean b) xs ->
    exists ss, mapM join_text xs = Ok ss /\ Forall2 join_writes xs ss.
  Proof.
    intros xs D F. induction F as [|v xs H F IH]; [exists []; split; constructor|]. inversion D as [|? ? Dv Dx]; subst. destruct (IH Dx) as (ss & E & K).
    destruct H as [(s & ->)|[(x & ->)|(b & ->)]]; cbn [mapM join_text bind]; rewrite E; cbn [bind]; eexists; (split; [reflexivity|constructor; [|assumption]]); cbn [join_writes]; auto. apply display_text. exact Dv.
  Qed.
  Lemma array_join : forall c t xs n args sep, spelled "join" n -> eval t c = Ok (VArray xs) -> Forall doubles xs ->
    Forall (fun v => (exists s, v = VString s) \/ (exists x, v = VNumber x) \/ exists b, v = VBoolean b) xs ->
    (args = [] /\ sep = lit "," \/ exists a more, args = a :: more /\ argument c a (VString sep)) ->
    exists ss s, eval (method t n args) c = Ok (VString s) /\ Forall2 join_writes xs ss /\ joined sep ss s.
  Proof.
    intros c t xs n args sep S0 Hv D F H. destruct (join_texts xs D F) as (ss & E & K). exists ss, (join sep ss). split; [|split; [assumption|apply join_joined]]. method_call Hv S0.
    destruct H as [[-> ->]|(a & more & -> & Ha)]; cbn [margs_of map m_eval]; unfold argument in *; rewrite ?Ha; cbn [bind]; rewrite E; reflexivity.
  Qed.
  Lemma array_join_rejects : forall c t xs n v, spelled "join" n -> eval t c = Ok (VArray xs) -> In v xs -> join_text v = Err (err "join method cannot convert value to string") -> fails (eval (method t n []) c).
  Proof.
    intros c t xs n v S0 Hv I N0. method_call Hv S0. cbn [margs_of map bind]. assert (K : exists e, mapM join_text xs = Err e).
    { clear Hv. induction xs as [|w xs IH]; [contradiction|]. cbn [mapM]. destruct I as [->|I].
      - rewrite N0. eexists. reflexivity.
      - destruct (IH I) as [e E]. destruct w; cbn [join_text bind]; rewrite ?E; eexists; reflexivity. }
    destruct K as [e ->]. eexists. reflexivity.
  Qed.
  Lemma array_contains : forall c t xs n a v more, any_of ["contains"; "includes"]%string n -> eval t c = Ok (VArray xs) -> argument c a v -> decides (eval (method t n (a :: more)) c) (exists x, In x xs /\ same x v).
  Proof.
    intros c t xs n a v more (name & I & S0) Hv Ha. destruct I as [<-|[<-|[]]]; method_call Hv S0; first_arg Ha; apply decides_reflect; rewrite existsb_exists; split; intros (x & J & E); exists x; (split; [assumption|now apply values_equal_same]).
  Qed.
  Lemma array_flatten : forall c t xs n args, spelled "flatten" n -> eval t c = Ok (VArray xs) -> exists ls, eval (method t n args) c = Ok (VArray ls) /\ leaves_of (VArray xs) ls.
  Proof. intros c t xs n args S0 Hv. exists (flatten (VArray xs)). split; [|apply flatten_leaves]. method_call Hv S0. reflexivity. Qed.
  Lemma array_compact : forall c t xs n args, spelled "compact" n -> eval t c = Ok (VArray xs) -> exists out, eval (method t n args) c = Ok (VArray out) /\ without_nulls xs out.
  Proof.
    intros c t xs n args S0 Hv. eexists. split; [method_call Hv S0; reflexivity|]. clear. induction xs as [|v xs IH]; [constructor|]. cbn [filter]. destruct v; constructor; auto; discriminate.
  Qed.
End ArrayMethods.
