(** The cache of functions, copy-on-write variables, percentages. *)
From Coq Require Import String List ZArith NArith QArith Qabs Bool Lia Lqa Permutation.
From Coq Require Import Floats.SpecFloat.
From Verif Require Import Base F64 Syntax Ext Methods Registry FnCache Cow Pool Api Spec Spec_numbers Spec_json Spec_registry Spec_shared
  Base_proofs Rounding_proofs Number_proofs Registry_proofs Object_proofs Pool_proofs.
Import ListNotations.
Local Open Scope N_scope.

(** ** Percentages *)
Lemma nearest_between : forall x v a b, nearest x v -> is_double a -> is_double b -> (a <= v <= b)%Q -> (a <= exact x <= b)%Q.
Proof.
  intros x v a b (F & R & H & _) (y & Ry & Fy & Ey) (z & Rz & Fz & Ez) [L U]. pose proof (H y Ry Fy) as Hy. pose proof (H z Rz Fz) as Hz. rewrite Ey in Hy. rewrite Ez in Hz. split.
  - destruct (Qlt_le_dec (exact x) a) as [K|K]; [exfalso|assumption]. rewrite (Qabs_neg (exact x - v)) in Hy by lra. rewrite (Qabs_neg (a - v)) in Hy by lra. lra.
  - destruct (Qlt_le_dec b (exact x)) as [K|K]; [exfalso|assumption]. rewrite (Qabs_pos (exact x - v)) in Hz by lra. rewrite (Qabs_pos (b - v)) in Hz by lra. lra.
Qed.
Lemma rounded_between : forall x v a b, rounded x v -> is_double a -> is_double b -> (a <= v <= b)%Q -> ~ overflows a -> ~ overflows b -> (0 <= a)%Q -> is_finite x = true /\ representable x /\ (a <= exact x <= b)%Q.
Proof.
  intros x v a b R A B V Oa Ob P. assert (N : nearest x v).
  { apply rounded_nearest; [assumption|]. intros O. apply Ob. unfold overflows in *. rewrite Qabs_pos in O by lra. rewrite Qabs_pos by lra. lra. }
  split; [apply N|]. split; [apply N|]. now apply (nearest_between x v).
Qed.
Lemma percentage_range : forall a b, (Z.of_N (a + b) <= 2 ^ 53)%Z -> is_percentage (percentage a b).
Proof.
  intros a b H. unfold percentage. destruct (N.ltb_spec 0 (a + b)) as [P|P]; [|split; [reflexivity|cbn; lra]].
  assert (Ha : (Z.abs (Z.of_N a) <= 2 ^ 53)%Z) by lia. assert (Hs : (Z.abs (Z.of_N (a + b)) <= 2 ^ 53)%Z) by lia.
  destruct (of_Z_exact _ Ha) as (F1 & R1 & E1). destruct (of_Z_exact _ Hs) as (F2 & R2 & E2).
  assert (H100 : (Z.abs 100 <= 2 ^ 53)%Z) by lia. destruct (of_Z_exact _ H100) as (F3 & R3 & E3).
  assert (D0 : is_double 0) by (apply (whole_double 0); lia). assert (D1 : is_double 1) by (apply (whole_double 1); lia). assert (D100 : is_double 100) by (apply (whole_double 100); lia).
  assert (O : forall q, (0 <= q <= 100)%Q -> ~ overflows q). { intros q Q O. unfold overflows in O. rewrite Qabs_pos in O by lra. apply (Qle_trans _ _ 100) in O; [|lra].  vm_compute in O. now apply O. }
  assert (S0 : (0 < inject_Z (Z.of_N (a + b)))%Q) by (change 0%Q with (inject_Z 0); rewrite <- Zlt_Qlt; lia).
  assert (N : ~ exact (f_of_Z (Z.of_N (a + b))) == 0) by (rewrite E2; lra).
  pose proof (div_rounded _ _ F1 F2 N) as R.
  assert (V : (0 <= exact (f_of_Z (Z.of_N a)) / exact (f_of_Z (Z.of_N (a + b))) <= 1)%Q).
  { rewrite E1, E2. split; [apply Qle_shift_div_l; [assumption|]; rewrite Qmult_0_l; change 0%Q with (inject_Z 0); rewrite <- Zle_Qle; lia|]. apply Qle_shift_div_r; [assumption|]. rewrite Qmult_1_l. rewrite <- Zle_Qle. lia. }
  destruct (rounded_between _ _ 0 1 R D0 D1 V) as (Fd & Rd & Vd); [apply O; lra|apply O; lra|lra|].
  pose proof (mul_rounded _ _ Rd R3 Fd F3) as M.
  assert (E3' : (exact (f_of_Z 100) == 100)%Q) by exact E3.
  destruct (rounded_between _ _ 0 100 M D0) as (Fm & _ & Vm); [apply (whole_double 100); lia|rewrite E3'; lra|apply O; lra|apply O; lra|lra|]. now split.
Qed.

(** ** Copy-on-write variables *)
Lemma inserts_snoc : forall c kvs k v, inserts c (kvs ++ [(k, v)]) = cow_insert (inserts c kvs) k v.
Proof. intros. unfold inserts. now rewrite fold_left_app. Qed.
Lemma cow_insert_get : forall c k v j, cow_get (cow_insert c k v) j = if str_eqb j k then Some v else cow_get c j.
Proof.
  intros [b [o|]] k v j; unfold cow_get, cow_insert; cbn [cow_overlay cow_base]; rewrite mget_minsert; destruct (str_eqb j k); reflexivity.
Qed.
Lemma extend_get : forall kvs m k, NoDup (map fst kvs) -> mget k (extend m kvs) = match mget k kvs with Some v => Some v | None => mget k m end.
Proof.
  induction kvs as [|[k' v'] kvs IH]; intros m k N; [reflexivity|]. inversion N; subst. change (extend m ((k', v') :: kvs)) with (extend (minsert k' v' m) kvs). rewrite (IH _ _ ltac:(assumption)), mget_minsert. cbn [mget].
  destruct (str_eqb k k') eqn:E.
  - apply str_eqb_eq in E. subst k'. assert (mget k kvs = None) as ->; [|reflexivity]. now apply mget_none.
  - destruct (mget k kvs); reflexivity.
Qed.
Lemma mget_perm : forall V (l l' : list (str * V)) k, Permutation l l' -> NoDup (map fst l) -> mget k l = mget k l'.
Proof.
  intros V l l' k P. induction P as [|[a x] l l' P IH|[a x] [b y] l|l l' l'' P1 IH1 P2 IH2]; intros N.
  - reflexivity.
  - cbn [mget]. inversion N; subst. destruct (str_eqb k a); [reflexivity|]. now apply IH.
  - cbn [mget]. cbn [map fst] in N. destruct (str_eqb k a) eqn:E1, (str_eqb k b) eqn:E2; try reflexivity. apply str_eqb_eq in E1, E2. subst a b. inversion N as [|? ? K]; subst. exfalso. apply K. now left.
  - rewrite IH1 by assumption. apply IH2. eapply Permutation_NoDup; [|exact N]. now apply Permutation_map.
Qed.
Lemma inserts_state : forall base kvs, cow_base (inserts (cow_new base) kvs) = base /\ (cow_modified (inserts (cow_new base) kvs) = true <-> kvs <> []) /\
  match cow_overlay (inserts (cow_new base) kvs) with Some o => NoDup (mkeys o) | None => True end.
Proof.
  intros base kvs. induction kvs as [|[k v] kvs (B & M & N)] using rev_ind; [split; [reflexivity|]; split; [split; [discriminate|congruence]|exact I]|]. rewrite inserts_snoc. split; [exact B|]. split.
  - split; [intros _ K; now apply app_eq_nil in K as [_ K]|reflexivity].
  - cbn [cow_insert cow_overlay]. apply NoDup_minsert. destruct (cow_overlay (inserts (cow_new base) kvs)); [assumption|constructor].
Qed.
Lemma cow_lookup : forall base kvs k v, cow_get (inserts (cow_new base) kvs) k = Some v <-> last_value kvs k v \/ (~ In k (map fst kvs) /\ mget k base = Some v).
Proof.
  intros base kvs k v. induction kvs as [|[j w] kvs IH] using rev_ind.
  - cbn. split; [intros H; right; split; [tauto|exact H]|]. intros [([|? ?] & ? & K & _)|[_ K]]; [discriminate|discriminate|exact K].
  - rewrite inserts_snoc, cow_insert_get. destruct (str_eqb k j) eqn:E.
    + apply str_eqb_eq in E. subst j. split.
      * intros K. injection K as ->. left. exists kvs, []. split; [reflexivity|tauto].
      * intros [(a & b & K & Nb)|[K _]].
        -- destruct b as [|q b _] using rev_ind; [apply app_inj_tail in K as [_ K]; injection K as ->; reflexivity|]. rewrite app_comm_cons, app_assoc in K. apply app_inj_tail in K as [_ <-]. exfalso. apply Nb. rewrite map_app. apply in_or_app. right. now left.
        -- exfalso. apply K. rewrite map_app. apply in_or_app. right. now left.
    + apply str_eqb_neq in E. rewrite IH. split.
      * intros [(a & b & -> & Nb)|[K M]].
        -- left. exists a, (b ++ [(j, w)]). split; [now rewrite <- app_assoc|]. rewrite map_app. intros K. apply in_app_or in K as [K|[K|[]]]; [contradiction|cbn in K; congruence].
        -- right. split; [|assumption]. rewrite map_app. intros L. apply in_app_or in L as [L|[L|[]]]; [contradiction|cbn in L; congruence].
      * intros [(a & b & K & Nb)|[K M]].
        -- left. destruct b as [|q b _] using rev_ind; [apply app_inj_tail in K as [_ K]; congruence|]. rewrite app_comm_cons, app_assoc in K. apply app_inj_tail in K as [K _]. exists a, b. split; [exact K|]. intros L. apply Nb. rewrite map_app. apply in_or_app. now left.
        -- right. split; [|assumption]. intros L. apply K. rewrite map_app. apply in_or_app. now left.
Qed.
(** whatever order the overlay is iterated in *)
Lemma cow_combine : forall base kvs k c order, c = inserts (cow_new base) kvs -> (forall o, cow_overlay c = Some o -> Permutation o order) -> 
  mget k (cow_combined (mkCow (cow_base c) (match cow_overlay c with Some _ => Some order | None => None end))) = cow_get c k.
Proof.
  intros base kvs k c order -> P. destruct (inserts_state base kvs) as (B & _ & N). unfold cow_combined, cow_get. cbn [cow_overlay cow_base]. destruct (cow_overlay (inserts (cow_new base) kvs)) as [o|]; [|reflexivity].
  specialize (P o eq_refl). rewrite extend_get; [now rewrite <- (mget_perm _ o order k P N)|]. eapply Permutation_NoDup; [|exact N]. now apply Permutation_map.
Qed.
Lemma cow_shared : forall base kvs, cow_base (inserts (cow_new base) kvs) = base /\ (cow_modified (inserts (cow_new base) kvs) = true <-> kvs <> []).
Proof. intros base kvs. destruct (inserts_state base kvs) as (A & B & _). now split. Qed.

(** ** The cache of functions *)
Section Cache.
  Context {X : Ext}.
  Lemma changes_snoc : forall h e, changes (h ++ [e]) = changes h ++ match e with Change o => [o] | _ => [] end.
  Proof. intros h e. unfold changes. rewrite flat_map_app. cbn. destruct e; now rewrite ?app_nil_r. Qed.
  Lemma cache_after_snoc : forall h e, cache_after (h ++ [e]) = cache_step (cache_after h) e.
  Proof. intros. unfold cache_after. now rewrite fold_left_app. Qed.
  Lemma cache_registry : forall h, fst (cache_after h) = after (changes h).
  Proof.
    induction h as [|e h IH] using rev_ind; [reflexivity|]. rewrite cache_after_snoc, changes_snoc. destruct (cache_after h) as [r c]. cbn [fst] in IH. subst r. destruct e as [[f|n]|n|].
    - rewrite after_snoc. reflexivity.
    - rewrite after_snoc. reflexivity.
    - rewrite app_nil_r. reflexivity.
    - rewrite app_nil_r. reflexivity.
  Qed.
  Definition kept (h : list cache_event) (name : str) : option custom_fn := mget (to_uppercase name) (fc_map (snd (cache_after h))).
  Definition never (h : list cache_event) (name : str) : Prop :=
    forall a m b g, h = a ++ Look m :: b -> same_name m name -> Forall not_clear b -> ~ registered (changes a) name g.
  Lemma kept_look : forall h n name, kept (h ++ [Look n]) name =
    if str_eqb (to_uppercase name) (to_uppercase n) then match kept h name with Some f => Some f | None => reg_get (after (changes h)) name end else kept h name.
  Proof.
    intros h n name. unfold kept. rewrite cache_after_snoc, <- cache_registry. destruct (cache_after h) as [r c]. cbn [cache_step snd fst]. unfold cache_get, reg_get.
    destruct (str_eqb (to_uppercase name) (to_uppercase n)) eqn:E.
    - apply str_eqb_eq in E. rewrite E. destruct (mget (to_uppercase n) (fc_map c)) eqn:M; cbn [snd fc_map]; [now rewrite M|]. destruct (mget (to_uppercase n) r); cbn [snd fc_map]; [now rewrite mget_minsert_same|assumption].
    - destruct (mget (to_uppercase n) (fc_map c)) eqn:M; cbn [snd fc_map]; [reflexivity|]. destruct (mget (to_uppercase n) r); cbn [snd fc_map]; [|reflexivity]. now rewrite mget_minsert, E.
  Qed.
  Lemma kept_change : forall h o name, kept (h ++ [Change o]) name = kept h name.
  Proof. intros h o name. unfold kept. rewrite cache_after_snoc. destruct (cache_after h) as [r c]. now destruct o. Qed.
  Lemma kept_clear : forall h name, kept (h ++ [Clear]) name = None.
  Proof. intros h name. unfold kept. rewrite cache_after_snoc. now destruct (cache_after h) as [r c]. Qed.

  (** [h ++ [e] = a ++ Look m :: b]: the lookup is the last event or belongs to [h] *)
  Lemma last_or : forall h (e : cache_event) a m b, h ++ [e] = a ++ Look m :: b -> (a = h /\ e = Look m /\ b = []) \/ exists b', b = b' ++ [e] /\ h = a ++ Look m :: b'.
  Proof.
    intros h e a m b H. destruct b as [|x b _] using rev_ind.
    - apply app_inj_tail in H as [-> ->]. now left.
    - rewrite app_comm_cons, app_assoc in H. apply app_inj_tail in H as [-> ->]. right. exists b. now split.
  Qed.
  Lemma never_snoc : forall h e name, e <> Clear -> never h name -> (forall m g, e = Look m -> same_name m name -> ~ registered (changes h) name g) -> never (h ++ [e]) name.
  Proof.
    intros h e name Ne H K a m b g E S' F. apply last_or in E as [(-> & -> & ->)|(b' & -> & ->)]; [now apply (K m)|]. apply Forall_app in F as [F _]. now apply (H a m b').
  Qed.
  Lemma remembers_snoc : forall h e name f, e <> Clear -> remembers h name f -> remembers (h ++ [e]) name f.
  Proof.
    intros h e name f Ne (h1 & n & h2 & -> & S' & F & R & N). exists h1, n, (h2 ++ [e]). split; [now rewrite <- app_assoc|]. split; [assumption|]. split; [apply Forall_app; split; [assumption|now repeat constructor]|]. now split.
  Qed.
  Lemma kept_spec : forall h name, (forall f, kept h name = Some f -> remembers h name f) /\ (kept h name = None -> never h name) /\ (forall f, remembers h name f -> kept h name = Some f).
  Proof.
    induction h as [|e h IH] using rev_ind; intros name.
    - split; [discriminate|]. split; [intros _ [|? ?] m b g E; discriminate|]. intros f ([|? ?] & ? & ? & E & _); discriminate.
    - destruct (IH name) as (P1 & P2 & P3). destruct e as [o|n|].
      + rewrite kept_change. split; [intros f K; apply remembers_snoc; [discriminate|auto]|]. split; [intros K; apply never_snoc; [discriminate|auto|discriminate]|].
        intros f (h1 & n & h2 & E & S' & F & R & Nv). apply last_or in E as [(_ & E & _)|(b' & -> & ->)]; [discriminate|]. apply P3. exists h1, n, b'. apply Forall_app in F as [F _]. auto.
      + rewrite kept_look. destruct (str_eqb (to_uppercase name) (to_uppercase n)) eqn:E.
        * apply str_eqb_eq in E. assert (Sn : same_name n name) by now symmetry. destruct (kept h name) as [g|] eqn:K.
          -- split; [intros f L; injection L as <-; apply remembers_snoc; [discriminate|auto]|]. split; [discriminate|].
             intros f (h1 & m & h2 & Eh & S' & F & R & Nv). apply last_or in Eh as [(-> & Em & ->)|(b' & -> & ->)].
             ++ exfalso. destruct (P1 g eq_refl) as (a & m' & b & Ea & Sa & Fa & Ra & _). exact (Nv a m' b g Ea Sa Fa Ra).
             ++ rewrite <- (P3 f); [reflexivity|]. exists h1, m, b'. apply Forall_app in F as [F _]. auto.
          -- specialize (P2 eq_refl). split; [|split].
             ++ intros f L. apply after_spec in L. exists h, n, []. split; [reflexivity|]. split; [assumption|]. split; [constructor|]. now split.
             ++ intros L. apply never_snoc; [discriminate|assumption|]. intros m g _ _ R. apply after_spec in R. congruence.
             ++ intros f (h1 & m & h2 & Eh & S' & F & R & Nv). apply last_or in Eh as [(-> & Em & ->)|(b' & -> & ->)]; [now apply after_spec|].
                exfalso. apply Forall_app in F as [F _]. exact (P2 h1 m b' f eq_refl S' F R).
        * apply str_eqb_neq in E. split; [intros f K; apply remembers_snoc; [discriminate|auto]|]. split; [intros K; apply never_snoc; [discriminate|auto|]|].
          -- intros m g Em S' _. injection Em as <-. apply E. now symmetry.
          -- intros f (h1 & m & h2 & Eh & S' & F & R & Nv). apply last_or in Eh as [(-> & Em & ->)|(b' & -> & ->)]; [injection Em as <-; exfalso; apply E; now symmetry|]. apply P3. exists h1, m, b'. apply Forall_app in F as [F _]. auto.
      + rewrite kept_clear. split; [discriminate|]. split.
        * intros _ a m b g E S' F. exfalso. apply last_or in E as [(_ & E & _)|(b' & -> & _)]; [discriminate|]. apply Forall_app in F as [_ F]. inversion F as [|? ? K]. now apply K.
        * intros f (h1 & m & h2 & E & _ & F & _). exfalso. apply last_or in E as [(_ & E & _)|(b' & -> & _)]; [discriminate|]. apply Forall_app in F as [_ F]. inversion F as [|? ? K]. now apply K.
  Qed.
  Lemma answer_kept : forall h name, answer h name = match kept h name with Some f => Some f | None => reg_get (after (changes h)) name end.
  Proof.
    intros h name. unfold answer, kept. rewrite <- cache_registry. destruct (cache_after h) as [r c]. cbn [fst snd]. unfold cache_get, reg_get. destruct (mget (to_uppercase name) (fc_map c)); [reflexivity|]. now destruct (mget (to_uppercase name) r).
  Qed.
  (** ** Theorems *)
  Lemma cache_answer : forall h name f, answer h name = Some f <-> remembers h name f \/ ((forall g, ~ remembers h name g) /\ registered (changes h) name f).
  Proof.
    intros h name f. rewrite answer_kept. destruct (kept_spec h name) as (P1 & P2 & P3). destruct (kept h name) as [g|].
    - split; [intros K; left; now apply P1|]. intros [K|[K _]]; [now apply P3|]. exfalso. exact (K g (P1 g eq_refl)).
    - rewrite after_spec. split; [intros K; right; split; [|assumption]; intros g R; now apply P3 in R|]. intros [K|[_ K]]; [now apply P3 in K|assumption].
  Qed.
  Lemma registered_app : forall h1 h2 name f, Forall (fun o => ~ concerns name o) h2 -> registered (h1 ++ h2) name f <-> registered h1 name f.
  Proof.
    intros h1 h2 name f H. induction h2 as [|o h2 IH] using rev_ind; [now rewrite app_nil_r|]. apply Forall_app in H as [H K]. inversion K; subst. rewrite app_assoc, registered_step, IH by assumption. tauto.
  Qed.
  (** with no change of the name since the cache was last cleared, the cache answers like the registry *)
  Lemma cache_fresh : forall h1 h2 name f, (h1 = [] \/ exists h0, h1 = h0 ++ [Clear]) -> Forall (fun e => match e with Change o => ~ concerns name o | _ => True end) h2 ->
    answer (h1 ++ h2) name = Some f <-> registered (changes (h1 ++ h2)) name f.
  Proof.
    intros h1 h2 name f H F. rewrite cache_answer.
    assert (Q : forall a b, h1 ++ h2 = a ++ b -> (length h1 <= length a)%nat -> registered (changes a) name f <-> registered (changes (h1 ++ h2)) name f).
    { intros a b E L. assert (K : exists c, a = h1 ++ c /\ h2 = c ++ b).
      { clear - E L. revert a E L. induction h1 as [|x h1 IH]; intros a E L; [now exists a|]. destruct a as [|y a]; [cbn in L; lia|]. cbn in E. injection E as -> E. destruct (IH a E ltac:(cbn in L; lia)) as (c & -> & ->). now exists c. }
      destruct K as (c & -> & ->). apply Forall_app in F as [F1 F2].
      assert (C : forall l, Forall (fun e => match e with Change o => ~ concerns name o | _ => True end) l -> Forall (fun o => ~ concerns name o) (changes l)).
      { intros l Fl. induction Fl as [|e l He Fl IH]; [constructor|]. destruct e; cbn; auto. }
      unfold changes. rewrite !flat_map_app. fold (changes h1) (changes c) (changes b). rewrite app_assoc, (registered_app (changes h1 ++ changes c)); [reflexivity|now apply C]. }
    assert (B : forall g, remembers (h1 ++ h2) name g -> exists a m b, h1 ++ h2 = a ++ Look m :: b /\ (length h1 <= length a)%nat /\ registered (changes a) name g).
    { intros g (a & m & b & E & S' & Fb & R & _). exists a, m, b. split; [assumption|]. split; [|assumption]. destruct H as [->|(h0 & ->)]; [cbn; lia|].
      destruct (Nat.le_gt_cases (length (h0 ++ [Clear])) (length a)) as [K|K]; [assumption|exfalso].
      rewrite app_length in K. cbn in K. assert (J : exists c, h0 ++ [Clear] = a ++ Look m :: c /\ b = c ++ h2).
      { clear - E K. revert a E K. induction h0 as [|x h0 IH]; intros a E K.
        - destruct a; [|cbn in K; lia]. cbn in E. discriminate.
        - destruct a as [|y a]; cbn in E; injection E as E0 E1.
          + subst x. exists (h0 ++ [Clear]). split; [reflexivity|]. now symmetry.
          + subst y. destruct (IH a E1 ltac:(cbn in K; lia)) as (c & E2 & ->). exists c. split; [cbn; now rewrite E2|reflexivity]. }
      destruct J as (c & E2 & ->). apply last_or in E2 as [(_ & E2 & _)|(c' & -> & _)]; [discriminate|]. rewrite <- app_assoc in Fb. apply Forall_app in Fb as [_ Fb]. inversion Fb as [|? ? N]. now apply N. }
    split.
    - intros [R|[_ R]]; [|assumption]. destruct (B f R) as (a & m & b & E & L & Ra). now apply (Q a (Look m :: b) E L).
    - intros R. destruct (kept_spec (h1 ++ h2) name) as (P1 & P2 & P3). destruct (kept (h1 ++ h2) name) as [g|].
      + left. specialize (P1 g eq_refl). destruct (B g P1) as (a & m & b & E & L & Ra). apply (Q a _ E L) in R. apply after_spec in R, Ra. replace f with g by congruence. assumption.
      + right. split; [|assumption]. intros g K. now apply P3 in K.
  Qed.
  Lemma run_checked_accepts : forall name f args, accepts f (length args) -> run_checked name f args = cf_exec f args.
  Proof.
    intros name f args [L M]. unfold run_checked. cbv zeta. replace (N.of_nat (length args) <? cf_min f) with false by (symmetry; now apply N.ltb_ge).
    destruct (cf_max f) as [m|]; [|reflexivity]. specialize (M m eq_refl). now replace (m <? N.of_nat (length args)) with false by (symmetry; now apply N.ltb_ge).
  Qed.
  Lemma run_checked_refuses : forall name f args, ~ accepts f (length args) -> exists e, run_checked name f args = Err e.
  Proof.
    intros name f args H. unfold run_checked. cbv zeta. destruct (N.ltb_spec (N.of_nat (length args)) (cf_min f)) as [L|L]; [now eexists|].
    destruct (cf_max f) as [m|] eqn:M; [destruct (N.ltb_spec m (N.of_nat (length args))) as [K|K]; [now eexists|]|]; exfalso; apply H; (split; [assumption|]); intros m' E; rewrite M in E; [injection E as <-; assumption|discriminate].
  Qed.
  Lemma cached_executes : forall h name f args, answer h name = Some f -> accepts f (length args) -> 
    fst (cache_execute (fst (cache_after h)) (snd (cache_after h)) name args) = cf_exec f args.
  Proof.
    intros h name f args A P. unfold answer in A. destruct (cache_after h) as [r c]. unfold cache_execute. cbn [fst snd]. destruct (cache_get r c name) as [o c']. cbn [fst] in A. subst o. now apply run_checked_accepts.
  Qed.
  Lemma cached_refuses : forall h name f args, answer h name = Some f -> ~ accepts f (length args) -> 
    exists e, fst (cache_execute (fst (cache_after h)) (snd (cache_after h)) name args) = Err e.
  Proof.
    intros h name f args A P. unfold answer in A. destruct (cache_after h) as [r c]. unfold cache_execute. cbn [fst snd]. destruct (cache_get r c name) as [o c']. cbn [fst] in A. subst o. now apply run_checked_refuses.
  Qed.
  Lemma cached_unknown : forall h name args, answer h name = None -> 
    exists e, fst (cache_execute (fst (cache_after h)) (snd (cache_after h)) name args) = Err e.
  Proof.
    intros h name args A. unfold answer in A. destruct (cache_after h) as [r c]. unfold cache_execute. cbn [fst snd]. destruct (cache_get r c name) as [o c']. cbn [fst] in A. subst o. now eexists.
  Qed.
  (** executing a function looks it up *)
  Lemma execute_looks : forall r c name args, snd (cache_execute r c name args) = snd (cache_get r c name).
  Proof. intros. unfold cache_execute. now destruct (cache_get r c name) as [[f|] c']. Qed.

  (** ** Statistics *)
  Lemma hits_new : hits [] = 0 /\ misses [] = 0.
  Proof. now split. Qed.
  Lemma hits_clear : forall h, hits (h ++ [Clear]) = 0 /\ misses (h ++ [Clear]) = 0.
  Proof. intros h. unfold hits, misses. rewrite cache_after_snoc. now destruct (cache_after h). Qed.
  Lemma hits_change : forall h o, hits (h ++ [Change o]) = hits h /\ misses (h ++ [Change o]) = misses h.
  Proof. intros h o. unfold hits, misses. rewrite cache_after_snoc. destruct (cache_after h) as [r c]. now destruct o. Qed.
  Lemma look_result : forall h n, hits (h ++ [Look n]) = (match kept h n with Some _ => hits h + 1 | None => hits h end) /\
    misses (h ++ [Look n]) = match kept h n with Some _ => misses h | None => match reg_get (after (changes h)) n with Some _ => misses h + 1 | None => misses h end end.
  Proof.
    intros h n. unfold hits, misses, kept. rewrite cache_after_snoc, <- cache_registry. destruct (cache_after h) as [r c]. cbn [cache_step snd fst]. unfold cache_get, reg_get, cache_stats.
    destruct (mget (to_uppercase n) (fc_map c)); cbn [fst snd fc_hits fc_misses]; [now split|]. destruct (mget (to_uppercase n) r); cbn [fst snd fc_hits fc_misses]; now split.
  Qed.
  Lemma look_hit : forall h n f, remembers h n f -> hits (h ++ [Look n]) = hits h + 1 /\ misses (h ++ [Look n]) = misses h.
  Proof. intros h n f R. destruct (kept_spec h n) as (_ & _ & P). apply P in R. destruct (look_result h n) as [A B]. rewrite A, B, R. now split. Qed.
  Lemma look_miss : forall h n f, (forall g, ~ remembers h n g) -> registered (changes h) n f -> hits (h ++ [Look n]) = hits h /\ misses (h ++ [Look n]) = misses h + 1.
  Proof.
    intros h n f N R. destruct (kept_spec h n) as (P1 & _ & _). destruct (look_result h n) as [A B]. rewrite A, B. destruct (kept h n) as [g|]; [exfalso; exact (N g (P1 g eq_refl))|].
    apply after_spec in R. rewrite R. now split.
  Qed.
  Lemma look_unknown : forall h n, (forall g, ~ remembers h n g) -> (forall f, ~ registered (changes h) n f) -> hits (h ++ [Look n]) = hits h /\ misses (h ++ [Look n]) = misses h.
  Proof.
    intros h n N R. destruct (kept_spec h n) as (P1 & _ & _). destruct (look_result h n) as [A B]. rewrite A, B. destruct (kept h n) as [g|]; [exfalso; exact (N g (P1 g eq_refl))|].
    destruct (reg_get (after (changes h)) n) as [f|] eqn:E; [|now split]. apply after_spec in E. exfalso. exact (R f E).
  Qed.
  Lemma hit_rate : forall h, (Z.of_N (hits h + misses h) <= 2 ^ 53)%Z -> is_percentage (snd (cache_stats (snd (cache_after h)))).
  Proof. intros h. unfold hits, misses, cache_stats. cbn [fst snd]. apply percentage_range. Qed.

  (** ** The shared registry *)
  Lemma shared_step_one : forall r o, shared_step r o = after_one r o.
  Proof. intros r [f|n]; reflexivity. Qed.
  Lemma shared_after_eq : forall h, shared_after h = after h.
  Proof.
    intros h. unfold shared_after, after. generalize reg_new. induction h as [|o h IH]; intros r; [reflexivity|]. cbn [fold_left]. now rewrite shared_step_one, IH.
  Qed.
  Lemma shared_has_spec : forall h name, shared_has (shared_after h) name = true <-> exists f, registered h name f.
  Proof. intros h name. rewrite shared_after_eq. exact (has_spec h name). Qed.
  Lemma shared_list_spec : forall h, NoDup (shared_list (shared_after h)) /\
    forall n, In n (shared_list (shared_after h)) <-> exists f, registered h (cf_name f) f /\ n = to_uppercase (cf_name f).
  Proof. intros h. rewrite shared_after_eq. exact (list_spec h). Qed.
  Lemma shared_len_spec : forall h, shared_len (shared_after h) = length (shared_list (shared_after h)) /\ 
    (shared_is_empty (shared_after h) = true <-> forall name f, ~ registered h name f).
  Proof.
    intros h. split; [symmetry; apply map_length|]. rewrite shared_after_eq. unfold shared_is_empty. split.
    - intros E name f R. apply after_spec in R. unfold reg_get in R. destruct (after h); discriminate.
    - intros E. destruct (after h) as [|[k f] r] eqn:A; [reflexivity|]. exfalso. assert (I : In k (mkeys (after h))) by (rewrite A; now left). apply keys_spec in I as (g & R & _). exact (E _ _ R).
  Qed.
  Lemma shared_executes : forall h name f args, registered h name f -> accepts f (length args) -> shared_execute (shared_after h) name args = cf_exec f args.
  Proof.
    intros h name f args R A. rewrite shared_after_eq. apply after_spec in R. unfold reg_get in R. unfold shared_execute. rewrite R. now apply run_checked_accepts.
  Qed.
  Lemma shared_refuses : forall h name f args, registered h name f -> ~ accepts f (length args) -> exists e, shared_execute (shared_after h) name args = Err e.
  Proof.
    intros h name f args R A. rewrite shared_after_eq. apply after_spec in R. unfold reg_get in R. unfold shared_execute. rewrite R. now apply run_checked_refuses.
  Qed.
  Lemma shared_unknown : forall h name args, (forall f, ~ registered h name f) -> exists e, shared_execute (shared_after h) name args = Err e.
  Proof.
    intros h name args R. rewrite shared_after_eq. unfold shared_execute. destruct (mget (to_uppercase name) (after h)) as [f|] eqn:E; [|now eexists]. exfalso. apply (R f). now apply after_spec.
  Qed.
  Lemma shared_register_spec : forall h f, (exists r, shared_register (shared_after h) f = Ok r) <-> well_formed f.
  Proof. intros h f. rewrite shared_after_eq. exact (register_spec h f). Qed.
  Lemma shared_unregister_spec : forall h name, fst (shared_unregister (shared_after h) name) = true <-> exists f, registered h name f.
  Proof. intros h name. rewrite shared_after_eq. exact (unregister_spec h name). Qed.
End Cache.
