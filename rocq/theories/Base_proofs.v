(** Lemmas about texts, outcomes and finite maps. *)
From Coq Require Import String List ZArith NArith Bool Lia.
From Verif Require Import Base.
Import ListNotations.

Lemma str_eqb_eq : forall a b, str_eqb a b = true <-> a = b.
Proof.
  induction a as [|x a IH]; destruct b as [|y b]; simpl; split; intros H; try congruence.
  - apply andb_true_iff in H as [H1 H2]. apply N.eqb_eq in H1. apply IH in H2. congruence.
  - injection H as -> ->. rewrite N.eqb_refl. simpl. now apply IH.
Qed.
Lemma str_eqb_refl : forall a, str_eqb a a = true.
Proof. intros. now apply str_eqb_eq. Qed.
Lemma str_eqb_neq : forall a b, str_eqb a b = false <-> a <> b.
Proof.
  intros. rewrite <- str_eqb_eq. destruct (str_eqb a b); split; congruence.
Qed.
Lemma str_eqb_sym : forall a b, str_eqb a b = str_eqb b a.
Proof.
  intros. destruct (str_eqb a b) eqn:E; symmetry.
  - apply str_eqb_eq in E. subst. apply str_eqb_refl.
  - apply str_eqb_neq in E. apply str_eqb_neq. congruence.
Qed.
Lemma str_dec : forall a b : str, {a = b} + {a <> b}.
Proof. apply list_eq_dec, N.eq_dec. Qed.

(** ** Order *)
Lemma str_cmp_refl : forall a, str_cmp a a = Eq.
Proof. induction a; simpl; auto. now rewrite N.compare_refl. Qed.
Lemma str_cmp_eq : forall a b, str_cmp a b = Eq <-> a = b.
Proof.
  induction a as [|x a IH]; destruct b as [|y b]; simpl; split; intros H; try congruence.
  - destruct (N.compare_spec x y); try congruence. apply IH in H. congruence.
  - injection H as -> ->. rewrite N.compare_refl. now apply IH.
Qed.
Lemma str_cmp_antisym : forall a b, str_cmp b a = CompOpp (str_cmp a b).
Proof.
  induction a as [|x a IH]; destruct b as [|y b]; simpl; auto.
  rewrite (N.compare_antisym x y). destruct (N.compare x y); simpl; auto.
Qed.
Lemma str_cmp_lt_trans : forall a b c, str_cmp a b = Lt -> str_cmp b c = Lt -> str_cmp a c = Lt.
Proof.
  induction a as [|x a IH]; destruct b as [|y b]; destruct c as [|z c]; simpl; intros H1 H2; try congruence.
  destruct (N.compare_spec x y); destruct (N.compare_spec y z); try congruence; subst.
  - rewrite N.compare_refl. eauto.
  - destruct (N.compare_spec y z); try lia; auto.
  - destruct (N.compare_spec x z); try lia; auto.
  - destruct (N.compare_spec x z); try lia; auto.
Qed.

(** ** Outcomes *)
Lemma bind_ok : forall A B (r : res A) (k : A -> res B) b,
  bind r k = Ok b -> exists a, r = Ok a /\ k a = Ok b.
Proof. intros A B [a|e|w] k b; simpl; intros; try discriminate. eauto. Qed.
Lemma mapM_ok : forall A B (f : A -> res B) xs ys, mapM f xs = Ok ys <-> Forall2 (fun x y => f x = Ok y) xs ys.
Proof.
  induction xs as [|x xs IH]; intros ys; simpl; split; intros H.
  - injection H as <-. constructor.
  - inversion H; auto.
  - apply bind_ok in H as (y & E & H). apply bind_ok in H as (ys' & E2 & H).
    injection H as <-. constructor; auto. now apply IH.
  - inversion H as [|? y ? ys' E F]; subst. rewrite E. simpl.
    apply IH in F. now rewrite F.
Qed.
Lemma mapM_map : forall A B C (g : A -> B) (f : B -> res C) xs,
  mapM f (map g xs) = mapM (fun x => f (g x)) xs.
Proof. induction xs; simpl; auto. now rewrite IHxs. Qed.
Lemma mapM_ext : forall A B (f g : A -> res B) xs, (forall x, In x xs -> f x = g x) -> mapM f xs = mapM g xs.
Proof.
  induction xs; simpl; intros H; auto. rewrite H by auto. now rewrite IHxs by auto.
Qed.
Lemma mapM_pure : forall A B (f : A -> res B) (g : A -> B) xs,
  (forall x, In x xs -> f x = Ok (g x)) -> mapM f xs = Ok (map g xs).
Proof.
  induction xs; simpl; intros H; auto. rewrite H by auto. simpl. now rewrite IHxs by auto.
Qed.

(** ** Maps *)
Section Maps.
  Context {V : Type}.
  Implicit Types m : smap V.
  Lemma mget_mremove_same : forall k m, mget k (mremove k m) = None.
  Proof.
    induction m as [|[k' v] m IH]; simpl; auto.
    destruct (str_eqb k k') eqn:E; auto. simpl. now rewrite E.
  Qed.
  Lemma mget_mremove_other : forall k j m, k <> j -> mget k (mremove j m) = mget k m.
  Proof.
    induction m as [|[k' v] m IH]; simpl; intros H; auto.
    destruct (str_eqb j k') eqn:E.
    - apply str_eqb_eq in E. subst. destruct (str_eqb k k') eqn:E2; auto.
      apply str_eqb_eq in E2. congruence.
    - simpl. destruct (str_eqb k k'); auto.
  Qed.
  Lemma mget_minsert_same : forall k v m, mget k (minsert k v m) = Some v.
  Proof. intros. simpl. now rewrite str_eqb_refl. Qed.
  Lemma mget_minsert_other : forall k j v m, k <> j -> mget k (minsert j v m) = mget k m.
  Proof.
    intros. simpl. destruct (str_eqb k j) eqn:E; [apply str_eqb_eq in E; congruence|].
    now apply mget_mremove_other.
  Qed.
  Lemma mget_minsert : forall k j v m, mget k (minsert j v m) = if str_eqb k j then Some v else mget k m.
  Proof.
    intros. destruct (str_eqb k j) eqn:E.
    - apply str_eqb_eq in E. subst. apply mget_minsert_same.
    - apply str_eqb_neq in E. now apply mget_minsert_other.
  Qed.
  Lemma mget_mremove : forall k j m, mget k (mremove j m) = if str_eqb k j then None else mget k m.
  Proof.
    intros. destruct (str_eqb k j) eqn:E.
    - apply str_eqb_eq in E. subst. apply mget_mremove_same.
    - apply str_eqb_neq in E. now apply mget_mremove_other.
  Qed.
  Lemma mkeys_mremove : forall k j m, In k (mkeys (mremove j m)) <-> In k (mkeys m) /\ k <> j.
  Proof.
    unfold mkeys. induction m as [|[k' v] m IH]; simpl; [tauto|].
    destruct (str_eqb j k') eqn:E; simpl.
    - apply str_eqb_eq in E. subst. rewrite IH. intuition congruence.
    - apply str_eqb_neq in E. rewrite IH. intuition congruence.
  Qed.
  Lemma NoDup_mremove : forall j m, NoDup (mkeys m) -> NoDup (mkeys (mremove j m)).
  Proof.
    unfold mkeys. induction m as [|[k' v] m IH]; simpl; intros H; auto.
    inversion H; subst. destruct (str_eqb j k'); simpl; auto.
    constructor; auto. intros C. apply (mkeys_mremove k' j m) in C. tauto.
  Qed.
  Lemma NoDup_minsert : forall k v m, NoDup (mkeys m) -> NoDup (mkeys (minsert k v m)).
  Proof.
    intros. simpl. constructor.
    - fold (mkeys (mremove k m)). rewrite mkeys_mremove. tauto.
    - now apply NoDup_mremove.
  Qed.
  Lemma mget_in : forall k m, (exists v, mget k m = Some v) <-> In k (mkeys m).
  Proof.
    unfold mkeys. induction m as [|[k' v] m IH]; simpl.
    - split; [intros [? ?]; discriminate|tauto].
    - destruct (str_eqb k k') eqn:E.
      + apply str_eqb_eq in E. subst. split; eauto.
      + apply str_eqb_neq in E. rewrite IH. intuition congruence.
  Qed.
  Lemma mget_none : forall k m, mget k m = None <-> ~ In k (mkeys m).
  Proof.
    intros. rewrite <- mget_in. destruct (mget k m); split; intros H; try congruence.
    - destruct H; eauto.
    - intros [? ?]; discriminate.
  Qed.
  Lemma mhas_in : forall k m, mhas k m = true <-> In k (mkeys m).
  Proof.
    intros. rewrite <- mget_in. unfold mhas. destruct (mget k m); split; intros H; eauto; try congruence.
    destruct H; discriminate.
  Qed.
End Maps.

(** ** Prefixes *)
Lemma strip_prefix_spec : forall p s r, strip_prefix p s = Some r <-> s = p ++ r.
Proof.
  induction p as [|a p IH]; intros s r; simpl.
  - split; congruence.
  - destruct s as [|b s]; [split; intros; discriminate|].
    destruct (N.eqb_spec a b).
    + subst. rewrite IH. split; congruence.
    + split; intros; try discriminate. injection H as -> ->. congruence.
Qed.
Lemma strip_prefix_app : forall p s, strip_prefix p (p ++ s) = Some s.
Proof. intros. now apply strip_prefix_spec. Qed.
Lemma starts_with_spec : forall p s, starts_with p s = true <-> exists r, s = p ++ r.
Proof.
  intros. unfold starts_with. destruct (strip_prefix p s) eqn:E.
  - apply strip_prefix_spec in E. split; eauto.
  - split; [discriminate|]. intros [r ->]. now rewrite strip_prefix_app in E.
Qed.
Lemma starts_with_false : forall p s, starts_with p s = false <-> forall r, s <> p ++ r.
Proof.
  intros. destruct (starts_with p s) eqn:E; split; intros H; try congruence.
  - apply starts_with_spec in E as [r ->]. now destruct (H r).
  - intros r ->. assert (starts_with p (p ++ r) = true) by (apply starts_with_spec; eauto). congruence.
Qed.
Lemma contains_str_spec : forall p s, contains_str p s = true <-> exists a b, s = a ++ p ++ b.
Proof.
  intros p. unfold contains_str. induction s as [|c s IH]; simpl.
  - destruct (starts_with p []) eqn:E.
    + apply starts_with_spec in E as [r E]. split; auto. intros _. exists [], r. auto.
    + split; [discriminate|]. intros (a & b & H).
      symmetry in H. apply app_eq_nil in H as [-> H]. apply app_eq_nil in H as [-> ->]. discriminate.
  - destruct (starts_with p (c :: s)) eqn:E.
    + apply starts_with_spec in E as [r E]. split; auto. intros _. exists [], r. auto.
    + assert (Hn : forall r, c :: s <> p ++ r) by (now apply starts_with_false).
      destruct (find_str p s) eqn:F.
      * split; auto. intros _. destruct IH as [IH _]. destruct IH as (a & b & ->); auto.
        exists (c :: a), b. auto.
      * split; [discriminate|]. intros (a & b & H). destruct a as [|a0 a].
        -- simpl in H. now destruct (Hn b).
        -- injection H as -> ->. destruct IH as [_ IH]. discriminate IH. eauto.
Qed.
