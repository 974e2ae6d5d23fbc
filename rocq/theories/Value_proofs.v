(** Induction on values, order of floats, and the behaviour of calls. *)
From Coq Require Import String List ZArith NArith Bool Lia Sorting Permutation.
From Coq Require Import Floats.SpecFloat.
From Verif Require Import Base Base_proofs F64 Syntax Ext Json Utils Registry Methods Core Evaluator Api Dispatch Spec.
Import ListNotations.

(** ** Induction *)
Section ValueInd.
  Variable P : value -> Prop.
  Hypothesis Hn : forall n, P (VNumber n).
  Hypothesis Ha : forall xs, Forall P xs -> P (VArray xs).
  Hypothesis Hb : forall b, P (VBoolean b).
  Hypothesis Hs : forall s, P (VString s).
  Hypothesis H0 : P VNull.
  Hypothesis Hc : forall n, P (VCurrency n).
  Hypothesis Hd : forall t, P (VDateTime t).
  Hypothesis Hj : forall s, P (VJson s).
  Fixpoint value_ind' (v : value) : P v :=
    match v with
    | VNumber n => Hn n
    | VArray xs => Ha xs ((fix go (l : list value) : Forall P l :=
                             match l with
                             | [] => Forall_nil P
                             | x :: r => Forall_cons x (value_ind' x) (go r)
                             end) xs)
    | VBoolean b => Hb b
    | VString s => Hs s
    | VNull => H0
    | VCurrency n => Hc n
    | VDateTime t => Hd t
    | VJson s => Hj s
    end.
End ValueInd.

Section ExprInd.
  Variable P : expr -> Prop.
  Hypothesis h_num : forall n, P (ENumber n).
  Hypothesis h_str : forall s, P (EStringLit s).
  Hypothesis h_null : P ENull.
  Hypothesis h_un : forall op e, P e -> P (EUnary op e).
  Hypothesis h_bin : forall l op r, P l -> P r -> P (EBinary l op r).
  Hypothesis h_var : forall x, P (EVariable x).
  Hypothesis h_prop : forall e p, P e -> P (EPropertyAccess e p).
  Hypothesis h_sprop : forall e p, P e -> P (ESafePropertyAccess e p).
  Hypothesis h_smeth : forall e n args, P e -> Forall P args -> P (ESafeMethodCall e n args).
  Hypothesis h_call : forall n args, Forall P args -> P (EFunctionCall n args).
  Hypothesis h_spread : forall e, P e -> P (ESpread e).
  Hypothesis h_arr : forall es, Forall P es -> P (EArray es).
  Hypothesis h_obj : forall kvs, Forall (fun kv => P (snd kv)) kvs -> P (EObjectLiteral kvs).
  Hypothesis h_meth : forall e n args p, P e -> Forall P args -> P (EMethodCall e n args p).
  Hypothesis h_idx : forall e i, P e -> P i -> P (EIndex e i).
  Hypothesis h_slice : forall e s t, P e -> (forall x, s = Some x -> P x) -> (forall x, t = Some x -> P x) ->
    P (ESlice e s t).
  Hypothesis h_cast : forall e ty, P e -> P (ETypeCast e ty).
  Hypothesis h_asg : forall x e, P e -> P (EAssignment x e).
  Hypothesis h_seq : forall es, Forall P es -> P (ESequence es).
  Fixpoint expr_ind' (e : expr) : P e :=
    let list_ind := fix go (l : list expr) : Forall P l :=
        match l with
        | [] => Forall_nil P
        | x :: r => Forall_cons x (expr_ind' x) (go r)
        end in
    let opt_ind := fun (o : option expr) =>
        match o return forall x, o = Some x -> P x with
        | Some y => fun x H => eq_ind y P (expr_ind' y) x (f_equal (fun o => match o with Some z => z | None => y end) H)
        | None => fun x H => match (eq_ind None (fun o => match o with None => True | Some _ => False end) I (Some x) H) with end
        end in
    match e with
    | ENumber n => h_num n
    | EStringLit s => h_str s
    | ENull => h_null
    | EUnary op e => h_un op e (expr_ind' e)
    | EBinary l op r => h_bin l op r (expr_ind' l) (expr_ind' r)
    | EVariable x => h_var x
    | EPropertyAccess e p => h_prop e p (expr_ind' e)
    | ESafePropertyAccess e p => h_sprop e p (expr_ind' e)
    | ESafeMethodCall e n args => h_smeth e n args (expr_ind' e) (list_ind args)
    | EFunctionCall n args => h_call n args (list_ind args)
    | ESpread e => h_spread e (expr_ind' e)
    | EArray es => h_arr es (list_ind es)
    | EObjectLiteral kvs =>
        h_obj kvs ((fix go (l : list (str * expr)) : Forall (fun kv => P (snd kv)) l :=
                      match l with
                      | [] => Forall_nil _
                      | x :: r => Forall_cons x (expr_ind' (snd x)) (go r)
                      end) kvs)
    | EMethodCall e n args p => h_meth e n args p (expr_ind' e) (list_ind args)
    | EIndex e i => h_idx e i (expr_ind' e) (expr_ind' i)
    | ESlice e s t => h_slice e s t (expr_ind' e) (opt_ind s) (opt_ind t)
    | ETypeCast e ty => h_cast e ty (expr_ind' e)
    | EAssignment x e => h_asg x e (expr_ind' e)
    | ESequence es => h_seq es (list_ind es)
    end.
End ExprInd.

(** ** Order of floats *)

(** lexicographic key of a number *)
Definition fkey (x : f64) : Z * Z * Z :=
  match x with
  | S754_nan => (0, 0, 0)
  | S754_zero _ => (0, 0, 0)
  | S754_infinity s => if s then (-2, 0, 0) else (2, 0, 0)
  | S754_finite s m e => if s then (-1, - e, Zneg m) else (1, e, Zpos m)
  end%Z.
Definition kcmp (a b : Z * Z * Z) : comparison :=
  let '(a1, a2, a3) := a in let '(b1, b2, b3) := b in
  match Z.compare a1 b1 with
  | Eq => match Z.compare a2 b2 with Eq => Z.compare a3 b3 | c => c end
  | c => c
  end.
Lemma f_cmp_key : forall x y, x <> f_nan -> y <> f_nan -> f_cmp x y = Some (kcmp (fkey x) (fkey y)).
Proof.
  intros x y Hx Hy. unfold f_nan in *.
  destruct x as [sx|sx| |sx mx ex]; destruct y as [sy|sy| |sy my ey]; try congruence;
    try destruct sx; try destruct sy; simpl; try reflexivity.
  - destruct (Z.compare_spec ex ey), (Z.compare_spec (- ex) (- ey)); auto; exfalso; lia.
Qed.
Lemma kcmp_refl : forall a, kcmp a a = Eq.
Proof. intros [[a b] c]. unfold kcmp. now rewrite !Z.compare_refl. Qed.
Lemma kcmp_antisym : forall a b, kcmp b a = CompOpp (kcmp a b).
Proof.
  intros [[a b] c] [[x y] z]. unfold kcmp.
  rewrite (Z.compare_antisym a x), (Z.compare_antisym b y), (Z.compare_antisym c z).
  destruct (Z.compare a x); simpl; auto. destruct (Z.compare b y); simpl; auto.
Qed.
Lemma kcmp_trans : forall a b c, kcmp a b <> Gt -> kcmp b c <> Gt -> kcmp a c <> Gt.
Proof.
  intros [[a1 a2] a3] [[b1 b2] b3] [[c1 c2] c3]. unfold kcmp.
  destruct (Z.compare_spec a1 b1), (Z.compare_spec b1 c1), (Z.compare_spec a1 c1); try congruence; try lia; subst;
  destruct (Z.compare_spec a2 b2), (Z.compare_spec b2 c2), (Z.compare_spec a2 c2); try congruence; try lia; subst;
  destruct (Z.compare_spec a3 b3), (Z.compare_spec b3 c3), (Z.compare_spec a3 c3); try congruence; try lia.
Qed.
Lemma f_leb_key : forall x y, x <> f_nan -> y <> f_nan -> (f_leb x y = true <-> kcmp (fkey x) (fkey y) <> Gt).
Proof.
  intros. unfold f_leb, SFleb. change (SFcompare x y) with (f_cmp x y).
  rewrite f_cmp_key by auto. destruct (kcmp _ _); split; congruence.
Qed.
Lemma f_leb_nan_l : forall y, f_leb f_nan y = false.
Proof. reflexivity. Qed.
Lemma f_leb_nan_r : forall x, f_leb x f_nan = false.
Proof. now destruct x. Qed.
Lemma f_leb_not_nan : forall x y, f_leb x y = true -> x <> f_nan /\ y <> f_nan.
Proof.
  split; intros ->; [rewrite f_leb_nan_l in H|rewrite f_leb_nan_r in H]; discriminate.
Qed.
Lemma f_le_refl : forall x, x <> f_nan -> f_le x x.
Proof. intros. apply f_leb_key; auto. rewrite kcmp_refl. discriminate. Qed.
Lemma f_le_trans : forall x y z, f_le x y -> f_le y z -> f_le x z.
Proof.
  unfold f_le. intros x y z H1 H2.
  destruct (f_leb_not_nan _ _ H1), (f_leb_not_nan _ _ H2).
  apply f_leb_key in H1; auto. apply f_leb_key in H2; auto. apply f_leb_key; auto.
  eapply kcmp_trans; eauto.
Qed.
Lemma f_le_total : forall x y, x <> f_nan -> y <> f_nan -> f_leb x y = false -> f_le y x.
Proof.
  intros x y Hx Hy H. apply f_leb_key; auto. rewrite kcmp_antisym.
  destruct (kcmp (fkey x) (fkey y)) eqn:E; try discriminate.
  - exfalso. assert (f_leb x y = true) by (apply f_leb_key; auto; congruence). congruence.
Qed.
Lemma is_nan_spec : forall x, is_nan x = true <-> x = f_nan.
Proof. destruct x; simpl; unfold f_nan; split; congruence. Qed.

Lemma f_bits_eqb_eq : forall x y, f_bits_eqb x y = true <-> x = y.
Proof.
  intros x y; split.
  - destruct x as [sx|sx| |sx mx ex]; destruct y as [sy|sy| |sy my ey]; simpl; try discriminate; auto.
    + intros H. apply eqb_prop in H. congruence.
    + intros H. apply eqb_prop in H. congruence.
    + intros H. apply andb_true_iff in H as [H H3]. apply andb_true_iff in H as [H1 H2].
      apply eqb_prop in H1. apply Pos.eqb_eq in H2. apply Z.eqb_eq in H3. congruence.
  - intros ->. destruct y; simpl; auto using eqb_reflx.
    now rewrite eqb_reflx, Pos.eqb_refl, Z.eqb_refl.
Qed.
Lemma f64_dec : forall x y : f64, {x = y} + {x <> y}.
Proof.
  intros. destruct (f_bits_eqb x y) eqn:E; [left|right].
  - now apply f_bits_eqb_eq.
  - intros H. apply f_bits_eqb_eq in H. congruence.
Qed.

(** ** Calls *)
Section Calls.
  Context {X : Ext}.
  Definition args_of (es : list expr) : list (arg ctx) :=
    map (fun a => mkArg (eval a) (match a with ESpread i => Some (eval i) | _ => None end)) es.

  Lemma eval_call : forall name es c, eval (EFunctionCall name es) c = top_call c name (args_of es).
  Proof. reflexivity. Qed.

  Lemma collect_ok : forall c es vs, evaluate_to c es vs -> collect_args c (args_of es) = Ok vs.
  Proof.
    intros c es vs H. induction H as [|e v es vs He H IH]; auto.
    unfold args_of. cbn [map collect_args a_spread a_eval]. fold (args_of es).
    assert (Hs : match e with ESpread i => Some (eval i) | _ => None end = None)
      by (destruct e; auto; discriminate He).
    rewrite Hs, He. cbn [bind]. now rewrite IH.
  Qed.

  Definition special_names : list string :=
    ["__TERNARY__"; "__CONST_TRUE__"; "__CONST_FALSE__"; "FILTER"; "FIND"; "MAP"; "REDUCE"; "SUMIF";
     "AVGIF"; "COUNTIF"; "JQ"]%string.

  Lemma uncustomised_hit : forall c name, uncustomised c name -> custom_hit c (lit name) = None.
  Proof.
    unfold uncustomised, custom_hit. intros c name. destruct (c_reg c); auto.
    unfold has_custom_function. now intros ->.
  Qed.

  Lemma call_builtin : forall name es vs c,
    one_of special_names (lit name) = false ->
    uncustomised c name -> evaluate_to c es vs ->
    eval (call name es) c = exec_builtin_fast (lit name) vs.
  Proof.
    intros name es vs c Hs Hu He. unfold call. rewrite eval_call. unfold top_call.
    unfold special_names, one_of in Hs. simpl existsb in Hs.
    repeat (apply orb_false_iff in Hs; destruct Hs as [? Hs]).
    repeat match goal with H : is _ _ = false |- _ => rewrite H; clear H end.
    rewrite uncustomised_hit by auto. rewrite (collect_ok _ _ _ He). reflexivity.
  Qed.
End Calls.

(** run a call to a named builtin on known values *)
Ltac run_builtin :=
  erewrite call_builtin; [| reflexivity | eassumption | eassumption].
