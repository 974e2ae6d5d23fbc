(** Whatever the parser accepts is a sentence of the grammar, with the tree
    the grammar gives it. *)
From Coq Require Import String List ZArith NArith Bool Lia.
From Verif Require Import Base F64 Utf8 Syntax Lexer Parser Spec_syntax Spec_grammar Parser_proofs Parse_proofs Written_proofs Sim_proofs Grammar_proofs.
Import ListNotations.

Definition good (ts : list token) (st : pstate) : Prop := look st = TQMark -> ends_in_property ts = false.
Lemma good_false : forall ts st, ends_in_property ts = false -> good ts st.
Proof. now intros ts st H _. Qed.
Lemma ends_op : forall ts t us, t <> TDot -> us <> [] -> ends_in_property (ts ++ t :: us) = true -> ends_in_property us = true.
Proof.
  intros ts t us Ht Hu H. unfold ends_in_property in *. rewrite rev_app_distr in H. cbn [rev] in H. 
  assert (R : rev us <> []) by (intros E; apply Hu; rewrite <- (rev_involutive us), E; reflexivity).
  destruct (rev us) as [|x [|y l]]; [contradiction| |]; cbn [app] in H.
  - destruct x; try discriminate. destruct t; congruence.
  - exact H.
Qed.
Lemma spans_snoc : forall st ts m st' t, spans st ts m -> look m = t -> bump m = POk tt st' -> spans st (ts ++ [t]) st'.
Proof. intros st ts m st' t H L B. apply spans_app. exists m. split; [assumption|]. cbn. split; [assumption|]. now exists st'. Qed.
Lemma spans_push : forall st st1 t ts st', look st = t -> bump st = POk tt st1 -> spans st1 ts st' -> spans st (t :: ts) st'.
Proof. intros st st1 t ts st' L B H. cbn. split; [assumption|]. now exists st1. Qed.
Lemma spans_join : forall st a m b st', spans st a m -> spans m b st' -> spans st (a ++ b) st'.
Proof. intros. apply spans_app. now exists m. Qed.
Lemma bind_ok : forall A B (r : pres A) (k : A -> pstate -> pres B) b st', pbind r k = POk b st' -> exists a st, r = POk a st /\ k a st = POk b st'.
Proof. intros A B [a st| | |] k b st' H; try discriminate. now exists a, st. Qed.
Ltac bi H := let a := fresh "a" in let st := fresh "st" in let E := fresh "E" in
  apply bind_ok in H; destruct H as (a & st & E & H).
Lemma tk_is_eq : forall t x, tk_is t x = true -> t = x.
Proof. now intros [] []. Qed.
Lemma type_in_table : forall s ty, type_of_name s = Some ty -> exists k, In (k, ty) type_names /\ same_word s (lit k).
Proof.
  intros s ty H. unfold type_of_name in H. unfold same_word.
  repeat match goal with
  | H : context[str_eqb ?a ?b] |- _ => destruct (str_eqb_spec a b) as [?Q|?Q]; cbn [orb] in H; cbv iota in H
  end; try discriminate; injection H as <-;
  match goal with Q : map lower_ascii s = lit ?k |- _ => exists k; rewrite Q; split; [cbn; tauto|reflexivity] end.
Qed.

Section Sound.
  Variable rec : pstate -> pres expr.
  Hypothesis Hrec : forall st e st', rec st = POk e st' -> exists ts, spans st ts st' /\ reads Whole ts e.

  Lemma arg_sound : forall st e st', p_arg rec st = POk e st' -> exists ts, spans st ts st' /\ reads_arg ts e.
  Proof.
    intros st e st' H. unfold p_arg in H. destruct (tk_is (look st) TEllipsis) eqn:T.
    - apply tk_is_eq in T. bi H. bi H. injection H as <- <-. destruct a. destruct (Hrec _ _ _ E0) as (ts & S1 & R).
      exists (TEllipsis :: ts). split; [now apply (spans_push st st0)|now constructor].
    - destruct (Hrec _ _ _ H) as (ts & S1 & R). exists ts. split; [assumption|now constructor].
  Qed.
  Lemma args_sound : forall n msg st es st', p_args rec n msg st = POk es st' -> exists ts, spans st (ts ++ [TRParen]) st' /\ reads_args1 ts es.
  Proof.
    induction n as [|n IH]; intros msg st es st' H; [discriminate|]. cbn [p_args] in H. bi H. destruct (arg_sound _ _ _ E) as (ts & S1 & R).
    destruct (look st0) eqn:L; try discriminate.
    - bi H. injection H as <- <-. exists ts. split; [|now constructor]. destruct a0. now apply (spans_snoc st ts st0).
    - bi H. bi H. injection H as <- <-. destruct a0. destruct (IH _ _ _ _ E1) as (us & S2 & R2). exists (ts ++ TComma :: us). split; [|now constructor].
      rewrite <- app_assoc. apply (spans_join st ts st0); [assumption|]. cbn [app]. now apply (spans_push st0 st1).
  Qed.
  Lemma args0_sound : forall n msg st es st', p_args0 rec n msg st = POk es st' -> exists ts, spans st (ts ++ [TRParen]) st' /\ reads_args ts es.
  Proof.
    intros n msg st es st' H. unfold p_args0 in H. destruct (tk_is (look st) TRParen) eqn:T.
    - apply tk_is_eq in T. bi H. injection H as <- <-. destruct a. exists []. split; [|constructor]. now apply (spans_snoc st [] st).
    - destruct (args_sound _ _ _ _ _ H) as (ts & S1 & R). exists ts. split; [assumption|now constructor].
  Qed.
  Lemma items_sound : forall n st es st', p_items rec n st = POk es st' -> exists ts, spans st (ts ++ [TRBracket]) st' /\ reads_items ts es.
  Proof.
    induction n as [|n IH]; intros st es st' H; [discriminate|]. cbn [p_items] in H. bi H. destruct (Hrec _ _ _ E) as (ts & S1 & R).
    destruct (look st0) eqn:L; try discriminate.
    - bi H. bi H. injection H as <- <-. destruct a0. destruct (IH _ _ _ E1) as (us & S2 & R2). exists (ts ++ TComma :: us). split; [|now constructor].
      rewrite <- app_assoc. apply (spans_join st ts st0); [assumption|]. cbn [app]. now apply (spans_push st0 st1).
    - bi H. injection H as <- <-. exists ts. split; [|now constructor]. destruct a0. now apply (spans_snoc st ts st0).
  Qed.
  Lemma key_sound : forall st k st', p_key st = POk k st' -> exists t, spans st [t] st' /\ reads_key t k.
  Proof.
    intros st k st' H. unfold p_key in H. destruct (look st) eqn:L; try discriminate; bi H; injection H as <- <-; destruct a;
      (eexists; split; [apply (spans_push st st0 _ [] st0 L E); reflexivity|constructor]).
  Qed.
  Lemma pairs_sound : forall n st kvs st', p_pairs rec n st = POk kvs st' -> exists ts, spans st (ts ++ [TRBrace]) st' /\ reads_pairs ts kvs.
  Proof.
    induction n as [|n IH]; intros st kvs st' H; [discriminate|]. cbn [p_pairs] in H. bi H. destruct (key_sound _ _ _ E) as (t & S1 & K).
    destruct (look st0) eqn:L; try discriminate. bi H. bi H. destruct a0. destruct (Hrec _ _ _ E1) as (ts & S2 & R).
    assert (PRE : spans st (t :: TColon :: ts) st2).
    { change (t :: TColon :: ts) with ([t] ++ TColon :: ts). apply (spans_join st [t] st0); [assumption|]. now apply (spans_push st0 st1). }
    destruct (look st2) eqn:L2; try discriminate.
    - bi H. destruct a0. destruct (tk_is (look st3) TRBrace) eqn:T.
      + apply tk_is_eq in T. bi H. injection H as <- <-. destruct a0. exists (t :: TColon :: ts ++ [TComma]). split; [|now constructor].
        change (t :: TColon :: ts ++ [TComma]) with ((t :: TColon :: ts) ++ [TComma]). apply (spans_snoc st _ st3); try assumption. now apply (spans_snoc st _ st2).
      + bi H. injection H as <- <-. destruct (IH _ _ _ E3) as (us & S3 & R3). exists (t :: TColon :: ts ++ TComma :: us). split; [|now constructor].
        change (t :: TColon :: ts ++ TComma :: us) with ((t :: TColon :: ts) ++ TComma :: us). rewrite <- app_assoc. apply (spans_join st _ st2); [assumption|].
        cbn [app]. now apply (spans_push st2 st3).
    - bi H. injection H as <- <-. destruct a0. exists (t :: TColon :: ts). split; [|now constructor]. now apply (spans_snoc st _ st2).
  Qed.
  Lemma ends_close : forall ts t, match t with TIdentifier _ => False | _ => True end -> ends_in_property (ts ++ [t]) = false.
  Proof. intros ts t H. unfold ends_in_property. rewrite rev_app_distr. cbn. destruct t; try reflexivity. destruct H. Qed.
  Lemma atom_sound : forall n st e st', p_atom rec n st = POk e st' -> exists ts, spans st ts st' /\ reads Atom ts e /\ ends_in_property ts = false.
  Proof.
    intros n st e st' H. unfold p_atom in H. destruct (look st) eqn:L; try discriminate; bi H; destruct a;
      try (injection H as <- <-; eexists; split; [apply (spans_push st st0 _ [] st0 L E); reflexivity|split; [constructor|reflexivity]]; fail).
    - (* call *) destruct (look st0) eqn:L2; try discriminate. bi H. bi H. injection H as <- <-. destruct a. destruct (args0_sound _ _ _ _ _ E1) as (ts & S1 & R).
      exists (TIdentifier s :: TLParen :: ts ++ [TRParen]). split; [|split; [now constructor|]].
      + apply (spans_push st st0 _ _ _ L E). now apply (spans_push st0 st1).
      + apply (ends_close (TIdentifier s :: TLParen :: ts)). exact I.
    - (* parens *) bi H. destruct (Hrec _ _ _ E0) as (ts & S1 & R). destruct (look st1) eqn:L2; try discriminate. bi H. injection H as <- <-. destruct a0.
      exists (TLParen :: ts ++ [TRParen]). split; [|split; [now constructor|]].
      + apply (spans_push st st0 _ _ _ L E). now apply (spans_snoc st0 ts st1).
      + apply (ends_close (TLParen :: ts)). exact I.
    - (* variable *) destruct (look st0) eqn:L2; try discriminate. bi H. injection H as <- <-. destruct a.
      exists [TColon; TIdentifier s]. split; [|split; [constructor|reflexivity]]. apply (spans_push st st0 _ _ _ L E). now apply (spans_push st0 st1 _ []).
    - (* array *) destruct (tk_is (look st0) TRBracket) eqn:T.
      + apply tk_is_eq in T. bi H. injection H as <- <-. destruct a. exists [TLBracket; TRBracket]. split; [|split; [constructor|reflexivity]].
        apply (spans_push st st0 _ _ _ L E). now apply (spans_push st0 st1 _ []).
      + bi H. injection H as <- <-. destruct (items_sound _ _ _ _ E0) as (ts & S1 & R). exists (TLBracket :: ts ++ [TRBracket]).
        split; [|split; [now constructor|]]. { now apply (spans_push st st0 _ _ _ L E). } apply (ends_close (TLBracket :: ts)). exact I.
    - destruct (tk_is (look st0) TRBrace) eqn:T.
      + apply tk_is_eq in T. bi H. injection H as <- <-. destruct a. exists [TLBrace; TRBrace]. split; [|split; [constructor|reflexivity]].
        apply (spans_push st st0 _ _ _ L E). now apply (spans_push st0 st1 _ []).
      + bi H. injection H as <- <-. destruct (pairs_sound _ _ _ _ E0) as (ts & S1 & R). exists (TLBrace :: ts ++ [TRBrace]).
        split; [|split; [now constructor|]]. { now apply (spans_push st st0 _ _ _ L E). } apply (ends_close (TLBrace :: ts)). exact I.
  Qed.
  (** one step of the postfix loop, from the operator token *)
  Definition steps (ts : list token) (e : expr) (st st' : pstate) (e' : expr) : Prop :=
    exists us, spans st us st' /\ reads Postfix (ts ++ us) e' /\ good (ts ++ us) st'.
  Lemma dot_sound : forall n ts e st st1 e' st', reads Postfix ts e -> look st = TDot -> bump st = POk tt st1 ->
    p_dot rec n e st1 = POk e' st' -> steps ts e st st' e'.
  Proof.
    intros n ts e st st1 e' st' R L B H. unfold p_dot in H. destruct (look st1) eqn:L1; try discriminate. bi H. destruct a.
    assert (P : spans st [TDot; TIdentifier s] st0). { apply (spans_push st st1 _ _ _ L B). now apply (spans_push st1 st0 _ []). }
    assert (D : look st0 <> TQMark -> look st0 <> TLParen -> POk (EPropertyAccess e s) st0 = POk e' st' -> steps ts e st st' e').
    { intros Q _ [= <- <-]. exists [TDot; TIdentifier s]. split; [assumption|]. split; [now constructor|]. now intros K. }
    destruct (look st0) eqn:L2; try (apply D; [discriminate|discriminate|exact H]).
    - bi H. bi H. injection H as <- <-. destruct a. destruct (args0_sound _ _ _ _ _ E1) as (us & S1 & RA).
      exists (TDot :: TIdentifier s :: TLParen :: us ++ [TRParen]). split; [|split; [now constructor|]].
      + apply (spans_push st st1 _ _ _ L B). apply (spans_push st1 st0 _ _ _ L1 E). now apply (spans_push st0 st2).
      + apply good_false. change (ts ++ TDot :: TIdentifier s :: TLParen :: us ++ [TRParen]) with (ts ++ (TDot :: TIdentifier s :: TLParen :: us) ++ [TRParen]).
        rewrite app_assoc. now apply ends_close.
    - bi H. injection H as <- <-. destruct a. exists [TDot; TIdentifier s; TQMark]. split; [|split; [now constructor|]].
      + change [TDot; TIdentifier s; TQMark] with ([TDot; TIdentifier s] ++ [TQMark]). now apply (spans_snoc st _ st0).
      + apply good_false. change [TDot; TIdentifier s; TQMark] with ([TDot; TIdentifier s] ++ [TQMark]). rewrite app_assoc. now apply ends_close.
  Qed.
  Lemma safe_sound : forall n ts e st st1 e' st', reads Postfix ts e -> look st = TSafeNavigation -> bump st = POk tt st1 ->
    p_safe rec n e st1 = POk e' st' -> steps ts e st st' e'.
  Proof.
    intros n ts e st st1 e' st' R L B H. unfold p_safe in H. destruct (look st1) eqn:L1; try discriminate. bi H. destruct a.
    assert (D : POk (ESafePropertyAccess e s) st0 = POk e' st' -> steps ts e st st' e').
    { intros [= <- <-]. exists [TSafeNavigation; TIdentifier s]. split; [|split; [now constructor|]].
      - apply (spans_push st st1 _ _ _ L B). now apply (spans_push st1 st0 _ []).
      - apply good_false. unfold ends_in_property. rewrite rev_app_distr. reflexivity. }
    destruct (look st0) eqn:L2; try (exact (D H)).
    bi H. bi H. injection H as <- <-. destruct a. destruct (args0_sound _ _ _ _ _ E1) as (us & S1 & RA).
    exists (TSafeNavigation :: TIdentifier s :: TLParen :: us ++ [TRParen]). split; [|split; [now constructor|]].
    - apply (spans_push st st1 _ _ _ L B). apply (spans_push st1 st0 _ _ _ L1 E). now apply (spans_push st0 st2).
    - apply good_false. change (ts ++ TSafeNavigation :: TIdentifier s :: TLParen :: us ++ [TRParen]) with (ts ++ (TSafeNavigation :: TIdentifier s :: TLParen :: us) ++ [TRParen]).
      rewrite app_assoc. now apply ends_close.
  Qed.
  Lemma slice_end_sound : forall node start st e' st', look st = TColon -> p_slice_end rec node start st = POk e' st' ->
    exists vs b, spans st (TColon :: vs ++ [TRBracket]) st' /\ reads_bound vs b /\ e' = ESlice node start b.
  Proof.
    intros node start st e' st' L H. unfold p_slice_end in H. bi H. bi H. destruct a. destruct (look st1) eqn:L1; try discriminate. bi H. injection H as <- <-. destruct a.
    destruct (tk_is (look st0) TRBracket) eqn:T.
    - injection E0 as <- <-. exists [], None. split; [|split; [constructor|reflexivity]]. apply (spans_push st st0 _ _ _ L E). now apply (spans_push st0 st2 _ []).
    - bi E0. injection E0 as <- <-. destruct (Hrec _ _ _ E2) as (vs & S1 & R). exists vs, (Some a). split; [|split; [now constructor|reflexivity]].
      apply (spans_push st st0 _ _ _ L E). now apply (spans_snoc st0 vs st3).
  Qed.
  Lemma first_colon : forall st ts st1, spans st ts st1 -> tk_is (look st) TColon = false -> starts_with_colon ts = false.
  Proof. intros st [|t ts] st1 H T; [reflexivity|]. destruct H as (L & _). rewrite L in T. now destruct t. Qed.
  Lemma index_sound : forall ts e st st1 e' st', reads Postfix ts e -> look st = TLBracket -> bump st = POk tt st1 ->
    p_index rec e st1 = POk e' st' -> steps ts e st st' e'.
  Proof.
    intros ts e st st1 e' st' R L B H. unfold p_index in H. destruct (tk_is (look st1) TRBracket) eqn:T; [bi H; discriminate|].
    assert (CL : forall us : list token, good (ts ++ TLBracket :: us ++ [TRBracket]) st').
    { intros us. apply good_false. change (ts ++ TLBracket :: us ++ [TRBracket]) with (ts ++ (TLBracket :: us) ++ [TRBracket]). rewrite app_assoc. now apply ends_close. }
    destruct (tk_is (look st1) TColon) eqn:T2.
    - apply tk_is_eq in T2. destruct (slice_end_sound _ _ _ _ _ T2 H) as (vs & b & S1 & RB & ->).
      exists (TLBracket :: [] ++ TColon :: vs ++ [TRBracket]). split; [now apply (spans_push st st1 _ _ _ L B)|]. split; [constructor; auto using reads_bound|].
      apply (CL (TColon :: vs)).
    - bi H. destruct (Hrec _ _ _ E) as (us & S1 & R1). pose proof (first_colon _ _ _ S1 T2) as NC. destruct (look st0) eqn:L2; try discriminate.
      + destruct (slice_end_sound _ _ _ _ _ L2 H) as (vs & b & S2 & RB & ->).
        exists (TLBracket :: us ++ TColon :: vs ++ [TRBracket]). split; [|split; [constructor; auto using reads_bound|]].
        * apply (spans_push st st1 _ _ _ L B). now apply (spans_join st1 us st0).
        * change (us ++ TColon :: vs ++ [TRBracket]) with (us ++ (TColon :: vs) ++ [TRBracket]). rewrite app_assoc. apply CL.
      + bi H. injection H as <- <-. destruct a0. exists (TLBracket :: us ++ [TRBracket]). split; [|split; [now constructor|apply CL]].
        apply (spans_push st st1 _ _ _ L B). now apply (spans_snoc st1 us st0).
  Qed.
  Lemma postfix_sound : forall n ts e st e' st', reads Postfix ts e -> good ts st -> p_postfix rec n e st = POk e' st' -> steps ts e st st' e'.
  Proof.
    induction n as [|n IH]; intros ts e st e' st' R G H; [discriminate|]. cbn [p_postfix] in H.
    assert (D : POk e st = POk e' st' -> steps ts e st st' e').
    { intros [= <- <-]. exists []. split; [reflexivity|]. rewrite app_nil_r. now split. }
    assert (K : forall st1 e1, steps ts e st st1 e1 -> p_postfix rec n e1 st1 = POk e' st' -> steps ts e st st' e').
    { intros st1 e1 (us & S1 & R1 & G1) H1. destruct (IH _ _ _ _ _ R1 G1 H1) as (vs & S2 & R2 & G2). exists (us ++ vs).
      split; [now apply (spans_join st us st1)|]. rewrite app_assoc. now split. }
    destruct (look st) eqn:L; try (exact (D H)); bi H; bi H; destruct a.
    - apply (K st1 a0); [|assumption]. now apply (dot_sound n ts e st st0).
    - apply (K st1 a0); [|assumption]. now apply (safe_sound n ts e st st0).
    - apply (K st1 a0); [|assumption]. now apply (index_sound ts e st st0).
  Qed.
  Definition yields (L : level) (st : pstate) (e : expr) (st' : pstate) : Prop :=
    exists ts, spans st ts st' /\ reads L ts e /\ good ts st'.
  Lemma cast_sound : forall n st e st', p_cast rec n st = POk e st' -> yields Cast st e st'.
  Proof.
    intros n st e st' H. unfold p_cast in H. bi H. bi H. destruct (atom_sound _ _ _ _ E) as (ts & S1 & R & NE).
    destruct (postfix_sound _ ts _ _ _ _ (reads_atom _ _ R) (good_false _ _ NE) E0) as (us & S2 & R2 & G2).
    pose proof (spans_join _ _ _ _ _ S1 S2) as S3.
    assert (D : POk a0 st1 = POk e st' -> yields Cast st e st'). { intros [= <- <-]. exists (ts ++ us). split; [assumption|]. split; [now constructor|assumption]. }
    destruct (look st1) eqn:L; try (exact (D H)). bi H. destruct a1. destruct (look st2) eqn:L2; try discriminate. bi H. destruct a1.
    destruct (type_of_name s) as [ty|] eqn:T; try discriminate. injection H as <- <-. destruct (type_in_table _ _ T) as (k & I1 & W).
    exists ((ts ++ us) ++ [TDoubleColon; TIdentifier s]). split; [|split].
    - apply (spans_join st _ st1); [assumption|]. apply (spans_push st1 st2 _ _ _ L E1). now apply (spans_push st2 st3 _ []).
    - now apply (reads_cast _ _ _ k).
    - apply good_false. unfold ends_in_property. now rewrite rev_app_distr.
  Qed.
  Lemma yields_ne : forall L st e st' ts, reads L ts e -> spans st ts st' -> ts <> [].
  Proof. intros L st e st' ts R _. now destruct (reads_start _ _ _ R) as (t & r & -> & _). Qed.
  Lemma good_op : forall ts t us st', t <> TDot -> us <> [] -> good us st' -> good (ts ++ t :: us) st'.
  Proof. intros ts t us st' Ht Hu G Q. destruct (ends_in_property (ts ++ t :: us)) eqn:E; [|reflexivity]. apply ends_op in E; try assumption. now rewrite (G Q) in E. Qed.
  Lemma unary_sound : forall n st e st', p_unary rec n st = POk e st' -> yields (Binary 0) st e st'.
  Proof.
    induction n as [|n IH]; intros st e st' H; [discriminate|]. cbn [p_unary] in H. destruct (unop_of (look st)) as [op|] eqn:U.
    - bi H. bi H. injection H as <- <-. destruct a. destruct (IH _ _ _ E0) as (ts & S1 & R & G). exists (look st :: ts).
      assert (T : In (look st, op) prefix_operators). { destruct (look st); try discriminate; injection U as <-; cbn; tauto. }
      split; [now apply (spans_push st st0)|]. split; [now constructor|]. apply (good_op []); [intros K; now rewrite K in U| |assumption]. now apply (yields_ne _ _ _ _ _ R S1).
    - bi H. destruct (cast_sound _ _ _ _ E) as (ts & S1 & R & G).
      assert (D : POk a st0 = POk e st' -> yields (Binary 0) st e st'). { intros [= <- <-]. exists ts. split; [assumption|]. split; [now constructor|assumption]. }
      destruct (look st0) eqn:L; try (exact (D H)). bi H. bi H. injection H as <- <-. destruct a0. destruct (IH _ _ _ E1) as (us & S2 & R2 & G2).
      exists (ts ++ TCaret :: us). split; [|split; [now constructor|]].
      + apply (spans_join st ts st0); [assumption|]. now apply (spans_push st0 st1).
      + apply good_op; [discriminate| |assumption]. now apply (yields_ne _ _ _ _ _ R2 S2).
  Qed.
  Lemma binop_table : forall lvl t op, binop_at lvl t = Some op -> In (t, op, S lvl) infix_operators /\ t <> TDot.
  Proof.
    intros lvl t op H. do 6 (destruct lvl as [|lvl]; [destruct t; try discriminate; injection H as <-; split; try discriminate; cbn; tauto|]).
    destruct t; discriminate.
  Qed.
  Lemma loop_sound : forall sub lvl, (forall st e st', sub st = POk e st' -> yields (Binary lvl) st e st') ->
    forall n ts e st e' st' st0, spans st0 ts st -> reads (Binary (S lvl)) ts e -> good ts st -> p_bin_loop sub lvl n e st = POk e' st' ->
    yields (Binary (S lvl)) st0 e' st'.
  Proof.
    intros sub lvl Hs. induction n as [|n IH]; intros ts e st e' st' st0 S1 R G H; [discriminate|]. cbn [p_bin_loop] in H.
    destruct (binop_at lvl (look st)) as [op|] eqn:B.
    - bi H. bi H. destruct a. destruct (binop_table _ _ _ B) as [T ND]. destruct (Hs _ _ _ E0) as (us & S2 & R2 & G2).
      apply (IH (ts ++ look st :: us) _ _ _ _ st0) in H; [assumption| | |].
      + apply (spans_join st0 ts st); [assumption|]. now apply (spans_push st st1).
      + now constructor.
      + apply good_op; [assumption| |assumption]. now apply (yields_ne _ _ _ _ _ R2 S2).
    - injection H as <- <-. now exists ts.
  Qed.
  Lemma bin_sound : forall n k st e st', p_bin rec n k st = POk e st' -> yields (Binary k) st e st'.
  Proof.
    intros n k. induction k as [|k IH]; intros st e st' H; cbn [p_bin] in H; [now apply (unary_sound n)|]. bi H.
    destruct (IH _ _ _ E) as (ts & S1 & R & G). apply (loop_sound _ _ IH n ts a st0); try assumption. now constructor.
  Qed.
  Lemma ternary_sound : forall n st e st', p_ternary rec n st = POk e st' -> exists ts, spans st ts st' /\ reads Ternary ts e.
  Proof.
    intros n st e st' H. unfold p_ternary, n_levels in H. bi H. destruct (bin_sound _ _ _ _ _ E) as (ts & S1 & R & G).
    assert (D : POk a st0 = POk e st' -> exists ts, spans st ts st' /\ reads Ternary ts e). { intros [= <- <-]. exists ts. split; [assumption|]. now constructor. }
    destruct (look st0) eqn:L; try (exact (D H)). bi H. destruct a0. bi H. destruct (Hrec _ _ _ E1) as (us & S2 & R2). destruct (look st2) eqn:L2; try discriminate.
    bi H. bi H. injection H as <- <-. destruct a1. destruct (Hrec _ _ _ E3) as (vs & S3 & R3).
    exists (ts ++ TQMark :: us ++ TColon :: vs). split.
    - apply (spans_join st ts st0); [assumption|]. apply (spans_push st0 st1 _ _ _ L E0). apply (spans_join st1 us st2); [assumption|]. now apply (spans_push st2 st3).
    - apply reads_ternary; try assumption. now apply G.
  Qed.
  Lemma assignment_sound : forall n st e st', p_assignment rec n st = POk e st' -> exists ts, spans st ts st' /\ reads Whole ts e.
  Proof.
    intros n st e st' H. unfold p_assignment in H. destruct (tk_is (look st) TColon && is_assign_ahead st) eqn:T.
    - apply andb_true_iff in T as [T _]. apply tk_is_eq in T. bi H. destruct a. destruct (look st0) eqn:L0; try discriminate. bi H. destruct a.
      destruct (look st1) eqn:L1; try discriminate. bi H. bi H. injection H as <- <-. destruct a. destruct (ternary_sound _ _ _ _ E2) as (ts & S1 & R).
      exists (TColon :: TIdentifier s :: TColonEquals :: ts). split; [|now constructor].
      apply (spans_push st st0 _ _ _ T E). apply (spans_push st0 st1 _ _ _ L0 E0). now apply (spans_push st1 st2).
    - destruct (ternary_sound _ _ _ _ H) as (ts & S1 & R). exists ts. split; [assumption|now constructor].
  Qed.
End Sound.

Lemma expr_sound : forall f st e st', p_expr f st = POk e st' -> exists ts, spans st ts st' /\ reads Whole ts e.
Proof. induction f as [|f IH]; intros st e st' H; [discriminate|]. cbn [p_expr] in H. now apply (assignment_sound (p_expr f) IH (S f)). Qed.
Lemma stmts_sound : forall f st es st', p_stmts f st = POk es st' -> exists us, spans st us st' /\ reads_more us es.
Proof.
  induction f as [|f IH]; intros st es st' H; [discriminate|]. cbn [p_stmts] in H.
  assert (D : POk [] st = POk es st' -> exists us, spans st us st' /\ reads_more us es). { intros [= <- <-]. exists []. split; [reflexivity|constructor]. }
  destruct (look st) eqn:L; try (exact (D H)). bi H. destruct a. destruct (tk_is (look st0) TEof) eqn:T.
  - injection H as <- <-. exists [TSemicolon]. split; [|constructor]. now apply (spans_push st st0 _ []).
  - bi H. bi H. injection H as <- <-. destruct (expr_sound _ _ _ _ E0) as (ts & S1 & R). destruct (IH _ _ _ E1) as (us & S2 & M).
    exists (TSemicolon :: ts ++ us). split; [|now constructor]. apply (spans_push st st0 _ _ _ L E). now apply (spans_join st0 ts st1).
Qed.
Lemma program_sound : forall f st e st', p_program f st = POk e st' -> exists ts, spans st ts st' /\ reads_program ts e.
Proof.
  intros f st e st' H. unfold p_program in H. bi H. bi H. destruct (expr_sound _ _ _ _ E) as (ts & S1 & R). destruct (stmts_sound _ _ _ _ E0) as (us & S2 & M).
  destruct a0 as [|x es]; injection H as <- <-; exists (ts ++ us); (split; [now apply (spans_join st ts st0)|]).
  - now constructor.
  - now apply reads_many.
Qed.
