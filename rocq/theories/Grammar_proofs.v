(** The parser accepts every sentence of the grammar and gives it the tree the
    grammar gives it. *)
From Coq Require Import String List ZArith NArith Bool Lia.
From Verif Require Import Base F64 Utf8 Syntax Lexer Parser Spec_syntax Spec_grammar Parser_proofs Fuel_proofs.
Import ListNotations.

Fixpoint spans (st : pstate) (ts : list token) (st' : pstate) : Prop :=
  match ts with
  | [] => st = st'
  | t :: r => look st = t /\ exists st1, bump st = POk tt st1 /\ spans st1 r st'
  end.
Lemma spans_app : forall a b st st', spans st (a ++ b) st' <-> exists m, spans st a m /\ spans m b st'.
Proof.
  induction a as [|t a IH]; intros b st st'; cbn [app spans].
  - split; [intros H; now exists st|intros (m & -> & H); exact H].
  - split.
    + intros (L & st1 & B & H). apply IH in H. destruct H as (m & H1 & H2). exists m. split; [|assumption].
      split; [assumption|]. now exists st1.
    + intros (m & (L & st1 & B & H1) & H2). split; [assumption|]. exists st1. split; [assumption|]. apply IH. now exists m.
Qed.

Definition stop_cast (t : token) : bool :=
  match t with TDot | TSafeNavigation | TLBracket | TDoubleColon | TLParen => false | _ => true end.
Definition stop_unary (t : token) : bool := stop_cast t && match t with TCaret => false | _ => true end.
Definition no_binop (j : nat) (t : token) : bool := match binop_at j t with None => true | _ => false end.
Fixpoint stop_bin (k : nat) (t : token) : bool :=
  match k with O => stop_unary t | S j => stop_bin j t && no_binop j t end.
Definition stop_whole (t : token) : bool :=
  stop_bin 6 t && match t with TQMark | TColonEquals => false | _ => true end.

Definition evt (P : nat -> nat -> Prop) : Prop := exists m, forall f n, m <= f -> m <= n -> P f n.
Definition evt1 (P : nat -> Prop) : Prop := exists m, forall f, m <= f -> P f.
Definition evt3 (P : nat -> nat -> nat -> Prop) : Prop := exists m, forall f n l, m <= f -> m <= n -> m <= l -> P f n l.

Scheme reads_m := Minimality for reads Sort Prop
  with reads_args_m := Minimality for reads_args Sort Prop
  with reads_args1_m := Minimality for reads_args1 Sort Prop
  with reads_arg_m := Minimality for reads_arg Sort Prop
  with reads_items_m := Minimality for reads_items Sort Prop
  with reads_pairs_m := Minimality for reads_pairs Sort Prop
  with reads_bound_m := Minimality for reads_bound Sort Prop.
Combined Scheme reads_mutind from reads_m, reads_args_m, reads_args1_m, reads_arg_m, reads_items_m, reads_pairs_m, reads_bound_m.

(** ** First tokens *)
Definition starter (t : token) : bool :=
  match t with
  | TNumber _ | TLParen | TString _ | TNull | TColon | TTrue | TFalse | TIdentifier _ | TLBracket | TLBrace
  | TPlus | TMinus | TBang => true
  | _ => false
  end.
Definition is_unop (t : token) : bool := match unop_of t with Some _ => true | None => false end.
Lemma reads_start : forall L ts e, reads L ts e -> exists t r, ts = t :: r /\ starter t = true
  /\ (match L with Atom | Postfix | Cast => is_unop t = false | _ => True end).
Proof.
  induction 1; try (match goal with H : exists _ _, _ |- _ => destruct H as (t0 & r0 & -> & Q1 & Q2) end);
    try (eexists _, _; cbn [app]; split; [reflexivity|split; [try assumption; reflexivity|cbn; auto]]; fail);
    try (repeat match goal with H : exists _ _, _ |- _ => destruct H as (?t & ?r & -> & ? & ?) end;
         eexists _, _; cbn [app]; split; [reflexivity|split; [assumption|cbn; auto]]; fail).
  eexists _, _. split; [reflexivity|]. split; [|exact I].
  destruct H as [[= <- <-]|[[= <- <-]|[[= <- <-]|[]]]]; reflexivity.
Qed.

(** a phrase below [Whole] does not begin with [:x :=] *)
Definition begins_assign (ts : list token) : bool :=
  match ts with TColon :: TIdentifier _ :: TColonEquals :: _ => true | _ => false end.
Lemma not_assign : forall L ts e, reads L ts e -> L <> Whole -> forall rest, hd TEof rest <> TColonEquals ->
  begins_assign (ts ++ rest) = false.
Proof.
  assert (D : forall t rest, t <> TColonEquals -> hd TEof (t :: rest) <> TColonEquals) by auto.
  induction 1; intros HL rest Hr; try contradiction; repeat rewrite <- app_assoc; try reflexivity;
    try (match goal with H : _ -> forall rest, hd TEof rest <> _ -> _ = false |- _ => apply H; [discriminate|]; try assumption; cbn; discriminate end).
  - destruct rest as [|[] r]; try reflexivity. now destruct Hr.
  - destruct H as [[= <- <-]|[[= <- <-]|[[= <- <-]|[]]]]; reflexivity.
  - rewrite <- app_comm_cons. apply IHreads1; [discriminate|]. cbn [hd].
    repeat destruct H as [H|H]; try (injection H as <- <- <-; discriminate). destruct H.
Qed.
Lemma ahead_spec : forall st ts st', spans st ts st' -> look st = TColon -> is_assign_ahead st = true ->
  begins_assign (ts ++ [look st']) = true \/ ts = [] \/ ts = [TColon] .
Proof.
  intros st ts st' H L A. unfold is_assign_ahead in A. destruct (toks st) as [|t p s| |] eqn:E; try discriminate.
  destruct t; try discriminate. destruct s as [|t' p' s'| |]; try discriminate. destruct t'; try discriminate.
  destruct ts as [|t1 ts]; [now right; left|]. cbn [spans] in H. destruct H as (<- & st1 & B & H).
  unfold bump in B. rewrite E in B. injection B as <-. rewrite L.
  destruct ts as [|t2 ts]; [now right; right|]. cbn [spans look] in H. destruct H as (<- & st2 & B & H). cbn in B. injection B as <-.
  destruct ts as [|t3 ts]; cbn [spans look] in H.
  - subst st'. now left.
  - destruct H as (<- & _). now left.
Qed.

(** ** Completeness *)
Definition before_q (ts : list token) (st1 : pstate) : Prop :=
  (ends_in_property ts = true -> look st1 <> TQMark) /\ look st1 <> TLParen.
Definition PG (L : level) (ts : list token) (e : expr) : Prop := forall st st1, spans st ts st1 ->
  match L with
  | Atom => evt (fun f n => p_atom (p_expr f) n st = POk e st1)
  | Postfix => before_q ts st1 -> forall e' st', evt (fun f n => p_postfix (p_expr f) n e st1 = POk e' st') ->
      evt (fun f n => pbind (p_atom (p_expr f) n st) (fun a s => p_postfix (p_expr f) n a s) = POk e' st')
  | Cast => before_q ts st1 -> stop_cast (look st1) = true -> evt (fun f n => p_cast (p_expr f) n st = POk e st1)
  | Binary O => before_q ts st1 -> stop_unary (look st1) = true -> evt (fun f n => p_unary (p_expr f) n st = POk e st1)
  | Binary (S k) => before_q ts st1 -> stop_bin k (look st1) = true -> forall e' st',
      evt3 (fun f n l => p_bin_loop (p_bin (p_expr f) n k) k l e st1 = POk e' st') ->
      evt3 (fun f n l => pbind (p_bin (p_expr f) n k st) (fun a s => p_bin_loop (p_bin (p_expr f) n k) k l a s) = POk e' st')
  | Ternary => stop_whole (look st1) = true -> evt (fun f n => p_ternary (p_expr f) n st = POk e st1)
  | Whole => stop_whole (look st1) = true -> evt1 (fun f => p_expr f st = POk e st1)
  end.
Definition PArg (ts : list token) (e : expr) : Prop := forall st st1, spans st ts st1 -> stop_whole (look st1) = true ->
  evt (fun f n => p_arg (p_expr f) st = POk e st1).
Definition PArgs1 (ts : list token) (es : list expr) : Prop := forall st st1 st2 msg, spans st ts st1 -> look st1 = TRParen ->
  bump st1 = POk tt st2 -> evt (fun f n => p_args (p_expr f) n msg st = POk es st2).
Definition PArgs (ts : list token) (es : list expr) : Prop := forall st st1 st2 msg, spans st ts st1 -> look st1 = TRParen ->
  bump st1 = POk tt st2 -> evt (fun f n => p_args0 (p_expr f) n msg st = POk es st2).
Definition PItems (ts : list token) (es : list expr) : Prop := forall st st1 st2, spans st ts st1 -> look st1 = TRBracket ->
  bump st1 = POk tt st2 -> evt (fun f n => p_items (p_expr f) n st = POk es st2).
Definition PPairs (ts : list token) (kvs : list (str * expr)) : Prop := forall st st1 st2, spans st ts st1 -> look st1 = TRBrace ->
  bump st1 = POk tt st2 -> evt (fun f n => p_pairs (p_expr f) n st = POk kvs st2).
Definition PBound (ts : list token) (o : option expr) : Prop :=
  match o with
  | None => ts = []
  | Some e => reads Whole ts e /\ forall st st1, spans st ts st1 -> stop_whole (look st1) = true -> evt1 (fun f => p_expr f st = POk e st1)
  end.

Lemma spans_cons : forall t r st st', spans st (t :: r) st' -> exists st1, look st = t /\ bump st = POk tt st1 /\ spans st1 r st'.
Proof. intros t r st st' (L & st1 & B & H). now exists st1. Qed.
Lemma spans_one : forall t st st', spans st [t] st' -> look st = t /\ bump st = POk tt st'.
Proof. intros t st st' (L & st1 & B & <-). now split. Qed.
Ltac sp := repeat match goal with
  | H : spans _ (_ ++ _) _ |- _ => apply spans_app in H; let m := fresh "s" in destruct H as (m & ? & ?)
  | H : spans _ (_ :: _) _ |- _ => apply spans_cons in H; let m := fresh "s" in destruct H as (m & ? & ? & ?)
  | H : spans _ [] _ |- _ => cbn [spans] in H; subst
  end.
Lemma ends_app : forall a b, ends_in_property (a ++ b) =
  match rev b with [] => ends_in_property a
                 | [t] => match t, rev a with TIdentifier _, TDot :: _ => true | _, _ => false end
                 | _ => ends_in_property b end.
Proof.
  intros a b. unfold ends_in_property. rewrite rev_app_distr. destruct (rev b) as [|t [|t' r]]; cbn [app].
  - reflexivity.
  - destruct t; try reflexivity.
  - reflexivity.
Qed.
Lemma stop_whole_cast : forall t, stop_whole t = true -> stop_cast t = true /\ stop_unary t = true /\ stop_bin 6 t = true
  /\ t <> TQMark /\ t <> TColonEquals.
Proof.
  intros t H. unfold stop_whole in H. apply andb_true_iff in H as [H Q].
  assert (U : stop_unary t = true) by (cbn [stop_bin] in H; do 6 (apply andb_true_iff in H as [H ?]); assumption).
  repeat split; try assumption; try (intros ->; discriminate). now apply andb_true_iff in U as [U _].
Qed.
Lemma stop_postfix : forall t rec n e st, look st = t -> (match t with TDot | TSafeNavigation | TLBracket => false | _ => true end) = true ->
  p_postfix rec (S n) e st = POk e st.
Proof. intros t rec n e st <- H. cbn [p_postfix]. now destruct (look st). Qed.

Lemma stop_bin_le : forall k j t, stop_bin k t = true -> j <= k -> stop_bin j t = true.
Proof.
  induction k as [|k IH]; intros j t H Hj; [now replace j with 0 by lia|].
  destruct (Nat.eq_dec j (S k)) as [->|]; [assumption|]. cbn [stop_bin] in H. apply andb_true_iff in H as [H _]. apply IH; [assumption|lia].
Qed.

(** a phrase of level [Binary k] followed by a token that ends it *)
Lemma bin_done : forall k ts e st st1, PG (Binary k) ts e -> spans st ts st1 -> before_q ts st1 -> stop_bin k (look st1) = true ->
  evt (fun f n => p_bin (p_expr f) n k st = POk e st1).
Proof.
  intros [|k] ts e st st1 H S0 B Z; specialize (H st st1 S0); cbn in H.
  - exact (H B Z).
  - cbn [stop_bin] in Z. apply andb_true_iff in Z as [Z N]. destruct (H B Z e st1) as (m & Hm).
    + exists 1. intros f n l _ _ Hl. destruct l as [|l]; [lia|]. cbn [p_bin_loop]. unfold no_binop in N. now destruct (binop_at k (look st1)).
    + exists m. intros f n Hf Hn. cbn [p_bin]. now apply Hm.
Qed.
Lemma infix_level : forall t op k, In (t, op, k) infix_operators -> exists j, k = S j /\ binop_at j t = Some op /\ stop_bin j t = true
  /\ t <> TQMark /\ t <> TLParen.
Proof.
  intros t op k H. repeat destruct H as [H|H]; try (injection H as <- <- <-; eexists; repeat split; try reflexivity; discriminate). destruct H.
Qed.

Lemma type_of_table : forall s k ty, In (k, ty) type_names -> same_word s (lit k) -> type_of_name s = Some ty.
Proof.
  intros s k ty H W. unfold type_of_name. unfold same_word in W. rewrite W. clear W.
  repeat destruct H as [H|H]; try (injection H as <- <-; reflexivity). destruct H.
Qed.

Lemma look_start : forall L ts e st st1, reads L ts e -> spans st ts st1 -> starter (look st) = true
  /\ (match L with Atom | Postfix | Cast => is_unop (look st) = false | _ => True end).
Proof. intros L ts e st st1 H S0. destruct (reads_start L ts e H) as (t & r & -> & A & B). destruct S0 as (<- & _). now split. Qed.
Lemma no_ahead : forall ts e st st1, reads Ternary ts e -> spans st ts st1 -> look st1 <> TColonEquals ->
  tk_is (look st) TColon && is_assign_ahead st = false.
Proof.
  intros ts e st st1 H S0 Q. destruct (look st) eqn:L; try reflexivity. cbn [tk_is andb].
  destruct (is_assign_ahead st) eqn:A; [|reflexivity].
  destruct (ahead_spec st ts st1 S0 L A) as [E|[->|E]].
  - rewrite (not_assign Ternary ts e H ltac:(discriminate) [look st1] Q) in E. discriminate.
  - destruct (reads_start _ _ _ H) as (t & r & ? & _). discriminate.
  - exfalso. assert (Hx : forall L ts e, reads L ts e -> ts <> [TColon]).
    { clear. assert (Z : forall (a : list token) t b x, a ++ t :: b = [x] -> a = [] /\ t = x).
      { intros [|y a] t b x Hx; [injection Hx as -> _; auto|]. destruct a; discriminate. }
      induction 1; intros K; try discriminate; try (now apply IHreads);
        try (apply Z in K; destruct K as [-> K]; try discriminate K;
             match goal with H : reads _ [] _ |- _ => destruct (reads_start _ _ _ H) as (t1 & r1 & ? & _); discriminate end).
      - injection K as -> ->. repeat destruct H as [H|H]; try discriminate; destruct H. }
    now apply (Hx _ _ _ H).
Qed.

Ltac rw := repeat (cbn [pbind tk_is]; match goal with
  | H : look ?s = _ |- context[look ?s] => rewrite H
  | H : bump ?s = _ |- context[bump ?s] => rewrite H
  end); cbn [pbind tk_is].
Lemma starter_not : forall t, starter t = true -> tk_is t TRParen = false /\ tk_is t TRBracket = false /\ tk_is t TRBrace = false
  /\ tk_is t TEllipsis = false /\ tk_is t TEof = false.
Proof. now intros []. Qed.
Lemma ends_tail : forall us pre, ends_in_property us = true -> ends_in_property (pre ++ us) = true.
Proof.
  intros us pre. unfold ends_in_property. rewrite rev_app_distr. destruct (rev us) as [|x [|y l]]; cbn [app]; try discriminate; auto.
  destruct x; discriminate.
Qed.
Lemma before_tail : forall us pre st, before_q (pre ++ us) st -> before_q us st.
Proof. intros us pre st [A B]. split; [|assumption]. intros E. apply A. now apply ends_tail. Qed.
Lemma before_any : forall ts st, look st <> TQMark -> look st <> TLParen -> before_q ts st.
Proof. intros ts st A B. now split. Qed.
Ltac bq := apply before_any; rw; discriminate.
Ltac destr_ev H := let m := fresh "m" in let Hm := fresh "Hm" in destruct H as (m & Hm).
Lemma not_colon : forall L us e st st1, reads L us e -> spans st us st1 -> starts_with_colon us = false -> tk_is (look st) TColon = false.
Proof.
  intros L us e st st1 R H N. destruct us as [|t us]; [now destruct (reads_start _ _ _ R) as (? & ? & ? & _)|]. destruct H as (-> & _). now destruct t.
Qed.
Lemma complete_all :
  (forall L ts e, reads L ts e -> PG L ts e) /\ (forall ts es, reads_args ts es -> PArgs ts es)
  /\ (forall ts es, reads_args1 ts es -> PArgs1 ts es) /\ (forall ts e, reads_arg ts e -> PArg ts e)
  /\ (forall ts es, reads_items ts es -> PItems ts es) /\ (forall ts kvs, reads_pairs ts kvs -> PPairs ts kvs)
  /\ (forall ts o, reads_bound ts o -> PBound ts o).
Proof.
  apply reads_mutind.
  - (* number *) intros x st st1 H. sp. exists 0. intros f n _ _. unfold p_atom. rw. reflexivity.
  - intros x st st1 H. sp. exists 0. intros f n _ _. unfold p_atom. rw. reflexivity.
  - intros st st1 H. sp. exists 0. intros f n _ _. unfold p_atom. rw. reflexivity.
  - intros st st1 H. sp. exists 0. intros f n _ _. unfold p_atom. rw. reflexivity.
  - intros st st1 H. sp. exists 0. intros f n _ _. unfold p_atom. rw. reflexivity.
  - intros x st st1 H. sp. exists 0. intros f n _ _. unfold p_atom. rw. reflexivity.
  - (* parens *) intros ts e R IH st st1 H. sp. edestruct IH as (m & Hm); [eassumption|rw; reflexivity|].
    exists m. intros f n Hf Hn. unfold p_atom. rw. rewrite Hm by assumption. rw. reflexivity.
  - (* call *) intros g ts args R IH st st1 H. sp.
    edestruct (fun a b c => IH a b c "Expected ',' or ')' in argument list"%string) as (m & Hm); [eassumption..|].
    exists m. intros f n Hf Hn. unfold p_atom. rw. rewrite Hm by assumption. reflexivity.
  - (* [] *) intros st st1 H. sp. exists 0. intros f n _ _. unfold p_atom. rw. reflexivity.
  - (* array *) intros ts es R IH st st1 H. sp. edestruct IH as (m & Hm); [eassumption..|].
    assert (St : starter (look s) = true).
    { destruct R as [ts e R|ts e us es R R2]; sp; match goal with K : spans s ts _ |- _ => now apply (look_start _ _ _ _ _ R) in K end. }
    exists m. intros f n Hf Hn. unfold p_atom. rw.
    destruct (starter_not _ St) as (_ & -> & _). now rewrite Hm by assumption.
  - (* {} *) intros st st1 H. sp. exists 0. intros f n _ _. unfold p_atom. rw. reflexivity.
  - (* object *) intros ts kvs R IH st st1 H. sp. edestruct IH as (m & Hm); [eassumption..|].
    assert (St : tk_is (look s) TRBrace = false).
    { destruct R as [t k ts e K R|t k ts e K R|t k ts e us kvs K R R2]; sp; rw; destruct K; reflexivity. }
    exists m. intros f n Hf Hn. unfold p_atom. rw. rewrite St. now rewrite Hm by assumption.
  - (* property *) intros ts e p R IH st st1 H [Q Q2] e' st' (m & Hm). sp.
    eapply IH; [eassumption|bq|].
    exists (S m). intros f n Hf Hn. destruct n as [|n]; [lia|]. cbn [p_postfix]. rw. unfold p_dot. rw.
    assert (Q' : look st1 <> TQMark). { apply Q. now apply (ends_tail [TDot; TIdentifier p]). }
    destruct (look st1); try (apply Hm; lia); contradiction.
  - (* predicate *) intros ts e p R IH st st1 H Q e' st' (m & Hm). sp.
    eapply IH; [eassumption|bq|].
    exists (S m). intros f n Hf Hn. destruct n as [|n]; [lia|]. cbn [p_postfix]. rw. unfold p_dot. rw. apply Hm; lia.
  - (* method *) intros ts e p us args R IH RA IHA st st1 H Q e' st' (m & Hm). sp.
    eapply IH; [eassumption|bq|].
    edestruct (fun a b c => IHA a b c "Expected ',' or ')' in method args"%string) as (m2 & Hm2); [eassumption..|].
    exists (S (m + m2)). intros f n Hf Hn. destruct n as [|n]; [lia|]. cbn [p_postfix]. rw. unfold p_dot.
    rw. rewrite Hm2 by lia. cbn [pbind]. apply Hm; lia.
  - (* safe property *) intros ts e p R IH st st1 H [Q Q2] e' st' (m & Hm). sp.
    eapply IH; [eassumption|bq|].
    exists (S m). intros f n Hf Hn. destruct n as [|n]; [lia|]. cbn [p_postfix]. rw. unfold p_safe.
    rw. destruct (look st1); try (apply Hm; lia); contradiction.
  - (* safe method *) intros ts e p us args R IH RA IHA st st1 H [Q Q2] e' st' (m & Hm). sp.
    eapply IH; [eassumption|bq|].
    edestruct (fun a b c => IHA a b c "Expected ',' or ')' in safe method args"%string) as (m2 & Hm2); [eassumption..|].
    exists (S (m + m2)). intros f n Hf Hn. destruct n as [|n]; [lia|]. cbn [p_postfix]. rw. unfold p_safe.
    rw. rewrite Hm2 by lia. cbn [pbind]. apply Hm; lia.
  - (* index *) intros ts e us i R IH R2 IH2 NC st st1 H [Q Q2] e' st' (m & Hm). sp.
    eapply IH; [eassumption|bq|].
    edestruct IH2 as (m2 & Hm2); [eassumption|rw; reflexivity|].
    exists (S (m + m2)). intros f n Hf Hn. destruct n as [|n]; [lia|]. cbn [p_postfix]. rw. unfold p_index.
    match goal with K : spans _ us _ |- _ => destruct (look_start _ _ _ _ _ R2 K) as [St _]; rewrite (not_colon _ _ _ _ _ R2 K NC) end.
    destruct (starter_not _ St) as (_ & -> & _).
    rewrite Hm2 by lia. rw. apply Hm; lia.
  - (* slice *) intros ts e us a vs b R IH Ra IHa Rb IHb NC st st1 H Q e' st' (m & Hm). sp.
    eapply IH; [eassumption|bq|].
    match goal with K : spans ?x vs ?y, K1 : bump ?z = POk tt ?x, K2 : spans ?u us ?z |- _ =>
      rename x into s_vs; rename y into s_end; rename z into s_colon; rename u into s_us; rename K into Kv; rename K2 into Ku end.
    assert (END : exists m2, forall f o, m2 <= f -> p_slice_end (p_expr f) e o s_colon = POk (ESlice e o b) st1).
    { unfold p_slice_end. destruct b as [b|]; cbn [PBound] in IHb.
      - destruct IHb as [Rb' IHb]. edestruct IHb as (m2 & Hm2); [eassumption|rw; reflexivity|].
        exists m2. intros f o Hf. rw. destruct (look_start _ _ _ _ _ Rb' Kv) as [St _].
        destruct (starter_not _ St) as (_ & NB & _). rewrite NB, Hm2 by assumption. rw. reflexivity.
      - subst vs. cbn [spans] in Kv. subst s_end. exists 0. intros f o _. rw. reflexivity. }
    destruct END as (m2 & E2). destruct a as [a|]; cbn [PBound] in IHa.
    + destruct IHa as [Ra' IHa]. edestruct IHa as (m3 & Hm3); [eassumption|rw; reflexivity|].
      destruct (look_start _ _ _ _ _ Ra' Ku) as [St _]. destruct (starter_not _ St) as (_ & NB & _).
      exists (S (m + m2 + m3)). intros f n Hf Hn. destruct n as [|n]; [lia|]. cbn [p_postfix]. rw. unfold p_index.
      rewrite NB, (not_colon _ _ _ _ _ Ra' Ku NC), Hm3 by lia. rw. rewrite E2 by lia. cbn [pbind]. apply Hm; lia.
    + subst us. cbn [spans] in Ku. subst s_us. exists (S (m + m2)). intros f n Hf Hn. destruct n as [|n]; [lia|]. cbn [p_postfix]. rw. unfold p_index.
      rw. rewrite E2 by lia. cbn [pbind]. apply Hm; lia.
  - (* cast *) intros ts e s k ty R IH T W st st1 H Q Z. sp.
    match goal with K : spans st ts ?y |- _ => destruct (IH _ _ K) with (e' := e) (st' := y) as (m & Hm) end; [bq| |].
    { exists 1. intros f n _ Hn. destruct n as [|n]; [lia|]. now apply (stop_postfix TDoubleColon). }
    exists m. intros f n Hf Hn. specialize (Hm f n Hf Hn). unfold p_cast. destruct (p_atom (p_expr f) n st) as [a sa| | |]; try discriminate.
    cbn [pbind] in Hm |- *. rewrite Hm. rw.
    now rewrite (type_of_table s k ty T W).
  - (* prefix *) intros t op ts e T R IH st st1 H Q Z. sp.
    edestruct IH as (m & Hm); [eassumption|now apply (before_tail ts [t])|assumption|].
    exists (S m). intros f n Hf Hn. destruct n as [|n]; [lia|]. cbn [p_unary]. rw.
    assert (U : unop_of t = Some op). { repeat destruct T as [T|T]; try (injection T as <- <-; reflexivity). destruct T. }
    rewrite U. rw. rewrite Hm by lia. reflexivity.
  - (* power *) intros ts a us b R IH R2 IH2 st st1 H Q Z. sp.
    edestruct IH as (m & Hm); [eassumption|bq|rw; reflexivity|].
    edestruct IH2 as (m2 & Hm2); [eassumption| |assumption|].
    { apply (before_tail us (ts ++ [TCaret])). now rewrite <- app_assoc. }
    match goal with K : spans st ts _ |- _ => destruct (look_start _ _ _ _ _ R K) as [_ U] end.
    exists (S (m + m2)). intros f n Hf Hn. destruct n as [|n]; [lia|]. cbn [p_unary]. unfold is_unop in U. destruct (unop_of (look st)); [discriminate|].
    rewrite Hm by lia. rw. rewrite Hm2 by lia. reflexivity.
  - (* infix *) intros t op k ts a us b T R IH R2 IH2 st st1 H Q Z e' st' (m & Hm). sp.
    destruct (infix_level _ _ _ T) as (j & [= <-] & B & St & NQ & NP).
    eapply IH; [eassumption|apply before_any; rw; assumption|rw; assumption|].
    edestruct (bin_done k us b) as (m2 & Hm2); [exact IH2|eassumption| |exact Z|].
    { apply (before_tail us (ts ++ [t])). now rewrite <- app_assoc. }
    exists (S (m + m2)). intros f n l Hf Hn Hl. destruct l as [|l]; [lia|]. cbn [p_bin_loop]. rw. rewrite B. rw. rewrite Hm2 by lia. cbn [pbind]. apply Hm; lia.
  - (* ternary *) intros ts c us a vs b R IH E Ra IHa Rb IHb st st1 H Z. sp.
    edestruct (bin_done 6 ts c) as (m & Hm); [exact IH|eassumption| |rw; reflexivity|].
    { split; [intros K; congruence|rw; discriminate]. }
    edestruct IHa as (m2 & Hm2); [eassumption|rw; reflexivity|]. edestruct IHb as (m3 & Hm3); [eassumption|assumption|].
    exists (m + m2 + m3). intros f n Hf Hn. unfold p_ternary. unfold n_levels. rewrite Hm by lia. rw. rewrite Hm2 by lia. rw. rewrite Hm3 by lia. reflexivity.
  - (* assignment *) intros x ts e R IH st st1 H Z. sp. edestruct IH as (m & Hm); [eassumption|assumption|].
    exists (S m). intros f Hf. destruct f as [|f]; [lia|]. cbn [p_expr]. unfold p_assignment. 
    assert (A : is_assign_ahead st = true).
    { unfold is_assign_ahead. repeat match goal with K : bump ?s = POk tt ?s' |- _ => unfold bump in K; destruct (toks s) eqn:?; try discriminate; injection K as <- end;
      cbn [look toks] in *; subst; repeat match goal with K : look _ = _ |- _ => cbn in K; try discriminate K; try subst end; try discriminate; auto. }
    rw. rewrite A. rw. rewrite Hm by lia. reflexivity.
  - (* atom *) intros ts e R IH st st1 H Q e' st' (m & Hm). destruct (IH _ _ H) as (m2 & Hm2).
    exists (m + m2). intros f n Hf Hn. rewrite Hm2 by lia. cbn [pbind]. apply Hm; lia.
  - (* postfix *) intros ts e R IH st st1 H Q Z. destruct (IH _ _ H Q e st1) as (m & Hm).
    { exists 1. intros f n _ Hn. destruct n as [|n]; [lia|]. apply (stop_postfix (look st1)); [reflexivity|]. now destruct (look st1). }
    exists m. intros f n Hf Hn. specialize (Hm f n Hf Hn). unfold p_cast. destruct (p_atom (p_expr f) n st) as [a sa| | |]; try discriminate.
    cbn [pbind] in Hm |- *. rewrite Hm. cbn [pbind]. destruct (look st1); try discriminate; reflexivity.
  - (* casted *) intros ts e R IH st st1 H Q Z. unfold stop_unary in Z. apply andb_true_iff in Z as [Z NC].
    destruct (IH _ _ H Q Z) as (m & Hm). destruct (look_start _ _ _ _ _ R H) as [_ U].
    exists (S m). intros f n Hf Hn. destruct n as [|n]; [lia|]. cbn [p_unary]. unfold is_unop in U. destruct (unop_of (look st)); [discriminate|].
    rewrite Hm by lia. cbn [pbind]. destruct (look st1); try discriminate; reflexivity.
  - (* binary *) intros k ts e R IH st st1 H Q Z e' st' (m & Hm).
    destruct (bin_done k ts e st st1 IH H Q Z) as (m2 & Hm2).
    exists (m + m2). intros f n l Hf Hn Hl. rewrite Hm2 by lia. cbn [pbind]. apply Hm; lia.
  - (* condition *) intros ts e R IH st st1 H Z. destruct (stop_whole_cast _ Z) as (Z1 & _ & Z6 & NQ & NA).
    destruct (bin_done 6 ts e st st1 IH H) as (m & Hm); [|assumption|].
    { apply before_any; [assumption|]. intros K. rewrite K in Z1. discriminate. }
    exists m. intros f n Hf Hn. unfold p_ternary, n_levels. rewrite Hm by lia. cbn [pbind]. destruct (look st1); try reflexivity. contradiction.
  - (* whole *) intros ts e R IH st st1 H Z. destruct (stop_whole_cast _ Z) as (_ & _ & _ & _ & NA).
    destruct (IH _ _ H Z) as (m & Hm). exists (S m). intros f Hf. destruct f as [|f]; [lia|]. cbn [p_expr]. unfold p_assignment.
    rewrite (no_ahead ts e st st1 R H NA). apply Hm; lia.
  - (* no args *) intros st st1 st2 msg H L B. cbn [spans] in H. subst st1. exists 0. intros f n _ _. unfold p_args0. rw. reflexivity.
  - (* args *) intros ts es R IH st st1 st2 msg H L B. destruct (IH st st1 st2 msg H L B) as (m & Hm).
    assert (NP : tk_is (look st) TRParen = false).
    { assert (A : forall ts' e', reads_arg ts' e' -> forall s', spans st ts' s' -> tk_is (look st) TRParen = false).
      { intros ts' e' [us e0 R0|us e0 R0] s' K; [|now destruct K as (-> & _)].
        destruct (look_start _ _ _ _ _ R0 K) as [St _]. now destruct (starter_not _ St) as (-> & _). }
      destruct R as [ts e R|ts e us es R R']; sp; eapply A; eassumption. }
    exists m. intros f n Hf Hn. unfold p_args0. rewrite NP. now apply Hm.
  - (* last arg *) intros ts e R IH st st1 st2 msg H L B. destruct (IH st st1 H) as (m & Hm); [rw; reflexivity|].
    exists (S m). intros f n Hf Hn. destruct n as [|n]; [lia|]. cbn [p_args]. rewrite (Hm f n) by lia. rw. reflexivity.
  - (* next arg *) intros ts e us es R IH R2 IH2 st st1 st2 msg H L B. sp.
    edestruct IH as (m & Hm); [eassumption|rw; reflexivity|].
    edestruct (fun a b c => IH2 a b c msg) as (m2 & Hm2); [eassumption..|].
    exists (S (m + m2)). intros f n Hf Hn. destruct n as [|n]; [lia|]. cbn [p_args]. rewrite (Hm f n) by lia. rw. rewrite Hm2 by lia. reflexivity.
  - (* plain arg *) intros ts e R IH st st1 H Z. destruct (IH st st1 H Z) as (m & Hm). exists m. intros f n Hf Hn. unfold p_arg.
    destruct (look_start _ _ _ _ _ R H) as [St _]. destruct (starter_not _ St) as (_ & _ & _ & -> & _). now apply Hm.
  - (* spread *) intros ts e R IH st st1 H Z. sp. edestruct IH as (m & Hm); [eassumption|assumption|]. exists m. intros f n Hf Hn. unfold p_arg.
    rw. now rewrite Hm by lia.
  - (* last item *) intros ts e R IH st st1 st2 H L B. destruct (IH st st1 H) as (m & Hm); [rw; reflexivity|].
    exists (S m). intros f n Hf Hn. destruct n as [|n]; [lia|]. cbn [p_items]. rewrite (Hm f) by lia. rw. reflexivity.
  - intros ts e us es R IH R2 IH2 st st1 st2 H L B. sp.
    edestruct IH as (m & Hm); [eassumption|rw; reflexivity|]. edestruct IH2 as (m2 & Hm2); [eassumption..|].
    exists (S (m + m2)). intros f n Hf Hn. destruct n as [|n]; [lia|]. cbn [p_items]. rewrite (Hm f) by lia. rw. rewrite Hm2 by lia. reflexivity.
  - (* pairs *) intros t k ts e K R IH st st1 st2 H L B. sp. edestruct IH as (m & Hm); [eassumption|rw; reflexivity|].
    exists (S m). intros f n Hf Hn. destruct n as [|n]; [lia|]. cbn [p_pairs]. unfold p_key. destruct K; rw; rewrite (Hm f) by lia; rw; reflexivity.
  - intros t k ts e K R IH st st1 st2 H L B. sp. edestruct IH as (m & Hm); [eassumption|rw; reflexivity|].
    exists (S m). intros f n Hf Hn. destruct n as [|n]; [lia|]. cbn [p_pairs]. unfold p_key. destruct K; rw; rewrite (Hm f) by lia; rw; reflexivity.
  - intros t k ts e us kvs K R IH R2 IH2 st st1 st2 H L B. sp. edestruct IH as (m & Hm); [eassumption|rw; reflexivity|].
    edestruct IH2 as (m2 & Hm2); [eassumption..|].
    match goal with K2 : spans ?s us st1 |- _ => assert (NB : tk_is (look s) TRBrace = false) end.
    { destruct R2 as [t' k' ts' e' K' R'|t' k' ts' e' K' R'|t' k' ts' e' us' kvs' K' R' R'']; sp; rw; destruct K'; reflexivity. }
    exists (S (m + m2)). intros f n Hf Hn. destruct n as [|n]; [lia|]. cbn [p_pairs]. unfold p_key.
    destruct K; rw; rewrite (Hm f) by lia; rw; rewrite NB, Hm2 by lia; reflexivity.
  - reflexivity.
  - intros ts e R IH. split; [assumption|]. exact IH.
Qed.

Lemma more_start : forall us es st st1, reads_more us es -> spans st us st1 -> look st1 = TEof -> stop_whole (look st) = true.
Proof. intros us es st st1 [| |ts e us' es' R M] H L; sp; rw; reflexivity. Qed.
Lemma complete_more : forall us es, reads_more us es -> forall st st1, spans st us st1 -> look st1 = TEof ->
  evt1 (fun f => exists st', p_stmts f st = POk es st').
Proof.
  induction 1 as [| |ts e us es R M IH]; intros st st1 H L; sp.
  - exists 1. intros [|f] Hf; [lia|]. cbn [p_stmts]. rw. eauto.
  - exists 1. intros [|f] Hf; [lia|]. cbn [p_stmts]. rw. eauto.
  - match goal with K : spans _ ts ?x, K2 : spans ?x us st1 |- _ => destruct (IH _ _ K2 L) as (m & Hm); pose proof (more_start _ _ _ _ M K2 L) as Z;
      pose proof (proj1 complete_all _ _ _ R _ _ K Z) as (m2 & Hm2); destruct (look_start _ _ _ _ _ R K) as [St _] end.
    destruct (starter_not _ St) as (_ & _ & _ & _ & NE).
    exists (S (m + m2)). intros [|f] Hf; [lia|]. cbn [p_stmts]. rw. rewrite NE, Hm2 by lia. cbn [pbind]. destruct (Hm f) as (st' & ->); [lia|]. cbn [pbind]. eauto.
Qed.
Lemma complete_program : forall ts e, reads_program ts e -> forall st st1, spans st ts st1 -> look st1 = TEof ->
  evt1 (fun f => exists st', p_program f st = POk e st').
Proof.
  intros ts e [us e0 vs R M|us e0 vs es R M NE] st st1 H L; sp;
    match goal with K : spans st us ?x, K2 : spans ?x vs st1 |- _ => destruct (complete_more _ _ M _ _ K2 L) as (m & Hm);
      pose proof (more_start _ _ _ _ M K2 L) as Z; pose proof (proj1 complete_all _ _ _ R _ _ K Z) as (m2 & Hm2) end;
    exists (m + m2); intros f Hf; unfold p_program; rewrite Hm2 by lia; cbn [pbind]; (destruct (Hm f) as (st' & ->); [lia|]); cbn [pbind]; eauto.
  destruct es; [contradiction|eauto].
Qed.
