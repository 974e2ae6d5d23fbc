(** Parsing related token streams gives related trees. *)
From Coq Require Import String List NArith Bool Lia ZArith.
From Verif Require Import Base F64 Utf8 Syntax Lexer Parser Base_proofs Utf8_proofs Parser_proofs Lexer_proofs Parse_proofs Fuel_proofs
  Value_proofs Spec_syntax Written_proofs.
Import ListNotations.
Local Open Scope nat_scope.

Lemma upper_lower : forall c, upper_ascii (lower_ascii c) = upper_ascii c.
Proof.
  intros c. unfold lower_ascii. destruct (is_upper_ascii c) eqn:E; [|reflexivity].
  unfold is_upper_ascii in E. apply andb_true_iff in E as [A B]. apply N.leb_le in A, B.
  unfold upper_ascii, is_lower_ascii.
  assert ((97 <=? c + 32)%N = true) as -> by (apply N.leb_le; lia). assert ((c + 32 <=? 122)%N = true) as -> by (apply N.leb_le; lia).
  assert ((97 <=? c)%N = false) as -> by (apply N.leb_gt; lia). cbn [andb]. lia.
Qed.
Lemma same_word_upper : forall a b, map lower_ascii a = map lower_ascii b -> map upper_ascii a = map upper_ascii b.
Proof.
  intros a b H. rewrite <- (map_ext _ _ upper_lower a), <- (map_ext _ _ upper_lower b).
  rewrite <- !map_map with (f := lower_ascii) (g := upper_ascii). now rewrite H.
Qed.
Lemma same_word_type : forall a b, map lower_ascii a = map lower_ascii b -> type_of_name a = type_of_name b.
Proof. intros a b H. unfold type_of_name. now rewrite H. Qed.

Section Sim.
  Variable f : str -> str.
  Hypothesis f_case : forall a b, f a = f b -> map lower_ascii a = map lower_ascii b.

  Inductive TR : token -> token -> Prop :=
  | TR_same : forall t, t <> TEof -> (forall s, t <> TIdentifier s) -> TR t t
  | TR_id : forall a b, f a = f b -> TR (TIdentifier a) (TIdentifier b).
  (** [prev]: the token before the stream *)
  Inductive SS : token -> tstream -> tstream -> Prop :=
  | SS_cons : forall prev t t' p p' s s', TR t t' -> SS t s s' -> SS prev (TSCons t p s) (TSCons t' p' s')
  | SS_end : forall prev p p', SS prev (TSEnd p) (TSEnd p')
  | SS_stop : forall prev p t p' s', cannot_continue t = true -> prev <> TSemicolon -> SS prev (TSEnd p) (TSCons t p' s').
  Definition ended (t : token) : Prop := t = TEof \/ cannot_continue t = true.
  Definition SR (st st' : pstate) : Prop :=
    TR (look st) (look st') /\ SS (look st) (toks st) (toks st') \/ look st = TEof /\ ended (look st').
  Definition PR {A} (R : A -> A -> Prop) (r r' : pres A) : Prop :=
    match r with POk a st => exists a' st', r' = POk a' st' /\ R a a' /\ SR st st' | _ => True end.
  Definition ER (e e' : expr) : Prop := rename f e = rename f e'.
  Definition LR (es es' : list expr) : Prop := map (rename f) es = map (rename f) es'.
  Definition KR (es es' : list (str * expr)) : Prop :=
    map (fun kv => (f (fst kv), rename f (snd kv))) es = map (fun kv => (f (fst kv), rename f (snd kv))) es'.
  Definition OR (o o' : option expr) : Prop := option_map (rename f) o = option_map (rename f) o'.
  Definition any {A} (_ _ : A) : Prop := True.

  Lemma PR_bind : forall A B (R : A -> A -> Prop) (Q : B -> B -> Prop) r r' k k',
    PR R r r' -> (forall a a' st st', R a a' -> SR st st' -> PR Q (k a st) (k' a' st')) -> PR Q (pbind r k) (pbind r' k').
  Proof.
    intros A B R Q r r' k k' H K. destruct r as [a st|e|w|]; try exact I. destruct H as (a' & st' & -> & Ra & Rs). cbn [pbind]. now apply K.
  Qed.
  Lemma PR_ret : forall A (R : A -> A -> Prop) a a' st st', R a a' -> SR st st' -> PR R (POk a st) (POk a' st').
  Proof. intros A R a a' st st' H1 H2. cbn. eauto. Qed.
  Lemma PR_bump : forall st st', SR st st' -> look st <> TEof -> PR any (bump st) (bump st').
  Proof.
    intros st st' [[_ H]|[H _]] N; [|congruence]. unfold bump. inversion H as [pv t t' p p' s s' HT HS E0 E1 E2|pv p p' E0 E1 E2|pv p t p' s' HC HV E0 E1 E2]; cbn.
    - exists tt, (mkP t' p' s'). split; [reflexivity|]. split; [exact I|]. left. now split.
    - exists tt, (mkP TEof p' (TSEnd p')). split; [reflexivity|]. split; [exact I|]. right. split; [reflexivity|now left].
    - exists tt, (mkP t p' s'). split; [reflexivity|]. split; [exact I|]. right. split; [reflexivity|now right].
  Qed.
  (** what the two lookaheads can be *)
  Lemma look_cases : forall st st', SR st st' ->
    (look st = look st' /\ look st <> TEof /\ (forall s, look st <> TIdentifier s))
    \/ (exists a b, look st = TIdentifier a /\ look st' = TIdentifier b /\ f a = f b)
    \/ (look st = TEof /\ ended (look st')).
  Proof.
    intros st st' [[H _]|H]; [|auto]. inversion H; [left|right; left]; auto. eauto.
  Qed.
  Ltac by_look st st' H :=
    let a := fresh "nm" in let b := fresh "nm'" in let E1 := fresh "E" in let E2 := fresh "E'" in let Hf := fresh "Hf" in
    let HN := fresh "HN" in let HI := fresh "HI" in let HX := fresh "HX" in
    destruct (look_cases st st' H) as [(E1 & HN & HI)|[(a & b & E1 & E2 & Hf)|(E1 & HX)]];
    [rewrite <- E1; destruct (look st) eqn:E2; try (now elim HN); try (now elim (HI _ eq_refl))
    |rewrite E1, E2 
    |rewrite E1; destruct HX as [HX|HX]; [rewrite HX|destruct (look st') eqn:E2; try discriminate HX]].
  Ltac bump_ := eapply PR_bind; [apply PR_bump; [eassumption|congruence]|intros ? ? ? ? _ ?].

  Definition fails {A} (r : pres A) : Prop := match r with POk _ _ => False | _ => True end.
  Lemma fails_bind : forall A B (r : pres A) (k : A -> pstate -> pres B), fails r -> fails (pbind r k).
  Proof. intros A B [] k H; cbn in *; auto; contradiction. Qed.
  Lemma fails_any : forall A (r r' : pres A) R, fails r -> PR R r r'.
  Proof. intros A [] r' R H; cbn in *; auto; contradiction. Qed.
  Variable rec : pstate -> pres expr.
  Hypothesis Hrec : forall st st', SR st st' -> PR ER (rec st) (rec st').

  Lemma tk_same : forall st st' x, SR st st' -> x <> TEof -> cannot_continue x = false \/ look st <> TEof ->
    tk_is (look st') x = tk_is (look st) x.
  Proof.
    intros st st' x H Hx HC. destruct (look_cases st st' H) as [(E & _)|[(a & b & E1 & E2 & _)|(E1 & [HX|HX])]].
    - now rewrite E.
    - now rewrite E1, E2.
    - now rewrite E1, HX.
    - rewrite E1. destruct HC as [HC|HC]; [|congruence]. destruct (look st'); destruct x; try discriminate; try reflexivity; now elim Hx.
  Qed.

  Lemma rec_eof : forall st, look st = TEof -> True. Proof. auto. Qed.

  Lemma p_arg_sim : forall st st', SR st st' -> look st <> TEof -> PR ER (p_arg rec st) (p_arg rec st').
  Proof.
    intros st st' H N. unfold p_arg. rewrite (tk_same st st' TEllipsis H) by (discriminate || now right).
    destruct (tk_is (look st) TEllipsis) eqn:E; [|now apply Hrec].
    bump_. eapply PR_bind; [apply Hrec; eassumption|intros ? ? ? ? HE ?]. apply PR_ret; [|assumption]. unfold ER in *. cbn [rename]. now rewrite HE.
  Qed.
  (** nothing can be parsed from the end of input *)
  Hypothesis Hend : forall st, look st = TEof -> PR (fun _ _ => False) (rec st) (rec st).
  Lemma end_any : forall A (r r' : pres A) R, PR (fun _ _ => False) r r -> PR R r r'.
  Proof. intros A [a st|e|w|] r' R H; try exact I. destruct H as (? & ? & _ & [] & _). Qed.

  Lemma p_arg_end : forall st, look st = TEof -> PR (fun _ _ => False) (p_arg rec st) (p_arg rec st).
  Proof. intros st E. unfold p_arg. rewrite E. cbn [tk_is]. now apply Hend. Qed.
  Lemma eof_dec : forall st, {look st = TEof} + {look st <> TEof}.
  Proof. intros st. apply token_eof_dec. Qed.

  Lemma p_args_sim : forall n msg st st', SR st st' -> PR LR (p_args rec n msg st) (p_args rec n msg st').
  Proof.
    induction n as [|n IH]; intros msg st st' H; [exact I|]. cbn [p_args].
    destruct (eof_dec st) as [E|E].
    { pose proof (p_arg_end st E) as P. destruct (p_arg rec st) as [a s|x|x|]; try exact I. destruct P as (? & ? & _ & [] & _). }
    eapply PR_bind; [apply p_arg_sim; eassumption|intros a a' s s' Ra Rs].
    by_look s s' Rs; try exact I.
    - bump_. apply PR_ret; [|assumption]. unfold LR. cbn [map]. now rewrite Ra.
    - bump_. eapply PR_bind; [apply IH; eassumption|intros ? ? ? ? HL ?]. apply PR_ret; [|assumption]. unfold LR in *. cbn [map]. now rewrite Ra, HL.
  Qed.
  Lemma p_args0_sim : forall n msg st st', SR st st' -> PR LR (p_args0 rec n msg st) (p_args0 rec n msg st').
  Proof.
    intros n msg st st' H. unfold p_args0. destruct (eof_dec st) as [E|E].
    { rewrite E. cbn [tk_is]. destruct n as [|n]; [exact I|]. cbn [p_args].
      pose proof (p_arg_end st E) as P. destruct (p_arg rec st) as [a s|x|x|]; try exact I. destruct P as (? & ? & _ & [] & _). }
    rewrite (tk_same st st' TRParen H) by (discriminate || now right). destruct (tk_is (look st) TRParen); [|now apply p_args_sim].
    bump_. now apply PR_ret.
  Qed.
  Lemma p_items_sim : forall n st st', SR st st' -> PR LR (p_items rec n st) (p_items rec n st').
  Proof.
    induction n as [|n IH]; intros st st' H; [exact I|]. cbn [p_items].
    eapply PR_bind; [apply Hrec; eassumption|intros a a' s s' Ra Rs].
    by_look s s' Rs; try exact I.
    - bump_. eapply PR_bind; [apply IH; eassumption|intros ? ? ? ? HL ?]. apply PR_ret; [|assumption]. unfold LR in *. cbn [map]. now rewrite Ra, HL.
    - bump_. apply PR_ret; [|assumption]. unfold LR. cbn [map]. now rewrite Ra.
  Qed.
  Definition SE (s s' : str) : Prop := f s = f s'.
  Lemma p_key_sim : forall st st', SR st st' -> PR SE (p_key st) (p_key st').
  Proof.
    intros st st' H. unfold p_key. by_look st st' H; try exact I.
    - bump_. now apply PR_ret.
    - bump_. now apply PR_ret.
  Qed.
  Lemma p_pairs_sim : forall n st st', SR st st' -> PR KR (p_pairs rec n st) (p_pairs rec n st').
  Proof.
    induction n as [|n IH]; intros st st' H; [exact I|]. cbn [p_pairs].
    eapply PR_bind; [apply p_key_sim; eassumption|intros a a' s s' Ra Rs].
    by_look s s' Rs; try exact I. bump_.
    eapply PR_bind; [apply Hrec; eassumption|intros b b' s1 s1' Rb Rs1]. unfold ER in Rb. unfold SE in Ra.
    by_look s1 s1' Rs1; try exact I.
    - bump_. match goal with H : SR ?x ?y |- PR _ (if tk_is (look ?x) _ then _ else _) _ => destruct (eof_dec x) as [E9|E9]; [|rewrite (tk_same x y TRBrace H) by (discriminate || now right)] end.
      + rewrite E9. cbn [tk_is]. destruct n as [|n]; [exact I|]. cbn [p_pairs]. unfold p_key. rewrite E9. exact I.
      + match goal with |- PR _ (if ?b then _ else _) _ => destruct b end.
        * bump_. apply PR_ret; [|assumption]. unfold KR. cbn [map fst snd]. now rewrite Ra, Rb.
        * eapply PR_bind; [apply IH; eassumption|intros ? ? ? ? HL ?]. apply PR_ret; [|assumption]. unfold KR in *. cbn [map fst snd]. now rewrite Ra, Rb, HL.
    - bump_. apply PR_ret; [|assumption]. unfold KR. cbn [map fst snd]. now rewrite Ra, Rb.
  Qed.
  Lemma p_atom_sim : forall n st st', SR st st' -> PR ER (p_atom rec n st) (p_atom rec n st').
  Proof.
    intros n st st' H. unfold p_atom. by_look st st' H; try exact I; try (bump_; now apply PR_ret).
    - bump_. eapply PR_bind; [apply Hrec; eassumption|intros b b' s1 s1' Rb Rs1]. by_look s1 s1' Rs1; try exact I. bump_. now apply PR_ret.
    - bump_. match goal with HS : SR ?x ?y |- _ => lazymatch y with st' => fail | _ => by_look x y HS; try exact I end end.
      bump_. apply PR_ret; [|assumption]. unfold ER. cbn [rename]. now f_equal.
    - bump_. match goal with HS : SR ?x ?y |- PR _ (if tk_is (look ?x) _ then _ else _) _ => destruct (eof_dec x) as [E9|E9]; [|rewrite (tk_same x y TRBracket HS) by (discriminate || now right)] end.
      + rewrite E9. cbn [tk_is]. destruct n as [|n]; [exact I|]. cbn [p_items].
        match goal with |- PR _ (pbind (pbind (rec ?x) _) _) _ => pose proof (Hend x E9) as P; destruct (rec x) as [a9 s9|x9|x9|]; try exact I; destruct P as (? & ? & _ & [] & _) end.
      + match goal with |- PR _ (if ?b then _ else _) _ => destruct b end.
        * bump_. now apply PR_ret.
        * eapply PR_bind; [apply p_items_sim; eassumption|intros ? ? ? ? HL ?]. apply PR_ret; [|assumption]. unfold ER. cbn [rename]. unfold LR in HL. now rewrite HL.
    - bump_. match goal with HS : SR ?x ?y |- PR _ (if tk_is (look ?x) _ then _ else _) _ => destruct (eof_dec x) as [E9|E9]; [|rewrite (tk_same x y TRBrace HS) by (discriminate || now right)] end.
      + rewrite E9. cbn [tk_is]. destruct n as [|n]; [exact I|]. cbn [p_pairs]. unfold p_key. rewrite E9. exact I.
      + match goal with |- PR _ (if ?b then _ else _) _ => destruct b end.
        * bump_. now apply PR_ret.
        * eapply PR_bind; [apply p_pairs_sim; eassumption|intros ? ? ? ? HL ?]. apply PR_ret; [|assumption]. unfold ER. cbn [rename]. unfold KR in HL. now rewrite HL.
    - bump_. match goal with HS : SR ?x ?y |- _ => lazymatch y with st' => fail | _ => by_look x y HS; try exact I end end.
      bump_. eapply PR_bind; [apply p_args0_sim; eassumption|intros ? ? ? ? HL ?]. apply PR_ret; [|assumption]. unfold ER. cbn [rename]. unfold LR in HL.
      rewrite HL. f_equal. apply same_word_upper. auto.
  Qed.

  Lemma p_dot_sim : forall n node node' st st', ER node node' -> SR st st' -> PR ER (p_dot rec n node st) (p_dot rec n node' st').
  Proof.
    intros n node node' st st' HN H. unfold p_dot. unfold ER in HN. by_look st st' H; try exact I.
    bump_. match goal with HS : SR ?x ?y |- PR _ (match look ?x with _ => _ end) _ => pose proof HS as HS2; by_look x y HS end;
      try (apply PR_ret; [unfold ER; cbn [rename]; now rewrite HN, Hf|assumption]).
    - bump_. eapply PR_bind; [apply p_args0_sim; eassumption|intros ? ? ? ? HL ?]. apply PR_ret; [|assumption].
      unfold ER. cbn [rename]. unfold LR in HL. rewrite HL, HN. f_equal. auto.
    - bump_. apply PR_ret; [|assumption]. unfold ER. cbn [rename map]. rewrite HN. f_equal. auto.
  Qed.
  Lemma p_safe_sim : forall n node node' st st', ER node node' -> SR st st' -> PR ER (p_safe rec n node st) (p_safe rec n node' st').
  Proof.
    intros n node node' st st' HN H. unfold p_safe. unfold ER in HN. by_look st st' H; try exact I.
    bump_. match goal with HS : SR ?x ?y |- PR _ (match look ?x with _ => _ end) _ => pose proof HS as HS2; by_look x y HS end;
      try (apply PR_ret; [unfold ER; cbn [rename]; now rewrite HN, Hf|assumption]).
    bump_. eapply PR_bind; [apply p_args0_sim; eassumption|intros ? ? ? ? HL ?]. apply PR_ret; [|assumption].
    unfold ER. cbn [rename]. unfold LR in HL. rewrite HL, HN. f_equal. auto.
  Qed.
  Lemma p_slice_end_sim : forall node node' o o' st st', ER node node' -> OR o o' -> SR st st' -> look st = TColon ->
    PR ER (p_slice_end rec node o st) (p_slice_end rec node' o' st').
  Proof.
    intros node node' o o' st st' HN HO H E. unfold p_slice_end. bump_.
    match goal with HS : SR ?x ?y |- PR _ (pbind (if tk_is (look ?x) _ then _ else _) _) _ => rename HS into H1; rename x into s1; rename y into s1' end.
    assert (P : PR OR (if tk_is (look s1) TRBracket then POk None s1 else let* e ; st2 := rec s1 in POk (Some e) st2)
                      (if tk_is (look s1') TRBracket then POk None s1' else let* e ; st2 := rec s1' in POk (Some e) st2)).
    { destruct (eof_dec s1) as [E9|E9].
      - rewrite E9. cbn [tk_is]. apply fails_any. apply fails_bind. pose proof (Hend s1 E9) as P. destruct (rec s1); try exact I. destruct P as (? & ? & _ & [] & _).
      - rewrite (tk_same s1 s1' TRBracket H1) by (discriminate || now right). destruct (tk_is (look s1) TRBracket); [now apply PR_ret|].
        eapply PR_bind; [apply Hrec; eassumption|intros ? ? ? ? HE ?]. apply PR_ret; [|assumption]. unfold OR. cbn [option_map]. now rewrite HE. }
    eapply PR_bind; [exact P|intros o2 o2' s2 s2' HA H2].
    by_look s2 s2' H2; try exact I. bump_. apply PR_ret; [|assumption]. unfold ER, OR in *. cbn [rename]. now rewrite HN, HO, HA.
  Qed.
  Lemma p_index_sim : forall node node' st st', ER node node' -> SR st st' -> PR ER (p_index rec node st) (p_index rec node' st').
  Proof.
    intros node node' st st' HN H. unfold p_index. destruct (eof_dec st) as [E9|E9].
    { rewrite E9. cbn [tk_is]. apply fails_any. apply fails_bind. pose proof (Hend st E9) as P. destruct (rec st); try exact I. destruct P as (? & ? & _ & [] & _). }
    rewrite (tk_same st st' TRBracket H), (tk_same st st' TColon H) by (discriminate || now right).
    destruct (tk_is (look st) TRBracket).
    { bump_. exact I. }
    destruct (tk_is (look st) TColon) eqn:EC.
    { apply p_slice_end_sim; try assumption; [reflexivity|]. destruct (look st); try discriminate. reflexivity. }
    eapply PR_bind; [apply Hrec; eassumption|intros a a' s2 s2' HA H2].
    pose proof H2 as H3. by_look s2 s2' H2; try exact I.
    - apply p_slice_end_sim; try assumption. unfold OR. cbn [option_map]. now rewrite HA.
    - bump_. apply PR_ret; [|assumption]. unfold ER in *. cbn [rename]. now rewrite HN, HA.
  Qed.
  Lemma p_postfix_sim : forall n node node' st st', ER node node' -> SR st st' -> PR ER (p_postfix rec n node st) (p_postfix rec n node' st').
  Proof.
    induction n as [|n IH]; intros node node' st st' HN H; [exact I|]. cbn [p_postfix].
    pose proof H as H0. by_look st st' H; try (apply PR_ret; assumption).
    - bump_. eapply PR_bind; [apply p_dot_sim; eassumption|intros ? ? ? ? HL ?]. now apply IH.
    - bump_. eapply PR_bind; [apply p_safe_sim; eassumption|intros ? ? ? ? HL ?]. now apply IH.
    - bump_. eapply PR_bind; [apply p_index_sim; eassumption|intros ? ? ? ? HL ?]. now apply IH.
  Qed.
  Lemma p_cast_sim : forall n st st', SR st st' -> PR ER (p_cast rec n st) (p_cast rec n st').
  Proof.
    intros n st st' H. unfold p_cast. eapply PR_bind; [apply p_atom_sim; eassumption|intros a a' s1 s1' HA H1].
    eapply PR_bind; [apply p_postfix_sim; eassumption|intros b b' s2 s2' HB H2].
    pose proof H2 as H3. by_look s2 s2' H2; try (apply PR_ret; assumption).
    bump_. match goal with HS : SR ?x ?y |- PR _ (match look ?x with _ => _ end) _ => by_look x y HS; try exact I end.
    bump_. rewrite (same_word_type nm nm') by auto. destruct (type_of_name nm'); [|exact I]. apply PR_ret; [|assumption].
    unfold ER in *. cbn [rename]. now rewrite HB.
  Qed.
  Lemma unop_same : forall st st', SR st st' -> look st <> TEof -> unop_of (look st') = unop_of (look st).
  Proof.
    intros st st' H E. destruct (look_cases st st' H) as [(E1 & _)|[(a & b & E1 & E2 & _)|(E1 & _)]].
    - now rewrite E1.
    - now rewrite E1, E2.
    - congruence.
  Qed.
  Lemma p_cast_end : forall n st, look st = TEof -> fails (p_cast rec n st).
  Proof. intros n st E. unfold p_cast, p_atom. rewrite E. exact I. Qed.
  Lemma p_unary_sim : forall n st st', SR st st' -> PR ER (p_unary rec n st) (p_unary rec n st').
  Proof.
    induction n as [|n IH]; intros st st' H; [exact I|]. cbn [p_unary]. destruct (eof_dec st) as [E9|E9].
    { rewrite E9. cbn [unop_of]. apply fails_any. apply fails_bind. now apply p_cast_end. }
    rewrite (unop_same st st' H E9). destruct (unop_of (look st)).
    - bump_. eapply PR_bind; [apply IH; eassumption|intros ? ? ? ? HL ?]. apply PR_ret; [|assumption]. unfold ER in *. cbn [rename]. now rewrite HL.
    - eapply PR_bind; [apply p_cast_sim; eassumption|intros a a' s1 s1' HA H1].
      pose proof H1 as H2. by_look s1 s1' H1; try (apply PR_ret; assumption).
      bump_. eapply PR_bind; [apply IH; eassumption|intros ? ? ? ? HL ?]. apply PR_ret; [|assumption]. unfold ER in *. cbn [rename]. now rewrite HL, HA.
  Qed.
  Lemma binop_same : forall lvl st st', SR st st' -> binop_at lvl (look st') = binop_at lvl (look st).
  Proof.
    intros lvl st st' H. destruct (look_cases st st' H) as [(E1 & _)|[(a & b & E1 & E2 & _)|(E1 & [E2|E2])]].
    - now rewrite E1.
    - now rewrite E1, E2; do 7 (destruct lvl; try reflexivity).
    - now rewrite E1, E2.
    - rewrite E1. destruct (look st'); try discriminate; do 7 (destruct lvl; try reflexivity).
  Qed.
  Lemma binop_not_eof : forall lvl t op, binop_at lvl t = Some op -> t <> TEof.
  Proof. intros lvl t op H ->. do 7 (destruct lvl; try discriminate). Qed.
  Lemma p_bin_loop_sim : forall sub lvl, (forall st st', SR st st' -> PR ER (sub st) (sub st')) ->
    forall n node node' st st', ER node node' -> SR st st' -> PR ER (p_bin_loop sub lvl n node st) (p_bin_loop sub lvl n node' st').
  Proof.
    intros sub lvl Hsub. induction n as [|n IH]; intros node node' st st' HN H; [exact I|]. cbn [p_bin_loop].
    rewrite (binop_same lvl st st' H). destruct (binop_at lvl (look st)) eqn:E; [|now apply PR_ret].
    pose proof (binop_not_eof _ _ _ E). bump_. eapply PR_bind; [apply Hsub; eassumption|intros ? ? ? ? HL ?].
    apply IH; [|assumption]. unfold ER in *. cbn [rename]. now rewrite HL, HN.
  Qed.
  Lemma p_bin_sim : forall n k st st', SR st st' -> PR ER (p_bin rec n k st) (p_bin rec n k st').
  Proof.
    induction k as [|k IH]; intros st st' H; cbn [p_bin]; [now apply p_unary_sim|].
    eapply PR_bind; [apply IH; eassumption|intros ? ? ? ? HL ?]. now apply p_bin_loop_sim.
  Qed.
  Lemma p_ternary_sim : forall n st st', SR st st' -> PR ER (p_ternary rec n st) (p_ternary rec n st').
  Proof.
    intros n st st' H. unfold p_ternary. eapply PR_bind; [apply p_bin_sim; eassumption|intros a a' s1 s1' HA H1].
    pose proof H1 as H2. by_look s1 s1' H1; try (apply PR_ret; assumption).
    bump_. eapply PR_bind; [apply Hrec; eassumption|intros b b' s3 s3' HB H3]. by_look s3 s3' H3; try exact I.
    bump_. eapply PR_bind; [apply Hrec; eassumption|intros c c' s4 s4' HC HH4]. apply PR_ret; [|assumption].
    unfold ER in *. unfold ternary_call. cbn [rename map]. now rewrite HA, HB, HC.
  Qed.
  (** a lone ':' at the end of input *)
  Lemma colon_end : forall n st p, look st = TColon -> toks st = TSEnd p -> fails (p_ternary rec n st).
  Proof.
    intros n st p E1 E2. unfold p_ternary. apply fails_bind.
    assert (P : fails (p_unary rec n st)).
    { destruct n as [|n]; [exact I|]. cbn [p_unary]. rewrite E1. cbn [unop_of]. apply fails_bind. unfold p_cast. apply fails_bind.
      unfold p_atom. rewrite E1. unfold bump. rewrite E2. exact I. }
    generalize n_levels. induction n0 as [|k IH]; cbn [p_bin]; [assumption|]. now apply fails_bind.
  Qed.
  Lemma p_assignment_sim : forall n st st', SR st st' -> PR ER (p_assignment rec n st) (p_assignment rec n st').
  Proof.
    intros n st st' H. unfold p_assignment. destruct (eof_dec st) as [E9|E9].
    { rewrite E9. cbn [tk_is andb]. pose proof (p_ternary_sim n st st' H) as P.
      assert (F : fails (p_ternary rec n st)).
      { unfold p_ternary. apply fails_bind. generalize n_levels. induction n0 as [|k IH]; cbn [p_bin]; [|now apply fails_bind].
        destruct n as [|n]; [exact I|]. cbn [p_unary]. rewrite E9. cbn [unop_of]. apply fails_bind. now apply p_cast_end. }
      now apply fails_any. }
    rewrite (tk_same st st' TColon H) by (discriminate || now right).
    destruct (tk_is (look st) TColon) eqn:EC; cbn [andb]; [|now apply p_ternary_sim].
    assert (E : look st = TColon) by (destruct (look st); try discriminate; reflexivity).
    assert (A : is_assign_ahead st' = is_assign_ahead st \/ exists p, toks st = TSEnd p).
    { destruct H as [[_ HS]|[HE _]]; [|congruence]. unfold is_assign_ahead.
      inversion HS as [pv t t' p p' s s' HT HS2 X0 X1 X2|pv p p' X0 X1 X2|pv p t p' s' HC HV X0 X1 X2]; [left|right; eauto|right; eauto].
      inversion HT as [t0 N0 N1 X3 X4|a b Hab X3 X4]; subst.
      - destruct t'; try reflexivity. now elim (N1 s0).
      - inversion HS2 as [pv t t' q q' r r' HT2 HS3 X5 X3 X4|pv q q' X5 X3 X4|pv q t q' r' HC HV X5 X3 X4]; try reflexivity.
        + inversion HT2; subst; reflexivity.
        + destruct t; try reflexivity. discriminate. }
    destruct A as [A|(p & A)].
    - rewrite A. destruct (is_assign_ahead st); [|now apply p_ternary_sim].
      bump_. match goal with HS : SR ?x ?y |- PR _ (match look ?x with _ => _ end) _ => by_look x y HS; try exact I end.
      bump_. match goal with HS : SR ?x ?y |- PR _ (match look ?x with _ => _ end) _ => by_look x y HS; try exact I end.
      bump_. eapply PR_bind; [apply p_ternary_sim; eassumption|intros ? ? ? ? HL ?]. apply PR_ret; [|assumption]. unfold ER in *. cbn [rename]. now rewrite HL, Hf.
    - assert (B : is_assign_ahead st = false) by (unfold is_assign_ahead; now rewrite A). rewrite B.
      apply fails_any. now apply (colon_end n st p).
  Qed.
End Sim.

Section Program.
  Variable f : str -> str.
  Hypothesis f_case : forall a b, f a = f b -> map lower_ascii a = map lower_ascii b.
  Notation SR := (SR f). Notation PR := (PR f). Notation ER := (ER f). Notation LR := (LR f).

  Lemma p_expr_end : forall n st, look st = TEof -> fails (p_expr n st).
  Proof.
    intros [|n] st E; [exact I|]. cbn [p_expr]. unfold p_assignment. rewrite E. cbn [tk_is andb].
    unfold p_ternary. apply fails_bind. generalize n_levels. induction n0 as [|k IH]; cbn [p_bin]; [|now apply fails_bind].
    cbn [p_unary]. rewrite E. cbn [unop_of]. apply fails_bind. now apply p_cast_end.
  Qed.
  Lemma p_expr_sim : forall n st st', SR st st' -> PR ER (p_expr n st) (p_expr n st').
  Proof.
    induction n as [|n IH]; intros st st' H; [exact I|]. cbn [p_expr]. apply p_assignment_sim; try assumption.
    intros s E. pose proof (p_expr_end n s E) as F. destruct (p_expr n s); try exact I. contradiction.
  Qed.
  Lemma p_stmts_sim : forall n st st', SR st st' -> PR LR (p_stmts n st) (p_stmts n st').
  Proof.
    induction n as [|n IH]; intros st st' H; [exact I|]. cbn [p_stmts].
    destruct (look_cases f st st' H) as [(E & N & M)|[(a & b & E1 & E2 & _)|(E1 & E2)]].
    - rewrite <- E. destruct (look st) eqn:L; try (now apply PR_ret).
      destruct H as [[HT HS]|[HE _]]; [|congruence]. rewrite L in HS. unfold bump.
      inversion HS as [pv t t' p p' s s' HT2 HS2 X0 X1 X2|pv p p' X0 X1 X2|pv p t p' s' HC HV X0 X1 X2]; cbn [pbind look].
      + assert (R1 : SR (mkP t p s) (mkP t' p' s')) by (left; now split).
        assert (B : tk_is t' TEof = false /\ tk_is t TEof = false) by (inversion HT2 as [t0 N0 N1|? ? ?]; subst; [destruct t'; try (split; reflexivity); congruence|split; reflexivity]).
        destruct B as [-> ->]. eapply PR_bind; [apply p_expr_sim; eassumption|intros e e' s1 s1' HE H1].
        eapply PR_bind; [apply IH; eassumption|intros es es' s2 s2' HES H2]. apply PR_ret; [|assumption].
        unfold LR, ER in *. cbn [map]. now rewrite HE, HES.
      + cbn [tk_is]. apply PR_ret; [reflexivity|]. right. split; [reflexivity|now left].
      + congruence.
    - rewrite E1, E2. apply PR_ret; [reflexivity|assumption].
    - rewrite E1. destruct E2 as [E2|E2]; [rewrite E2; now apply PR_ret|]. destruct (look st') eqn:L; try discriminate; now apply PR_ret.
  Qed.
  Lemma p_program_sim : forall n st st', SR st st' -> PR ER (p_program n st) (p_program n st').
  Proof.
    intros n st st' H. unfold p_program. eapply PR_bind; [apply p_expr_sim; eassumption|intros e e' s1 s1' HE H1].
    eapply PR_bind; [apply p_stmts_sim; eassumption|intros es es' s2 s2' HES H2].
    unfold LR, ER in *. destruct es as [|x es], es' as [|x' es']; try discriminate; apply PR_ret; try assumption.
    unfold ER. cbn [rename map] in *. now rewrite HE, HES.
  Qed.
  (** the first token counts as preceded by something other than ';' *)
  Lemma parse_stream_sim : forall ts ts' e, SS f TEof ts ts' -> parse_stream ts = Done (Ok e) ->
    (exists r, parse_stream ts' = Done r) -> exists e', parse_stream ts' = Done (Ok e') /\ ER e e'.
  Proof.
    intros ts ts' e H E [r R]. unfold parse_stream in *.
    assert (S : exists st st', parser_new ts = POk tt st /\ parser_new ts' = POk tt st' /\ SR st st').
    { inversion H as [pv t t' p p' s s' HT HS2 X0 X1 X2|pv p p' X0 X1 X2|pv p t p' s' HC HV X0 X1 X2]; subst; cbn [parser_new].
      - do 2 eexists. split; [reflexivity|]. split; [reflexivity|]. left. now split.
      - do 2 eexists. split; [reflexivity|]. split; [reflexivity|]. right. split; [reflexivity|now left].
      - do 2 eexists. split; [reflexivity|]. split; [reflexivity|]. right. split; [reflexivity|now right]. }
    destruct S as (st & st' & E1 & E2 & HS). rewrite E1 in E. rewrite E2 in R |- *.
    destruct (p_program (parse_fuel ts) st) as [e0 s1|x|x|] eqn:P; try discriminate. injection E as ->.
    pose proof (p_program_sim (parse_fuel ts) st st' HS) as Q. rewrite P in Q. destruct Q as (e' & s1' & Q & HE & _).
    assert (Q2 : p_program (parse_fuel ts') st' = POk e' s1').
    { apply (program_any_fuel (parse_fuel ts)); [assumption|]. intros F. rewrite F in R. discriminate. }
    rewrite Q2. eauto.
  Qed.
End Program.

Lemma rename_id : forall e, rename (fun x => x) e = e.
Proof.
  assert (L : forall es, Forall (fun e => rename (fun x => x) e = e) es -> map (rename (fun x => x)) es = es).
  { induction 1 as [|e es H _ IH]; [reflexivity|]. cbn [map]. now rewrite H, IH. }
  induction e using expr_ind'; cbn [rename]; try reflexivity; rewrite ?IHe, ?IHe1, ?IHe2, ?L by assumption; try reflexivity.
  - f_equal. match goal with H : Forall _ kvs |- _ => induction H as [|[k v] kvs Hk _ IH]; [reflexivity|]; cbn [map fst snd] in *; now rewrite Hk, IH end.
  - f_equal.
    + destruct s; cbn [option_map]; [|reflexivity]. f_equal. auto.
    + destruct t; cbn [option_map]; [|reflexivity]. f_equal. auto.
Qed.

(** equal up to renaming with lower case, and with the same names: equal *)
Definition tells (e : expr) : Prop := forall f e' r r', rename f e = rename f e' -> names_of e ++ r = names_of e' ++ r' -> e = e' /\ r = r'.
Lemma names_tell_list : forall es, Forall tells es -> forall f es' r r', map (rename f) es = map (rename f) es' ->
  flat_map names_of es ++ r = flat_map names_of es' ++ r' -> es = es' /\ r = r'.
Proof.
  induction 1 as [|e es H _ IH]; intros f [|e' es'] r r' HM HN; try discriminate; [now split|].
  cbn [map flat_map] in *. injection HM as M1 M2. rewrite <- !app_assoc in HN.
  destruct (H f e' _ _ M1 HN) as [-> HN2]. destruct (IH f es' r r' M2 HN2) as [-> ->]. now split.
Qed.
Lemma names_tell : forall e, tells e.
Proof.
  induction e using expr_ind'; intros f0 e' r r' HM HN; destruct e'; try discriminate HM; cbn [rename] in HM; try (injection HM; intros; subst);
    cbn [names_of] in HN; rewrite <- ?app_assoc in HN; try (now split).
  - destruct (IHe f0 e' r r') as [-> ->]; [assumption..|]. now split.
  - destruct (IHe1 f0 e'1 _ _ ltac:(eassumption) HN) as [-> HN2]. destruct (IHe2 f0 e'2 r r') as [-> ->]; [assumption..|]. now split.
  - cbn [app] in HN. injection HN as -> ->. now split.
  - destruct (IHe f0 e' _ _ ltac:(eassumption) HN) as [-> HN2]. cbn [app] in HN2. injection HN2 as -> ->. now split.
  - destruct (IHe f0 e' _ _ ltac:(eassumption) HN) as [-> HN2]. cbn [app] in HN2. injection HN2 as -> ->. now split.
  - destruct (IHe f0 e' _ _ ltac:(eassumption) HN) as [-> HN2].
    match goal with HF : Forall _ args |- _ => destruct (names_tell_list _ HF f0 _ _ _ ltac:(eassumption) HN2) as [-> ->] end. now split.
  - match goal with HF : Forall _ args |- _ => destruct (names_tell_list _ HF f0 _ _ _ ltac:(eassumption) HN) as [-> ->] end. now split.
  - destruct (IHe f0 e' r r') as [-> ->]; [assumption..|]. now split.
  - match goal with HF : Forall _ es |- _ => destruct (names_tell_list _ HF f0 _ _ _ ltac:(eassumption) HN) as [-> ->] end. now split.
  - match goal with HF : Forall _ kvs, HK : map _ kvs = map _ _ |- _ => rename HK into HK0; clear HM;
      assert (K : kvs = pairs /\ r = r'); [|destruct K as [-> ->]; now split]; revert pairs HK0 HN; induction HF as [|[k v] kvs Hv _ IH] end;
      intros [|[k' v'] pairs] HK HN; try discriminate; [now split|].
    cbn [map fst snd flat_map] in *. injection HK as K1 K2 K3. rewrite <- ?app_assoc, <- ?app_comm_cons, <- ?app_assoc in HN. injection HN as -> HN.
    destruct (Hv f0 v' _ _ K2 HN) as [-> HN2]. destruct (IH pairs K3 HN2) as [-> ->]. now split.
  - destruct (IHe f0 e' _ _ ltac:(eassumption) HN) as [-> HN2].
    match goal with HF : Forall _ args |- _ => destruct (names_tell_list _ HF f0 _ _ _ ltac:(eassumption) HN2) as [-> ->] end. now split.
  - destruct (IHe1 f0 e'1 _ _ ltac:(eassumption) HN) as [-> HN2]. destruct (IHe2 f0 e'2 r r') as [-> ->]; [assumption..|]. now split.
  - destruct (IHe f0 e' _ _ ltac:(eassumption) HN) as [-> HN2].
    destruct s as [s|], start as [s'|]; try discriminate; destruct t as [t|], stop as [t'|]; try discriminate;
      repeat match goal with HO : option_map _ (Some _) = option_map _ (Some _) |- _ => injection HO; clear HO; intro end; cbn [app] in HN2.
    all: repeat match goal with HT : forall x, Some ?s = Some x -> tells x, HS : rename _ ?s = rename _ ?s', HN : names_of ?s ++ _ = names_of ?s' ++ _ |- _ =>
           destruct (HT s eq_refl f0 s' _ _ HS HN) as [-> ?HN3]; clear HN HT end.
    all: subst; now split.
  - destruct (IHe f0 e' r r') as [-> ->]; [assumption..|]. now split.
  - cbn [app] in HN. injection HN as -> HN. destruct (IHe f0 e' r r') as [-> ->]; [assumption..|]. now split.
  - match goal with HF : Forall _ es |- _ => destruct (names_tell_list _ HF f0 _ _ _ ltac:(eassumption) HN) as [-> ->] end. now split.
Qed.
Lemma names_tell_whole : forall f e e', rename f e = rename f e' -> names_of e = names_of e' -> e = e'.
Proof. intros f e e' H N. destruct (names_tell e f e' [] []) as [-> _]; [assumption|now rewrite !app_nil_r|reflexivity]. Qed.

(** ** Sources *)
Lemma strip_eq_none : forall src, no_leading_eq src -> strip_eq src = src.
Proof.
  intros src H. unfold no_leading_eq in H. unfold strip_eq. destruct (trim_start src) as [|c r]; [reflexivity|]. cbn [hd] in H.
  now rewrite (proj2 (N.eqb_neq c 61) H).
Qed.
Lemma parse_stream_of : forall src, no_leading_eq src -> parse_stream (tokenize (lexer_new src)) = Done (parse src).
Proof. intros src H. rewrite <- parse_done. unfold parse_out. now rewrite (strip_eq_none src H). Qed.

Lemma streams_SS : forall f ts ts' prev s s', Forall2 (TR f) ts ts' -> streams ts at_end s -> streams ts' at_end s' -> SS f prev s s'.
Proof.
  intros f ts ts' prev s s' H. revert prev s s'. induction H as [|t t' ts ts' Ht _ IH]; intros prev s s' H1 H2; cbn [streams] in *.
  - destruct H1 as (p & ->), H2 as (p' & ->). constructor.
  - destruct H1 as (p & r & -> & H1), H2 as (p' & r' & -> & H2). constructor; [assumption|]. now apply IH.
Qed.
Lemma written_tokens : forall ts src, written ts src -> no_leading_eq src -> streams ts at_end (tokenize (lexer_new src)).
Proof. intros ts src H E. apply (written_stream ts src H); [reflexivity|now right]. Qed.
Lemma written_not_eof : forall ts src, written ts src -> Forall (fun t => t <> TEof) ts.
Proof. induction 1; constructor; auto. now apply spelled_not_eof in H0. Qed.

Lemma case_TR : forall ts ts', Forall2 same_but_case ts ts' -> Forall (fun t => t <> TEof) ts -> Forall2 (TR (map lower_ascii)) ts ts'.
Proof.
  induction 1 as [|t t' ts ts' H _ IH]; intros N; inversion N; subst; constructor; auto.
  destruct H as [<-|(a & b & -> & -> & Hab)]; [|now constructor].
  destruct t; try (apply TR_same; [congruence|discriminate]). now apply TR_id.
Qed.
Lemma id_TR : forall ts, Forall (fun t => t <> TEof) ts -> Forall2 (TR (fun x => x)) ts ts.
Proof.
  induction 1 as [|t ts H _ IH]; constructor; auto. destruct t; try (apply TR_same; [congruence|discriminate]). now apply TR_id.
Qed.

Lemma recased_source : forall ts ts' src src' e, Forall2 same_but_case ts ts' -> written ts src -> written ts' src' ->
  no_leading_eq src -> no_leading_eq src' -> parse src = Ok e ->
  exists e', parse src' = Ok e' /\ rename (map lower_ascii) e = rename (map lower_ascii) e' /\ (names_of e = names_of e' -> e = e').
Proof.
  intros ts ts' src src' e HC W W' E E' P.
  assert (S : SS (map lower_ascii) TEof (tokenize (lexer_new src)) (tokenize (lexer_new src'))).
  { apply (streams_SS _ ts ts'); [|now apply written_tokens..]. apply case_TR; [assumption|]. now apply written_not_eof in W. }
  destruct (parse_stream_sim _ (fun a b H => H) _ _ e S) as (e' & P' & R).
  - rewrite parse_stream_of by assumption. now rewrite P.
  - exists (parse src'). now apply parse_stream_of.
  - exists e'. rewrite parse_stream_of in P' by assumption. injection P' as P'. split; [assumption|]. split; [assumption|].
    intros HN. now apply (names_tell_whole (map lower_ascii)).
Qed.
Lemma respaced_source : forall ts src src' e, written ts src -> written ts src' -> no_leading_eq src -> no_leading_eq src' ->
  parse src = Ok e -> parse src' = Ok e.
Proof.
  intros ts src src' e W W' E E' P.
  assert (S : SS (fun x => x) TEof (tokenize (lexer_new src)) (tokenize (lexer_new src'))).
  { apply (streams_SS _ ts ts); [|now apply written_tokens..]. apply id_TR. now apply written_not_eof in W. }
  destruct (parse_stream_sim (fun x => x) (fun a b H => f_equal (map lower_ascii) H) _ _ e S) as (e' & P' & R).
  - rewrite parse_stream_of by assumption. now rewrite P.
  - exists (parse src'). now apply parse_stream_of.
  - rewrite parse_stream_of in P' by assumption. injection P' as P'. unfold ER in R. rewrite !rename_id in R. now subst.
Qed.
Lemma respaced_same : forall ts src src', written ts src -> written ts src' -> no_leading_eq src -> no_leading_eq src' ->
  forall e, parse src = Ok e <-> parse src' = Ok e.
Proof. intros ts src src' W W' E E' e. split; now apply (respaced_source ts). Qed.
Lemma leading_eq : forall ws src, Forall (fun c => is_whitespace c = true) ws -> no_leading_eq src ->
  parse (ws ++ 61%N :: src) = parse src.
Proof.
  intros ws src H E. unfold parse, parse_out. assert (S : strip_eq (ws ++ 61%N :: src) = src).
  { unfold strip_eq. rewrite trim_start_app by assumption. reflexivity. }
  now rewrite S, strip_eq_none.
Qed.

(** ** trailing input *)
Definition follow (t : token) (s : tstream) : Prop := exists p r, s = TSCons t p r.
Lemma trailing_stream : forall ts src, written ts src -> forall t s rest lx g, spelled t s -> blank g ->
  lx_rest lx = encode (src ++ g :: s ++ g :: rest) -> starts_ok (src ++ g :: s ++ g :: rest) lx -> ts <> [] ->
  streams ts (follow t) (tokenize lx).
Proof.
  intros ts src H. induction H as [gap Hg|gap t1 s1 ts rest1 Hg Hs Hw IH Hsep]; intros t s rest lx g Ht Hbl E P Hne; [congruence|].
  assert (Hsep2 : forall x, separated s1 (rest1 ++ g :: x)).
  { intros x. right. destruct Hsep as [->|Hsep].
    - cbn [app hd]. destruct Hbl as [<-|[<-|[<-|[<-|[]]]]]; unfold glues; rewrite !andb_false_r; reflexivity.
    - destruct rest1 as [|c rest1]; [|exact Hsep]. cbn [app hd].
      destruct Hbl as [<-|[<-|[<-|[<-|[]]]]]; unfold glues; rewrite !andb_false_r; reflexivity. }
  rewrite <- !app_assoc in E, P.
  destruct (token_stream gap t1 s1 (rest1 ++ g :: s ++ g :: rest) lx Hg Hs (Hsep2 _) E) as (lx' & A & B & C).
  { destruct P as [P|P]; [now left|]. right; right. split; [exact I|]. intros E61.
    destruct (encode_head s1 61 [] E61 ltac:(lia)) as (s' & -> & _). apply P. rewrite trim_start_app; [reflexivity|].
    eapply Forall_impl; [|exact Hg]. intros c Hc. now destruct (blank_ws c Hc) as (_ & ? & _). }
  cbn [streams]. exists (lx_start lx'), (tokenize lx'). split; [assumption|].
  destruct ts as [|t2 ts].
  - cbn [streams]. inversion Hw as [gap2 Hg2|]; subst.
    assert (E2 : rest1 ++ g :: s ++ g :: rest = (rest1 ++ [g]) ++ s ++ g :: rest) by (rewrite <- app_assoc; reflexivity).
    rewrite E2 in B. destruct (token_stream (rest1 ++ [g]) t s (g :: rest) lx') as (lx2 & A2 & _); try assumption.
    + apply Forall_app. split; [assumption|]. constructor; [assumption|constructor].
    + right. cbn [hd]. destruct Hbl as [<-|[<-|[<-|[<-|[]]]]]; unfold glues; rewrite !andb_false_r; reflexivity.
    + now left.
    + now exists (lx_start lx2), (tokenize lx2).
  - apply (IH t s rest lx' g); try assumption; [now left|discriminate].
Qed.
Lemma trailing_SS : forall ts t prev s s', Forall (fun t => t <> TEof) ts -> cannot_continue t = true ->
  last (prev :: ts) TEof <> TSemicolon ->
  streams ts at_end s -> streams ts (follow t) s' -> SS (fun x => x) prev s s'.
Proof.
  intros ts t prev s s' H HC. revert prev s s'. induction H as [|x ts Hx _ IH]; intros prev s s' HL H1 H2; cbn [streams] in *.
  - destruct H1 as (p & ->), H2 as (p' & r' & ->). now constructor.
  - destruct H1 as (p & r & -> & H1), H2 as (p' & r' & -> & H2). constructor.
    + destruct x; try (apply TR_same; [congruence|discriminate]). now apply TR_id.
    + apply IH; [|assumption..]. exact HL.
Qed.
Lemma letter_not_space : forall c, letter c = true -> is_whitespace c = false.
Proof.
  intros c H. unfold letter in H. unfold is_whitespace.
  assert (B : (65 <= c /\ c <= 122)%N).
  { apply orb_true_iff in H as [H|H]; [apply orb_true_iff in H as [H|H]; apply andb_true_iff in H as [A B]; apply N.leb_le in A, B|apply N.eqb_eq in H]; lia. }
  repeat (apply orb_false_iff; split); try (apply N.eqb_neq; lia); apply andb_false_iff; rewrite !N.leb_gt; lia.
Qed.
Lemma digit_not_space : forall c, is_digit c = true -> is_whitespace c = false.
Proof.
  intros c H. unfold is_digit in H. apply andb_true_iff in H as [A B]. apply N.leb_le in A, B. unfold is_whitespace.
  repeat (apply orb_false_iff; split); try (apply N.eqb_neq; lia); apply andb_false_iff; rewrite !N.leb_gt; lia.
Qed.
Lemma spelled_head : forall t s, spelled t s -> exists c r, s = c :: r /\ is_whitespace c = false.
Proof.
  assert (W : forall s, word s -> exists c r, s = c :: r /\ is_whitespace c = false).
  { intros s (c & r & -> & H & _). exists c, r. split; [reflexivity|now apply letter_not_space]. }
  intros t s H. destruct H as [t s H|s [H _]|s H|s H|s H|s n H|q text value Hq H].
  - unfold symbols in H. cbn [In] in H. repeat (destruct H as [[= <- <-]|H]); try contradiction; do 2 eexists; (split; [reflexivity|reflexivity]).
  - now apply W.
  - apply W. eapply keyword_word; [|..|exact H]; [reflexivity|discriminate].
  - apply W. eapply keyword_word; [|..|exact H]; [reflexivity|discriminate].
  - apply W. eapply keyword_word; [|..|exact H]; [reflexivity|discriminate].
  - destruct H as [ds x [H1 H2] _|ds fs x H1 _ _].
    + destruct ds as [|d ds]; [congruence|]. exists d, ds. split; [reflexivity|]. cbn in H2. apply andb_true_iff in H2 as [A _]. now apply digit_not_space.
    + destruct ds as [|d ds]; [do 2 eexists; split; reflexivity|]. do 2 eexists. split; [reflexivity|]. cbn in H1. apply andb_true_iff in H1 as [A _]. now apply digit_not_space.
  - do 2 eexists. split; [reflexivity|]. destruct Hq as [-> | ->]; reflexivity.
Qed.
Lemma trailing_ignored : forall ts src e t s rest g, written ts src -> no_leading_eq src -> parse src = Ok e ->
  last ts TEof <> TSemicolon -> cannot_continue t = true -> spelled t s -> blank g ->
  parse (src ++ g :: s ++ g :: rest) = Ok e.
Proof.
  intros ts src e t s rest g W E P HL HC Hs Hg.
  assert (Hne : ts <> []).
  { intros ->. pose proof (written_tokens _ _ W E) as (p & S). pose proof (parse_stream_of src E) as Q. rewrite S, P in Q. discriminate. }
  assert (E2 : no_leading_eq (src ++ g :: s ++ g :: rest)).
  { unfold no_leading_eq in *. destruct W as [gap _|gap t1 s1 ts1 rest1 Hgap Hs1 Hw Hsep]; [congruence|].
    rewrite <- !app_assoc. assert (F : Forall (fun c => is_whitespace c = true) gap).
    { eapply Forall_impl; [|exact Hgap]. intros c Hc. now destruct (blank_ws c Hc) as (_ & ? & _). }
    rewrite trim_start_app in E |- * by assumption.
    destruct (spelled_head t1 s1 Hs1) as (c & r & -> & Hc). cbn [app trim_start] in E |- *. rewrite Hc in E |- *. exact E. }
  assert (S : SS (fun x => x) TEof (tokenize (lexer_new src)) (tokenize (lexer_new (src ++ g :: s ++ g :: rest)))).
  { apply (trailing_SS ts t); try assumption.
    - now apply written_not_eof in W.
    - destruct ts; [congruence|exact HL].
    - now apply written_tokens.
    - apply (trailing_stream ts src W t s rest _ g); try assumption; [reflexivity|now right]. }
  destruct (parse_stream_sim (fun x => x) (fun a b H => f_equal (map lower_ascii) H) _ _ e S) as (e' & P' & R).
  - rewrite parse_stream_of by assumption. now rewrite P.
  - exists (parse (src ++ g :: s ++ g :: rest)). now apply parse_stream_of.
  - rewrite parse_stream_of in P' by assumption. injection P' as P'. unfold ER in R. rewrite !rename_id in R. now subst.
Qed.

(** ** String literals *)
Lemma parse_quoted_text : forall q text value, q = 34%N \/ q = 39%N -> quoted q text value ->
  parse (q :: text ++ [q]) = Ok (EStringLit value).
Proof.
  intros q text value Hq H. destruct (quoted_pieces q text value H) as (ps & A & -> & ->). now apply parse_string_literal.
Qed.
Lemma escape_quoted : forall q s, q = 34%N \/ q = 39%N -> valid_str s -> quoted q (escape q s) s.
Proof.
  intros q s Hq H. induction H as [|c s Hc _ IH]; [constructor|]. unfold escape. cbn [flat_map]. fold (escape q s).
  destruct (N.eqb_spec c 92) as [->|H1]; [cbn [app]; now constructor|].
  destruct (N.eqb_spec c q) as [->|H2]; [cbn [app]; destruct Hq as [-> | ->]; now constructor|].
  destruct (N.eqb_spec c 10) as [->|H3]; [cbn [app]; now constructor|].
  destruct (N.eqb_spec c 9) as [->|H4]; cbn [app]; now constructor.
Qed.
