(** Lemmas about the parser: termination, panics, fuel monotonicity. *)
From Coq Require Import String List NArith Bool Lia ZArith.
From Verif Require Import Base F64 Utf8 Syntax Lexer Parser.
Import ListNotations.
Local Open Scope nat_scope.

Fixpoint ts_nopanic (ts : tstream) : Prop :=
  match ts with
  | TSCons _ _ r => ts_nopanic r
  | TSPanic _ => False
  | _ => True
  end.

Definition is_eof (t : token) : bool := match t with TEof => true | _ => false end.

(** Number of tokens left, lookahead included. *)
Definition msr (st : pstate) : nat := ts_len (toks st) + (if is_eof (look st) then 0 else 1).

Definition ltr {A} (r : pres A) (m : nat) : Prop :=
  match r with
  | POk _ st => (msr st < m)%nat /\ ts_nopanic (toks st)
  | PErr _ => True
  | PPanic _ => False
  | OutOfFuel => False
  end.
Definition ler {A} (r : pres A) (m : nat) : Prop :=
  match r with
  | POk _ st => (msr st <= m)%nat /\ ts_nopanic (toks st)
  | PErr _ => True
  | PPanic _ => False
  | OutOfFuel => False
  end.

Lemma ltr_ler : forall A (r : pres A) m, ltr r m -> ler r m.
Proof. intros A [] m; cbn; intuition lia. Qed.

Lemma bump_ltr : forall st, is_eof (look st) = false -> ts_nopanic (toks st) -> ltr (bump st) (msr st).
Proof.
  intros [t p ts] E H. cbn in *. unfold bump, msr. cbn [look toks].
  rewrite E. destruct ts; cbn -[is_eof] in *; auto.
  - split; auto. unfold msr; cbn [look toks]. destruct (is_eof t0); lia.
Qed.

Lemma pbind_ltr_ltr : forall A B (r : pres A) (k : A -> pstate -> pres B) m m',
  ltr r m -> (forall a st, msr st < m -> ts_nopanic (toks st) -> ltr (k a st) m')%nat -> ltr (pbind r k) m'.
Proof. intros A B [] k m m' H K; cbn in *; intuition. Qed.
Lemma pbind_ltr_ler : forall A B (r : pres A) (k : A -> pstate -> pres B) m m',
  ltr r m -> (forall a st, msr st < m -> ts_nopanic (toks st) -> ler (k a st) m')%nat -> ler (pbind r k) m'.
Proof. intros A B [] k m m' H K; cbn in *; intuition. Qed.
Lemma pbind_ler_ltr : forall A B (r : pres A) (k : A -> pstate -> pres B) m m',
  ler r m -> (forall a st, msr st <= m -> ts_nopanic (toks st) -> ltr (k a st) m')%nat -> ltr (pbind r k) m'.
Proof. intros A B [] k m m' H K; cbn in *; intuition. Qed.
Lemma pbind_ler_ler : forall A B (r : pres A) (k : A -> pstate -> pres B) m m',
  ler r m -> (forall a st, msr st <= m -> ts_nopanic (toks st) -> ler (k a st) m')%nat -> ler (pbind r k) m'.
Proof. intros A B [] k m m' H K; cbn in *; intuition. Qed.

Lemma ltr_mono : forall A (r : pres A) m m', (m <= m')%nat -> ltr r m -> ltr r m'.
Proof. intros A [] m m'; cbn; intuition lia. Qed.
Lemma ler_mono : forall A (r : pres A) m m', (m <= m')%nat -> ler r m -> ler r m'.
Proof. intros A [] m m'; cbn; intuition lia. Qed.


Lemma tk_is_eq : forall t x, tk_is t x = true -> t = x.
Proof. intros t x H; destruct t, x; try discriminate; reflexivity. Qed.
Lemma tk_is_not_eof : forall t x, tk_is t x = true -> x <> TEof -> is_eof t = false.
Proof. intros t x H N. apply tk_is_eq in H. subst. destruct x; cbn; congruence. Qed.
Lemma binop_not_eof : forall lvl t op, binop_at lvl t = Some op -> is_eof t = false.
Proof. intros lvl t op H. destruct t; try reflexivity. do 7 (destruct lvl; try discriminate). Qed.
Lemma unop_not_eof : forall t op, unop_of t = Some op -> is_eof t = false.
Proof. intros t op H. destruct t; try reflexivity. discriminate. Qed.

Ltac solve_eof :=
  first [ match goal with H : look ?s = _ |- is_eof (look ?s) = false => rewrite H; reflexivity end
        | eapply tk_is_not_eof; [eassumption|discriminate]
        | eapply binop_not_eof; eassumption
        | eapply unop_not_eof; eassumption ].

Ltac fin := cbn [ltr ler err_here]; try (split; [lia|assumption]); try exact I; try lia.
Ltac bmp st' H' N' :=
  first [ eapply pbind_ltr_ltr; [apply bump_ltr; [solve_eof|assumption]|intros _ st' H' N']
        | eapply pbind_ltr_ler; [apply bump_ltr; [solve_eof|assumption]|intros _ st' H' N'] ].
Tactic Notation "call" constr(H) simple_intropattern(a) simple_intropattern(st) ident(h) ident(n) :=
  first [ eapply pbind_ltr_ltr; [apply H; [..|assumption]; lia|intros a st h n]
        | eapply pbind_ltr_ler; [apply H; [..|assumption]; lia|intros a st h n]
        | eapply pbind_ler_ltr; [apply H; [..|assumption]; lia|intros a st h n]
        | eapply pbind_ler_ler; [apply H; [..|assumption]; lia|intros a st h n] ].

Section Total.
  Variable rec : pstate -> pres expr.
  Variable M : nat.
  Hypothesis Hrec : forall st, msr st < M -> ts_nopanic (toks st) -> ltr (rec st) (msr st).

  Lemma p_arg_total : forall st, msr st < M -> ts_nopanic (toks st) -> ltr (p_arg rec st) (msr st).
  Proof.
    intros st Hm Hn. unfold p_arg. destruct (tk_is (look st) TEllipsis) eqn:E.
    - bmp st1 H1 N1. call Hrec e st2 H2 N2. fin.
    - apply Hrec; [lia|assumption].
  Qed.

  Lemma p_args_total : forall n msg st, msr st < n -> msr st < M -> ts_nopanic (toks st) ->
    ltr (p_args rec n msg st) (msr st).
  Proof.
    induction n as [|n IH]; intros msg st Hf Hm Hn; [lia|]. cbn [p_args].
    call p_arg_total arg st2 H2 N2.
    destruct (look st2) eqn:E2; fin; bmp st3 H3 N3; fin.
    call IH rest st4 H4 N4. fin.
  Qed.

  Lemma p_args0_total : forall n msg st, msr st < n -> msr st < M -> ts_nopanic (toks st) ->
    ltr (p_args0 rec n msg st) (msr st).
  Proof.
    intros n msg st Hf Hm Hn. unfold p_args0. destruct (tk_is (look st) TRParen) eqn:E.
    - bmp st1 H1 N1. fin.
    - apply p_args_total; assumption.
  Qed.

  Lemma p_items_total : forall n st, msr st < n -> msr st < M -> ts_nopanic (toks st) ->
    ltr (p_items rec n st) (msr st).
  Proof.
    induction n as [|n IH]; intros st Hf Hm Hn; [lia|]. cbn [p_items].
    call Hrec arg st2 H2 N2.
    destruct (look st2) eqn:E2; fin; bmp st3 H3 N3; fin.
    call IH rest st4 H4 N4. fin.
  Qed.

  Lemma p_key_total : forall st, ts_nopanic (toks st) -> ltr (p_key st) (msr st).
  Proof.
    intros st Hn. unfold p_key. destruct (look st) eqn:E; fin; bmp st1 H1 N1; fin.
  Qed.

  Lemma p_pairs_total : forall n st, msr st < n -> msr st < M -> ts_nopanic (toks st) ->
    ltr (p_pairs rec n st) (msr st).
  Proof.
    induction n as [|n IH]; intros st Hf Hm Hn; [lia|]. cbn [p_pairs].
    eapply pbind_ltr_ltr; [apply p_key_total; assumption|intros key st1 H1 N1].
    destruct (look st1) eqn:E1; fin. bmp st2 H2 N2. call Hrec v st3 H3 N3.
    destruct (look st3) eqn:E3; fin; bmp st4 H4 N4; fin.
    destruct (tk_is (look st4) TRBrace) eqn:E4.
    - bmp st5 H5 N5; fin.
    - call IH rest st5 H5 N5. fin.
  Qed.

  Lemma p_atom_total : forall n st, msr st <= n -> msr st <= M -> ts_nopanic (toks st) ->
    ltr (p_atom rec n st) (msr st).
  Proof.
    intros n st Hf Hm Hn. unfold p_atom.
    destruct (look st) eqn:E; fin; bmp st1 H1 N1; fin.
    - destruct (look st1) eqn:E1; fin. bmp st2 H2 N2. call p_args0_total args st3 H3 N3. fin.
    - call Hrec e st2 H2 N2. destruct (look st2) eqn:E2; fin. bmp st3 H3 N3. fin.
    - destruct (look st1) eqn:E1; fin. bmp st2 H2 N2. fin.
    - destruct (tk_is (look st1) TRBracket) eqn:E1.
      + bmp st2 H2 N2. fin.
      + call p_items_total it st2 H2 N2. fin.
    - destruct (tk_is (look st1) TRBrace) eqn:E1.
      + bmp st2 H2 N2. fin.
      + call p_pairs_total it st2 H2 N2. fin.
  Qed.

  Lemma p_dot_total : forall n node st, msr st <= n -> msr st <= M -> ts_nopanic (toks st) ->
    ltr (p_dot rec n node st) (msr st).
  Proof.
    intros n node st Hf Hm Hn. unfold p_dot.
    destruct (look st) eqn:E; fin. bmp st1 H1 N1.
    destruct (look st1) eqn:E1; fin; bmp st2 H2 N2; fin.
    call p_args0_total args st3 H3 N3. fin.
  Qed.

  Lemma p_safe_total : forall n node st, msr st <= n -> msr st <= M -> ts_nopanic (toks st) ->
    ltr (p_safe rec n node st) (msr st).
  Proof.
    intros n node st Hf Hm Hn. unfold p_safe.
    destruct (look st) eqn:E; fin. bmp st1 H1 N1.
    destruct (look st1) eqn:E1; fin; bmp st2 H2 N2; fin.
    call p_args0_total args st3 H3 N3. fin.
  Qed.

  Lemma p_slice_end_total : forall node s st, msr st <= M -> ts_nopanic (toks st) ->
    is_eof (look st) = false -> ltr (p_slice_end rec node s st) (msr st).
  Proof.
    intros node s st Hm Hn E. unfold p_slice_end.
    eapply pbind_ltr_ltr; [apply bump_ltr; assumption|intros _ st1 H1 N1].
    eapply pbind_ler_ltr with (m := msr st1).
    { destruct (tk_is (look st1) TRBracket); fin. call Hrec e st2 H2 N2. fin. }
    intros stop st2 H2 N2. destruct (look st2) eqn:E2; fin. bmp st3 H3 N3. fin.
  Qed.

  Lemma p_index_total : forall node st, msr st < M -> ts_nopanic (toks st) ->
    ltr (p_index rec node st) (msr st).
  Proof.
    intros node st Hm Hn. unfold p_index.
    destruct (tk_is (look st) TRBracket) eqn:E1; [|destruct (tk_is (look st) TColon) eqn:E2].
    - bmp st1 H1 N1. fin.
    - apply p_slice_end_total; [lia|assumption|solve_eof].
    - call Hrec first st2 H2 N2. destruct (look st2) eqn:E3; fin.
      + eapply ltr_mono; [|apply p_slice_end_total; [lia|assumption|solve_eof]]. lia.
      + bmp st3 H3 N3. fin.
  Qed.

  Lemma p_postfix_total : forall n node st, msr st < n -> msr st <= M -> ts_nopanic (toks st) ->
    ler (p_postfix rec n node st) (msr st).
  Proof.
    induction n as [|n IH]; intros node st Hf Hm Hn; [lia|]. cbn [p_postfix].
    destruct (look st) eqn:E; fin; bmp st1 H1 N1.
    - call p_dot_total node' st2 H2 N2. eapply ler_mono; [|apply IH; [..|assumption]]; lia.
    - call p_safe_total node' st2 H2 N2. eapply ler_mono; [|apply IH; [..|assumption]]; lia.
    - call p_index_total node' st2 H2 N2. eapply ler_mono; [|apply IH; [..|assumption]]; lia.
  Qed.

  Lemma p_cast_total : forall n st, msr st <= n -> msr st <= M -> ts_nopanic (toks st) ->
    ltr (p_cast rec n st) (msr st).
  Proof.
    intros n st Hf Hm Hn. unfold p_cast.
    call p_atom_total a st0 H0 N0. call p_postfix_total nd st1 H1 N1.
    destruct (look st1) eqn:E1; fin. bmp st2 H2 N2.
    destruct (look st2) eqn:E2; fin. bmp st3 H3 N3.
    destruct (type_of_name s); fin.
  Qed.

  Lemma p_unary_total : forall n st, msr st < n -> msr st <= M -> ts_nopanic (toks st) ->
    ltr (p_unary rec n st) (msr st).
  Proof.
    induction n as [|n IH]; intros st Hf Hm Hn; [lia|]. cbn [p_unary].
    destruct (unop_of (look st)) eqn:E.
    - bmp st1 H1 N1. call IH c st2 H2 N2. fin.
    - call p_cast_total c st1 H1 N1. destruct (look st1) eqn:E1; fin. bmp st2 H2 N2.
      call IH d st3 H3 N3. fin.
  Qed.

  Lemma p_bin_loop_total : forall sub lvl n node st,
    (forall st', msr st' < msr st -> ts_nopanic (toks st') -> ltr (sub st') (msr st')) ->
    msr st < n -> ts_nopanic (toks st) ->
    ler (p_bin_loop sub lvl n node st) (msr st).
  Proof.
    induction n as [|n IH]; intros node st Hs Hf Hn; [lia|]. cbn [p_bin_loop].
    destruct (binop_at lvl (look st)) eqn:E; [|fin].
    bmp st1 H1 N1.
    eapply pbind_ltr_ler; [apply Hs; [lia|assumption]|intros rhs st2 H2 N2].
    eapply ler_mono; [|apply IH; [|lia|assumption]]. lia. intros; apply Hs; [lia|assumption].
  Qed.

  Lemma p_bin_total : forall k n st, msr st < n -> msr st <= M -> ts_nopanic (toks st) ->
    ltr (p_bin rec n k st) (msr st).
  Proof.
    induction k as [|k IH]; intros n st Hf Hm Hn; cbn [p_bin].
    - apply p_unary_total; assumption.
    - call IH nd st1 H1 N1.
      assert (L := p_bin_loop_total (p_bin rec n k) k n nd st1).
      assert (Q : ler (p_bin_loop (p_bin rec n k) k n nd st1) (msr st1)).
      { apply L; [intros; apply IH; [lia|lia|assumption]|lia|assumption]. }
      destruct (p_bin_loop (p_bin rec n k) k n nd st1); cbn in *; intuition lia.
  Qed.

  Lemma p_ternary_total : forall n st, msr st < n -> msr st <= M -> ts_nopanic (toks st) ->
    ltr (p_ternary rec n st) (msr st).
  Proof.
    intros n st Hf Hm Hn. unfold p_ternary. call p_bin_total c st1 H1 N1.
    destruct (look st1) eqn:E1; fin. bmp st2 H2 N2. call Hrec t st3 H3 N3.
    destruct (look st3) eqn:E3; fin. bmp st4 H4 N4. call Hrec e st5 H5 N5. fin.
  Qed.

  Lemma p_assignment_total : forall n st, msr st < n -> msr st <= M -> ts_nopanic (toks st) ->
    ltr (p_assignment rec n st) (msr st).
  Proof.
    intros n st Hf Hm Hn. unfold p_assignment.
    destruct (tk_is (look st) TColon) eqn:E; cbn [andb].
    2: apply p_ternary_total; assumption.
    destruct (is_assign_ahead st). 2: apply p_ternary_total; assumption.
    bmp st1 H1 N1. destruct (look st1) eqn:E1; fin. bmp st2 H2 N2.
    destruct (look st2) eqn:E2; fin. bmp st3 H3 N3. call p_ternary_total e st4 H4 N4. fin.
  Qed.
End Total.

Lemma p_expr_total : forall f st, msr st < f -> ts_nopanic (toks st) ->
  ltr (p_expr f st) (msr st).
Proof.
  induction f as [|f IH]; intros st Hf Hn; [lia|]. cbn [p_expr].
  apply (p_assignment_total _ f); [exact IH|lia|lia|assumption].
Qed.

Lemma p_stmts_total : forall f st, msr st < f -> ts_nopanic (toks st) ->
  ler (p_stmts f st) (msr st).
Proof.
  induction f as [|f IH]; intros st Hf Hn; [lia|]. cbn [p_stmts].
  destruct (look st) eqn:E; fin. bmp st1 H1 N1.
  destruct (tk_is (look st1) TEof); fin.
  call p_expr_total e st2 H2 N2. call IH es st3 H3 N3. fin.
Qed.

Lemma p_program_total : forall f st, msr st < f -> ts_nopanic (toks st) ->
  ltr (p_program f st) (msr st).
Proof.
  intros f st Hf Hn. unfold p_program.
  call p_expr_total e st1 H1 N1. call p_stmts_total es st2 H2 N2. destruct es; fin.
Qed.

(** Parsing a stream with no panicking token ends in a value or an error. *)
Lemma parse_stream_total : forall ts, ts_nopanic ts ->
  exists r, parse_stream ts = Done r /\ forall w, r <> Panic w.
Proof.
  intros ts Hn. unfold parse_stream.
  destruct ts; cbn [parser_new].
  - assert (H := p_program_total (parse_fuel (TSEnd p)) (mkP TEof p (TSEnd p))).
    specialize (H ltac:(cbn; lia) I).
    destruct (p_program _ _); cbn in H; try contradiction; eexists; split; try reflexivity; discriminate.
  - assert (H := p_program_total (parse_fuel (TSCons t p ts)) (mkP t p ts)).
    specialize (H ltac:(unfold msr; cbn [toks look parse_fuel ts_len]; unfold parse_fuel; cbn [ts_len]; destruct (is_eof t); lia) Hn).
    destruct (p_program _ _); cbn in H; try contradiction; eexists; split; try reflexivity; discriminate.
  - assert (H := p_program_total (parse_fuel (TSErr e)) (mkP TEof 0 (TSEnd 0))).
    specialize (H ltac:(cbn; lia) I).
    destruct (p_program _ _); cbn in H; try contradiction; eexists; split; try reflexivity; discriminate.
  - contradiction.
Qed.
