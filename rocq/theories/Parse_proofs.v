(** Facts about the public function [parse]. *)
From Coq Require Import String Lia List ZArith NArith Bool.
From Verif Require Import Base F64 Utf8 Syntax Lexer Parser Utf8_proofs Parser_proofs Lexer_proofs.
Import ListNotations.
Local Open Scope N_scope.

(** Vocabulary of the statement: [s] is [ws ++ "==" ++ rest], [ws] blank and
    [rest] not starting with a third '='. *)
Definition starts_with_double_eq (s : str) : Prop :=
  exists ws rest, s = ws ++ 61 :: 61 :: rest /\ Forall (fun c => is_whitespace c = true) ws
    /\ hd 0 rest <> 61.

Lemma trim_start_spec : forall s, exists ws, s = ws ++ trim_start s
  /\ Forall (fun c => is_whitespace c = true) ws
  /\ (forall c r, trim_start s = c :: r -> is_whitespace c = false).
Proof.
  induction s as [|c s (ws & E & F & H)]; cbn.
  - exists []. repeat split; auto. discriminate.
  - destruct (is_whitespace c) eqn:W.
    + exists (c :: ws). cbn. split; [now f_equal|]. split; [now constructor|assumption].
    + exists []. repeat split; auto. intros c' r [= -> ->]. assumption.
Qed.

Lemma trim_start_app : forall ws s, Forall (fun c => is_whitespace c = true) ws ->
  trim_start (ws ++ s) = trim_start s.
Proof. induction 1 as [|c ws H _ IH]; cbn; [reflexivity|now rewrite H]. Qed.

Lemma encode_head : forall s b r, encode s = b :: r -> b < 128 -> exists s', s = b :: s' /\ r = encode s'.
Proof.
  intros [|c s] b r E Hb; [discriminate|]. rewrite encode_cons in E.
  destruct (N.lt_ge_cases c 128) as [Hc|Hc].
  - rewrite enc1_ascii in E by assumption. cbn in E. injection E as <- <-. eauto.
  - assert (F := enc1_nonascii c Hc). assert (Hne := enc1_nonempty c).
    destruct (enc1 c) as [|x xs]; [congruence|]. cbn in E. injection E as <- <-.
    inversion F; subst. lia.
Qed.

Lemma strip_eq_double : forall s, (exists r, strip_eq s = 61 :: r /\ hd 0 r <> 61) <-> starts_with_double_eq s.
Proof.
  intros s. unfold strip_eq, starts_with_double_eq.
  destruct (trim_start_spec s) as (ws & E & F & H). split.
  - intros (r & Hr & Hh). clear H. destruct (trim_start s) as [|c t].
    + rewrite app_nil_r in E. subst s. destruct ws as [|w ws]; [discriminate|].
      injection Hr as -> ->. inversion F; subst. discriminate.
    + destruct (N.eqb_spec c 61) as [->|Hc].
      * subst t. exists ws, r. auto.
      * destruct ws as [|w ws].
        -- cbn in E. subst s. injection Hr as -> ->. congruence.
        -- subst s. injection Hr as -> _. inversion F; subst. discriminate.
  - intros (ws' & rest & E' & F' & Hh). subst s. rewrite trim_start_app by assumption.
    cbn. eauto.
Qed.

Lemma double_eq_dec : forall s : str,
  (exists r, s = 61 :: r /\ hd 0 r <> 61) \/ ~ (exists r, s = 61 :: r /\ hd 0 r <> 61).
Proof.
  intros [|c s]; [right; intros (r & E & _); discriminate|].
  destruct (N.eq_dec c 61) as [->|Hc].
  - destruct (N.eq_dec (hd 0 s) 61) as [Hh|Hh].
    + right. intros (r & [= <-] & H). contradiction.
    + left. eauto.
  - right. intros (r & [= -> _] & _). congruence.
Qed.

Lemma tokenize_cases : forall s, ts_nopanic (tokenize (lexer_new s))
  \/ exists w, tokenize (lexer_new s) = TSPanic w.
Proof.
  intros s. rewrite tokenize_unfold.
  destruct (next_token (lexer_new s)) as [[t' lx']|e|w] eqn:E; [|left; exact I|right; eauto].
  left. destruct (token_eof_dec t') as [->|Ht]; [exact I|].
  assert (P := next_token_shrinks _ _ _ E Ht).
  assert (Q : ts_nopanic (tokenize lx')) by (apply tokenize_fuel_nopanic; lia).
  destruct t'; try congruence; exact Q.
Qed.

Lemma parse_out_total : forall input, exists r, parse_out input = Done r.
Proof.
  intros input. unfold parse_out. destruct (tokenize_cases (strip_eq input)) as [N|(w & ->)].
  - destruct (parse_stream_total _ N) as (r & -> & _); eauto.
  - exists (Panic w). reflexivity.
Qed.

Lemma parse_done : forall input, parse_out input = Done (parse input).
Proof. intros. unfold parse. now destruct (parse_out_total input) as (r & ->). Qed.

Lemma parse_panic_iff : forall input, (exists w, parse input = Panic w) <-> starts_with_double_eq input.
Proof.
  intros input. rewrite <- strip_eq_double. split.
  - intros (w & Hw).
    destruct (double_eq_dec (strip_eq input)) as [Hy|Hn].
    + exact Hy.
    + exfalso. 
      assert (N : ts_nopanic (tokenize (lexer_new (strip_eq input)))).
      { apply tokenize_nopanic_iff; [reflexivity|]. intros (r & Er & Hh). apply Hn.
        cbn in Er. destruct (encode_head _ _ _ Er ltac:(lia)) as (s' & Es & ->).
        exists s'. split; [assumption|]. intros Hc. apply Hh. destruct s' as [|x s']; [discriminate|].
        cbn in Hc. subst x. reflexivity. }
      destruct (parse_stream_total _ N) as (r & Er & Hr).
      unfold parse, parse_out in Hw. rewrite Er in Hw. now apply (Hr w).
  - intros (r & E & Hh). unfold parse, parse_out. rewrite E. unfold lexer_new. rewrite encode_cons.
    change (enc1 61 ++ encode r) with (61 :: encode r).
    destruct (tokenize_panics (encode r) 0 0) as (w & ->).
    + destruct r as [|x r]; [discriminate|]. intros Hx.
      destruct (encode_head (x :: r) 61 (tl (encode (x :: r)))) as (s' & Es & _).
      * rewrite encode_cons in *. assert (Hne := enc1_nonempty x). destruct (enc1 x); [congruence|].
        cbn in Hx |- *. now subst.
      * lia.
      * injection Es as -> _. now apply Hh.
    + exists w. reflexivity.
Qed.

(** ** String literals *)
Lemma strip_eq_quote : forall q s, q = 34 \/ q = 39 -> strip_eq (q :: s) = q :: s.
Proof. intros q s [-> | ->]; reflexivity. Qed.

Lemma parse_string_literal : forall q ps, q = 34 \/ q = 39 -> Forall (piece_ok q) ps ->
  parse (q :: pieces_text ps ++ [q]) = Ok (EStringLit (pieces_value ps)).
Proof.
  intros q ps Hq Hps. unfold parse, parse_out. rewrite strip_eq_quote by assumption.
  rewrite tokenize_unfold. unfold lexer_new.
  assert (E : encode (q :: pieces_text ps ++ [q]) = encode (q :: pieces_text ps) ++ q :: []).
  { change (q :: pieces_text ps ++ [q]) with ((q :: pieces_text ps) ++ [q]).
    rewrite encode_app. f_equal. destruct Hq as [-> | ->]; reflexivity. }
  rewrite E, string_token by assumption.
  rewrite tokenize_unfold. reflexivity.
Qed.

(** A canonical way of quoting a text [s] with the quote character [q]. *)
Definition quote_char (q c : N) : str :=
  if c =? 92 then [92; 92]
  else if c =? q then [92; q]
  else if c =? 10 then [92; 110]
  else if c =? 9 then [92; 116]
  else [c].
Definition quote_text (q : N) (s : str) : str := q :: flat_map (quote_char q) s ++ [q].

Definition quote_piece (q c : N) : piece :=
  if c =? 92 then Esc 92
  else if c =? q then Esc q
  else if c =? 10 then Esc 110
  else if c =? 9 then Esc 116
  else Raw c.

Lemma quote_piece_spec : forall q c, q = 34 \/ q = 39 -> is_scalar c = true ->
  piece_ok q (quote_piece q c) /\ piece_text (quote_piece q c) = quote_char q c
  /\ piece_char (quote_piece q c) = c.
Proof.
  intros q c Hq Hc. unfold quote_piece, quote_char.
  destruct (N.eqb_spec c 92) as [->|H1]; [repeat split|].
  destruct (N.eqb_spec c q) as [->|H2]; [destruct Hq as [-> | ->]; repeat split|].
  destruct (N.eqb_spec c 10) as [->|H3]; [repeat split|].
  destruct (N.eqb_spec c 9) as [->|H4]; repeat split; auto.
Qed.

Lemma quote_text_pieces : forall q s, q = 34 \/ q = 39 -> valid_str s ->
  Forall (piece_ok q) (map (quote_piece q) s)
  /\ quote_text q s = q :: pieces_text (map (quote_piece q) s) ++ [q]
  /\ pieces_value (map (quote_piece q) s) = s.
Proof.
  intros q s Hq. unfold quote_text. induction s as [|c s IH]; intros Hs.
  - repeat split; constructor.
  - inversion Hs as [|? ? Hc Hs1]; subst. clear Hs. rename Hs1 into Hs. destruct (IH Hs) as (A & B & C).
    destruct (quote_piece_spec q c Hq Hc) as (P1 & P2 & P3).
    injection B as B. apply app_inv_tail in B. cbn [map pieces_text pieces_value flat_map].
    split; [constructor; assumption|]. split.
    + rewrite P2, B. reflexivity.
    + f_equal; assumption.
Qed.

Lemma parse_quoted : forall q s, q = 34 \/ q = 39 -> valid_str s ->
  parse (quote_text q s) = Ok (EStringLit s).
Proof.
  intros q s Hq Hs. destruct (quote_text_pieces q s Hq Hs) as (A & -> & C).
  rewrite parse_string_literal by assumption. now rewrite C.
Qed.

Lemma parse_total_iff : forall input : str,
  exists r, parse_out input = Done r /\
    ((exists w, r = Panic w) <->
     (exists ws rest, input = ws ++ lit "==" ++ rest
        /\ Forall (fun c => is_whitespace c = true) ws /\ hd 0 rest <> 61)).
Proof.
  intros input. exists (parse input). split; [apply parse_done|]. apply parse_panic_iff.
Qed.

(** ** No sequence inside a sequence *)
Definition noseq (e : expr) : Prop := forall es, e <> ESequence es.
Definition gives {A} (P : A -> Prop) (r : pres A) : Prop := match r with POk a _ => P a | _ => True end.
Lemma gives_bind : forall A B (r : pres A) (k : A -> pstate -> pres B) (P : A -> Prop) (Q : B -> Prop),
  gives P r -> (forall a st, P a -> gives Q (k a st)) -> gives Q (pbind r k).
Proof. intros A B [] k P Q H K; cbn in *; auto. Qed.
Lemma gives_any : forall A B (r : pres A) (k : A -> pstate -> pres B) (Q : B -> Prop),
  (forall a st, gives Q (k a st)) -> gives Q (pbind r k).
Proof. intros A B [] k Q K; cbn in *; auto. Qed.
Ltac gv := repeat first
  [ exact I | assumption | (cbn; intros ?; discriminate)
  | match goal with H : forall st, gives noseq (?f st) |- gives _ (pbind (?f _) _) => eapply gives_bind; [apply H|intros ? ? ?] end
  | (apply gives_any; intros ? ?)
  | match goal with |- gives _ (match ?x with _ => _ end) => destruct x end ].

Section NoSeq.
  Variable rec : pstate -> pres expr.
  Hypothesis Hrec : forall st, gives noseq (rec st).
  Lemma p_atom_noseq : forall n st, gives noseq (p_atom rec n st).
  Proof.
    intros n st. unfold p_atom, err_here. destruct (look st); gv.
  Qed.
  Lemma p_dot_noseq : forall n node st, gives noseq (p_dot rec n node st).
  Proof. intros n node st. unfold p_dot, err_here. gv. Qed.
  Lemma p_safe_noseq : forall n node st, gives noseq (p_safe rec n node st).
  Proof. intros n node st. unfold p_safe, err_here. gv. Qed.
  Lemma p_index_noseq : forall node st, gives noseq (p_index rec node st).
  Proof. intros node st. unfold p_index, p_slice_end, err_here. gv. Qed.
  Lemma p_postfix_noseq : forall n node st, noseq node -> gives noseq (p_postfix rec n node st).
  Proof.
    induction n as [|n IH]; intros node st H; [exact I|]. cbn [p_postfix].
    destruct (look st); try exact H; apply gives_any; intros ? ?.
    - eapply gives_bind; [apply p_dot_noseq|]. intros; now apply IH.
    - eapply gives_bind; [apply p_safe_noseq|]. intros; now apply IH.
    - eapply gives_bind; [apply p_index_noseq|]. intros; now apply IH.
  Qed.
  Lemma p_cast_noseq : forall n st, gives noseq (p_cast rec n st).
  Proof.
    intros n st. unfold p_cast. eapply gives_bind; [apply p_atom_noseq|]. intros a st0 Ha.
    eapply gives_bind; [now apply p_postfix_noseq|]. intros b st1 Hb. gv.
  Qed.
  Lemma p_unary_noseq : forall n st, gives noseq (p_unary rec n st).
  Proof.
    induction n as [|n IH]; intros st; [exact I|]. cbn [p_unary]. destruct (unop_of (look st)); [gv|].
    eapply gives_bind; [apply p_cast_noseq|]. intros a st0 Ha. gv.
  Qed.
  Lemma p_bin_loop_noseq : forall sub lvl n node st, noseq node -> gives noseq (p_bin_loop sub lvl n node st).
  Proof.
    induction n as [|n IH]; intros node st H; [exact I|]. cbn [p_bin_loop].
    destruct (binop_at lvl (look st)); [|exact H]. apply gives_any; intros ? ?. apply gives_any; intros ? ?.
    apply IH. intros ? ?; discriminate.
  Qed.
  Lemma p_bin_noseq : forall n k st, gives noseq (p_bin rec n k st).
  Proof.
    induction k as [|k IH]; intros st; cbn [p_bin]; [apply p_unary_noseq|].
    eapply gives_bind; [apply IH|]. intros; now apply p_bin_loop_noseq.
  Qed.
  Lemma p_ternary_noseq : forall n st, gives noseq (p_ternary rec n st).
  Proof.
    intros n st. unfold p_ternary, err_here. eapply gives_bind; [apply p_bin_noseq|]. intros a st0 Ha. gv.
  Qed.
  Lemma p_assignment_noseq : forall n st, gives noseq (p_assignment rec n st).
  Proof.
    intros n st. unfold p_assignment, err_here. destruct (_ && _); [gv|apply p_ternary_noseq].
  Qed.
End NoSeq.
Lemma p_expr_noseq : forall f st, gives noseq (p_expr f st).
Proof. induction f as [|f IH]; intros st; [exact I|]. now apply p_assignment_noseq. Qed.
Lemma p_stmts_noseq : forall f st, gives (Forall noseq) (p_stmts f st).
Proof.
  induction f as [|f IH]; intros st; [exact I|]. cbn [p_stmts]. destruct (look st); try constructor.
  apply gives_any; intros ? st1. destruct (tk_is (look st1) TEof); [constructor|].
  eapply gives_bind; [apply p_expr_noseq|]. intros e st2 He. eapply gives_bind; [apply IH|]. intros es st3 Hes. now constructor.
Qed.
(** what a ';' in the source yields: two expressions or more, none of which
    is itself a sequence *)
Lemma parse_flat : forall src es, parse src = Ok (ESequence es) -> (1 < length es)%nat /\ Forall noseq es.
Proof.
  intros src es. unfold parse, parse_out, parse_stream.
  destruct (parser_new _) as [u st|x|x|]; try discriminate.
  unfold p_program. set (fuel := parse_fuel _). clearbody fuel.
  pose proof (p_expr_noseq fuel st) as H1. destruct (p_expr fuel st) as [e st1|x|x|]; try discriminate. cbn [pbind].
  pose proof (p_stmts_noseq fuel st1) as H2. destruct (p_stmts fuel st1) as [l st2|x|x|]; try discriminate. cbn [pbind].
  destruct l as [|e2 l].
  - intros [= ->]. exfalso. now apply (H1 es).
  - intros [= <-]. cbn [length]. split; [lia|]. now constructor.
Qed.
