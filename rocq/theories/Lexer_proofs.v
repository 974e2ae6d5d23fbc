(** Lemmas about the lexer: progress, panics, string literals. *)
From Coq Require Import String List NArith Bool Lia ZArith.
From Verif Require Import Base F64 Utf8 Syntax Lexer Parser Utf8_proofs Parser_proofs.
Import ListNotations.
Local Open Scope N_scope.

Lemma skip_ws_len : forall bs p r p', skip_ws bs p = (r, p') -> (length r <= length bs)%nat /\ p <= p'.
Proof.
  induction bs as [|b bs IH]; cbn; intros p r p' H.
  - inversion H; subst; cbn; lia.
  - destruct (is_ws b).
    + apply IH in H. lia.
    + inversion H; subst; cbn; lia.
Qed.

Lemma scan_number_len : forall bs d t d' r, scan_number bs d = (t, d', r) -> (length r <= length bs)%nat.
Proof.
  induction bs as [|b bs IH]; cbn; intros d t d' r H.
  - inversion H; subst; auto.
  - destruct (is_digit b).
    + destruct (scan_number bs d) as [[t1 d1] r1] eqn:E. inversion H; subst. apply IH in E. lia.
    + destruct ((b =? 46) && negb d).
      * destruct bs as [|n bs']; [inversion H; subst; cbn; lia|].
        destruct (is_digit n); [|inversion H; subst; cbn; lia].
        destruct (scan_number (n :: bs') true) as [[t1 d1] r1] eqn:E. inversion H; subst. apply IH in E. lia.
      * inversion H; subst; cbn; lia.
Qed.

Lemma scan_ident_len : forall bs t r, scan_ident bs = (t, r) -> (length r <= length bs)%nat.
Proof.
  induction bs as [|b bs IH]; cbn; intros t r H.
  - inversion H; subst; auto.
  - destruct (is_ident_byte b).
    + destruct (scan_ident bs) as [t1 r1] eqn:E. inversion H; subst. specialize (IH _ _ eq_refl). lia.
    + inversion H; subst; cbn; lia.
Qed.

(** What a successful token does to the lexer. *)
Definition progress (bs : list N) (p0 : N) (x : res (token * lexer)) : Prop :=
  match x with
  | Ok (t, lx') => t <> TEof /\ (length (lx_rest lx') < length bs)%nat /\ p0 < lx_pos lx'
  | Err _ => True
  | Panic _ => p0 = 0 /\ exists r, bs = 61 :: r /\ hd 0 r <> 61
  end.

Lemma scan_string_progress : forall n q bs pos st buf, (length bs <= n)%nat ->
  match scan_string q bs pos st buf with
  | Ok (t, lx') => t <> TEof /\ (length (lx_rest lx') < length bs)%nat /\ pos < lx_pos lx'
  | Err _ => True
  | Panic _ => False
  end.
Proof.
  induction n as [|n IH]; intros q bs pos st buf Hn.
  - destruct bs; [exact I|cbn in Hn; lia].
  - destruct bs as [|c r]; [exact I|]. cbn [scan_string].
    destruct (c =? q).
    + destruct (decode (rev buf)); [|exact I]. cbn. split; [discriminate|lia].
    + destruct (c =? 92).
      * destruct r as [|x r']; [exact I|].
        assert (H := IH q r' (pos + 2) st (unescape x :: buf) ltac:(cbn in *; lia)).
        destruct (scan_string q r' (pos + 2) st (unescape x :: buf)) as [[t lx]| |]; auto.
        cbn in *. intuition lia.
      * assert (H := IH q r (pos + 1) st (c :: buf) ltac:(cbn in *; lia)).
        destruct (scan_string q r (pos + 1) st (c :: buf)) as [[t lx]| |]; auto.
        cbn in *. intuition lia.
Qed.

Lemma mark_progress : forall k tok r pos bs p0,
  tok <> TEof -> (length r < length bs)%nat -> p0 < pos -> k <= pos ->
  progress bs p0 (mark k tok r pos).
Proof.
  intros. unfold mark. assert (E : (pos <? k) = false) by (apply N.ltb_ge; lia).
  rewrite E. cbn. auto.
Qed.

Lemma lex_number_progress : forall ch r p0,
  progress (ch :: r) p0 (Ok (lex_number ch r (p0 + 1))).
Proof.
  intros. unfold lex_number. destruct (scan_number r (ch =? 46)) as [[t d] rest] eqn:E.
  apply scan_number_len in E. cbn. repeat split; [discriminate|lia|lia].
Qed.

Lemma lex_identifier_progress : forall ch r p0,
  progress (ch :: r) p0 (Ok (lex_identifier ch r (p0 + 1))).
Proof.
  intros. unfold lex_identifier. destruct (scan_ident r) as [t rest] eqn:E.
  apply scan_ident_len in E. cbn -[keyword_or_ident]. repeat split; [|lia|lia].
  unfold keyword_or_ident. repeat (destruct (_ : bool)); discriminate.
Qed.

Lemma next_token_progress : forall lx bs p0, skip_ws (lx_rest lx) (lx_pos lx) = (bs, p0) ->
  bs <> [] -> progress bs p0 (next_token lx).
Proof.
  intros lx bs p0 E Hne. unfold next_token. rewrite E.
  destruct bs as [|ch r]; [congruence|]. clear Hne E lx.
  assert (L1 : (length r < length (ch :: r))%nat) by (cbn; lia).
  assert (L2 : forall x, match r with c :: _ => c =? x | [] => false end = true ->
                (length (tl r) < length (ch :: r))%nat) by (intros; destruct r; cbn; lia).
  destruct (is_digit ch); [apply lex_number_progress|].
  destruct (is_alpha_ascii ch || (ch =? 95)); [apply lex_identifier_progress|].
  assert (One : forall tok, tok <> TEof -> progress (ch :: r) p0 (mark 1 tok r (p0 + 1))).
  { intros. apply mark_progress; auto; lia. }
  assert (Two : forall x tok, match r with c :: _ => c =? x | [] => false end = true -> tok <> TEof ->
      progress (ch :: r) p0 (mark 2 tok (tl r) (p0 + 1 + 1))).
  { intros. apply mark_progress; eauto; lia. }
  destruct (ch =? 46).
  { destruct r as [|c1 r']; [apply One; discriminate|]. cbn [tl].
    destruct (c1 =? 46).
    - destruct r' as [|c2 r3]; [apply One; discriminate|].
      destruct (c2 =? 46); [|apply One; discriminate].
      apply mark_progress; try discriminate; cbn; lia.
    - destruct (is_digit c1); [apply lex_number_progress|apply One; discriminate]. }
  repeat match goal with
  | |- context [if ?ch =? ?k then mark 1 ?t ?r ?p else _] =>
      destruct (ch =? k); [apply One; discriminate|]
  | |- context [if ?ch =? ?k then scan_string ?q ?r ?p ?s [] else _] =>
      destruct (ch =? k);
      [assert (H := scan_string_progress (length r) q r p s [] ltac:(lia));
       destruct (scan_string q r p s []) as [[? ?]| |]; cbn in *; intuition lia|]
  | |- context [if ?ch =? 61 then if ?b then _ else _ else _] =>
      destruct (ch =? 61) eqn:E61
  | |- context [if ?ch =? ?k then if ?b then _ else _ else _] =>
      destruct (ch =? k); [
        destruct b eqn:?; [eapply Two; [eassumption|discriminate]|];
        try (match goal with |- context [if ?b2 then _ else _] =>
               destruct b2 eqn:?; [eapply Two; [eassumption|discriminate]|] end);
        try (apply One; discriminate); exact I|]
  end.
  - apply N.eqb_eq in E61. subst ch.
    destruct (match r with c :: _ => c =? 61 | [] => false end) eqn:P.
    + eapply Two; [eassumption|discriminate].
    + unfold mark. destruct (p0 + 1 <? 2) eqn:L.
      * apply N.ltb_lt in L. cbn. split; [lia|]. exists r. split; [reflexivity|].
        destruct r; cbn; [discriminate|]. now apply N.eqb_neq.
      * apply N.ltb_ge in L. cbn. repeat split; [discriminate|lia|lia].
  - exact I.
Qed.

(** A token other than end-of-input consumes at least one byte. *)
Lemma next_token_shrinks : forall lx t lx', next_token lx = Ok (t, lx') -> t <> TEof ->
  (length (lx_rest lx') < length (lx_rest lx))%nat /\ 0 < lx_pos lx'.
Proof.
  intros lx t lx' H Ht. destruct (skip_ws (lx_rest lx) (lx_pos lx)) as [bs p0] eqn:E.
  destruct bs as [|b bs].
  - unfold next_token in H. rewrite E in H. inversion H; subst. congruence.
  - assert (P := next_token_progress lx (b :: bs) p0 E ltac:(discriminate)).
    rewrite H in P. cbn [progress] in P. apply skip_ws_len in E. destruct P as (_ & P1 & P2). lia.
Qed.

(** The token stream is the stepwise unfolding of [next_token]. *)
Definition token_eof_dec : forall t, {t = TEof} + {t <> TEof}.
Proof. destruct t; (left; reflexivity) || (right; discriminate). Defined.

Lemma tokenize_fuel_enough : forall n m lx, (length (lx_rest lx) <= n)%nat -> (length (lx_rest lx) <= m)%nat ->
  tokenize_fuel n lx = tokenize_fuel m lx.
Proof.
  induction n as [|n IH]; intros m lx Hn Hm.
  - destruct lx as [rest pos st en]. cbn in Hn. destruct rest; cbn in Hn; [|lia].
    destruct m; reflexivity.
  - destruct m as [|m].
    + destruct lx as [rest pos st en]. cbn in Hm. destruct rest; cbn in Hm; [|lia]. reflexivity.
    + cbn [tokenize_fuel]. destruct (next_token lx) as [[t lx']| |] eqn:E; auto.
      destruct (token_eof_dec t) as [->|Ht]; [reflexivity|].
      assert (P := next_token_shrinks _ _ _ E Ht).
      destruct t; try congruence; f_equal; apply IH; lia.
Qed.

Lemma tokenize_unfold : forall lx,
  tokenize lx = match next_token lx with
                | Err e => TSErr e
                | Panic w => TSPanic w
                | Ok (TEof, lx') => TSEnd (lx_start lx')
                | Ok (t, lx') => TSCons t (lx_start lx') (tokenize lx')
                end.
Proof.
  intros lx. unfold tokenize. destruct (length (lx_rest lx)) eqn:L.
  - destruct lx as [rest pos st en]. cbn in L. destruct rest; cbn in L; [|lia]. reflexivity.
  - cbn [tokenize_fuel]. destruct (next_token lx) as [[t lx']| |] eqn:E; auto.
    destruct (token_eof_dec t) as [->|Ht]; [reflexivity|].
    assert (P := next_token_shrinks _ _ _ E Ht).
    destruct t; try congruence; f_equal; apply tokenize_fuel_enough; lia.
Qed.

(** Only the very first token can panic. *)
Lemma next_token_nopanic : forall lx w, 0 < lx_pos lx -> next_token lx <> Panic w.
Proof.
  intros lx w Hp H. destruct (skip_ws (lx_rest lx) (lx_pos lx)) as [bs p0] eqn:E.
  destruct bs as [|b bs].
  - unfold next_token in H. rewrite E in H. discriminate.
  - assert (P := next_token_progress lx (b :: bs) p0 E ltac:(discriminate)).
    rewrite H in P. apply skip_ws_len in E. cbn [progress] in P. lia.
Qed.

Lemma tokenize_fuel_nopanic : forall n lx, 0 < lx_pos lx -> ts_nopanic (tokenize_fuel n lx).
Proof.
  induction n as [|n IH]; intros lx Hp; cbn [tokenize_fuel];
    (destruct (next_token lx) as [[t lx']|e|w] eqn:E;
     [|exact I|exact (next_token_nopanic _ _ Hp E)]);
    (destruct (token_eof_dec t) as [->|Ht]; [exact I|]).
  - destruct t; exact I || congruence.
  - assert (P := next_token_shrinks _ _ _ E Ht).
    destruct t; try congruence; cbn [ts_nopanic]; apply IH; lia.
Qed.

Lemma tokenize_nopanic_iff : forall lx, lx_pos lx = 0 ->
  (~ exists r, lx_rest lx = 61 :: r /\ hd 0 r <> 61) -> ts_nopanic (tokenize lx).
Proof.
  intros lx Hp Hn. rewrite tokenize_unfold.
  destruct (next_token lx) as [[t lx']|e|w] eqn:E; [|exact I|].
  - destruct (token_eof_dec t) as [->|Ht]; [exact I|].
    assert (P := next_token_shrinks _ _ _ E Ht).
    assert (Q : ts_nopanic (tokenize lx')) by (apply tokenize_fuel_nopanic; lia).
    destruct t; try congruence; exact Q.
  - cbn [ts_nopanic]. destruct (skip_ws (lx_rest lx) (lx_pos lx)) as [bs p0] eqn:S.
    destruct bs as [|b bs].
    + unfold next_token in E. rewrite S in E. discriminate.
    + assert (P := next_token_progress lx (b :: bs) p0 S ltac:(discriminate)).
      rewrite E in P. destruct P as (-> & r & Hr & Hh).
      apply Hn. exists r. split; [|exact Hh]. rewrite <- Hr.
      clear - S Hp. rewrite Hp in S. destruct (lx_rest lx) as [|c l]; cbn in S; [discriminate|].
      destruct (is_ws c).
      * apply skip_ws_len in S. lia.
      * congruence.
Qed.

Lemma tokenize_panics : forall r en st, hd 0 r <> 61 ->
  exists w, tokenize (mkLexer (61 :: r) 0 st en) = TSPanic w.
Proof.
  intros r en st Hh. rewrite tokenize_unfold. unfold next_token. cbn [lx_rest lx_pos skip_ws is_ws].
  change ((61 =? 32) || (61 =? 9) || (61 =? 10) || (61 =? 13)) with false.
  cbv iota. cbn -[mark tl hd].
  destruct r as [|c r]; cbn.
  - eexists; reflexivity.
  - cbn in Hh. assert (E : (c =? 61) = false) by now apply N.eqb_neq. rewrite E. eexists; reflexivity.
Qed.

(** ** String literals *)
Inductive piece : Type :=
| Raw (c : N)   (* the character itself *)
| Esc (c : N).  (* backslash, then the character *)

Definition piece_text (p : piece) : str := match p with Raw c => [c] | Esc c => [92; c] end.
Definition piece_char (p : piece) : N :=
  match p with
  | Raw c => c
  | Esc c => if c =? 110 then 10 else if c =? 116 then 9 else c
  end.
Definition pieces_text (ps : list piece) : str := flat_map piece_text ps.
Definition pieces_value (ps : list piece) : str := map piece_char ps.
Definition piece_ok (q : N) (p : piece) : Prop :=
  match p with
  | Raw c => is_scalar c = true /\ c <> q /\ c <> 92
  | Esc c => is_scalar c = true
  end.

Lemma scan_string_plain : forall q bs rest pos st buf,
  Forall (fun b => b <> q /\ b <> 92) bs ->
  scan_string q (bs ++ rest) pos st buf =
  scan_string q rest (pos + N.of_nat (length bs)) st (rev bs ++ buf).
Proof.
  intros q. induction bs as [|b bs IH]; intros rest pos st buf H.
  - cbn. f_equal. lia.
  - inversion H; subst. destruct H2 as [A B].
    cbn [app scan_string].
    rewrite (proj2 (N.eqb_neq b q) A), (proj2 (N.eqb_neq b 92) B).
    rewrite IH by assumption. cbn [rev length]. rewrite <- app_assoc. cbn [app].
    f_equal. lia.
Qed.

Lemma enc1_plain : forall c q, q < 128 -> c <> q -> c <> 92 -> Forall (fun b => b <> q /\ b <> 92) (enc1 c).
Proof.
  intros c q Hq Hc Hb. destruct (N.lt_ge_cases c 128).
  - rewrite enc1_ascii by assumption. repeat constructor; assumption.
  - eapply Forall_impl; [|apply enc1_nonascii; assumption]. cbn. intros. lia.
Qed.

Lemma piece_char_scalar : forall q p, piece_ok q p -> is_scalar (piece_char p) = true.
Proof.
  intros q [c|c]; cbn; [tauto|]. intros H.
  destruct (c =? 110); [reflexivity|]. destruct (c =? 116); [reflexivity|assumption].
Qed.

Lemma scan_string_piece : forall q p rest pos st buf, q < 128 -> q <> 92 -> piece_ok q p ->
  scan_string q (encode (piece_text p) ++ rest) pos st buf =
  scan_string q rest (pos + N.of_nat (length (encode (piece_text p)))) st
    (rev (enc1 (piece_char p)) ++ buf).
Proof.
  intros q p rest pos st buf Hq Hq92 Hp. destruct p as [c|c]; cbn [piece_text piece_char].
  - destruct Hp as (Hs & Hc & Hb). rewrite encode_cons. cbn [encode flat_map]. rewrite app_nil_r.
    apply scan_string_plain. apply enc1_plain; assumption.
  - rewrite encode_cons, encode_cons. cbn [encode flat_map]. rewrite app_nil_r.
    change (enc1 92) with [92]. cbn [app].
    cbn [scan_string]. rewrite (proj2 (N.eqb_neq 92 q)) by congruence.
    change (92 =? 92) with true. cbv iota.
    destruct (N.lt_ge_cases c 128) as [Hc|Hc].
    + rewrite (enc1_ascii c) by assumption. cbn [app].
      assert (E : unescape c = (if c =? 110 then 10 else if c =? 116 then 9 else c)) by reflexivity.
      rewrite E. rewrite enc1_ascii.
      2:{ destruct (c =? 110); [lia|]. destruct (c =? 116); lia. }
      cbn [rev app length]. f_equal.
    + assert (F := enc1_nonascii c Hc).
      destruct (enc1 c) as [|b bs] eqn:E; [now apply enc1_nonempty in E|].
      inversion F; subst. cbn [app].
      assert (U : unescape b = b).
      { unfold unescape. rewrite (proj2 (N.eqb_neq b 110)) by lia.
        rewrite (proj2 (N.eqb_neq b 116)) by lia. reflexivity. }
      rewrite U. rewrite scan_string_plain.
      2:{ eapply Forall_impl; [|eassumption]. cbn; intros; lia. }
      rewrite (proj2 (N.eqb_neq c 110)) by lia. rewrite (proj2 (N.eqb_neq c 116)) by lia.
      rewrite E. cbn [rev length]. rewrite <- app_assoc. cbn [app]. f_equal. lia.
Qed.

Lemma scan_string_pieces : forall q ps rest pos st buf, q < 128 -> q <> 92 -> Forall (piece_ok q) ps ->
  scan_string q (encode (pieces_text ps) ++ rest) pos st buf =
  scan_string q rest (pos + N.of_nat (length (encode (pieces_text ps)))) st
    (rev (encode (pieces_value ps)) ++ buf).
Proof.
  intros q. induction ps as [|p ps IH]; intros rest pos st buf Hq Hq2 H.
  - cbn. f_equal. lia.
  - inversion H; subst. cbn [pieces_text pieces_value flat_map map].
    rewrite encode_app, <- app_assoc, scan_string_piece by assumption.
    fold (pieces_text ps). fold (pieces_value ps). rewrite IH by assumption.
    rewrite (encode_cons (piece_char p)), rev_app_distr, <- app_assoc, app_length. f_equal. lia.
Qed.

Lemma next_token_quote : forall lx bs p0 q r, skip_ws (lx_rest lx) (lx_pos lx) = (bs, p0) ->
  bs = q :: r -> q = 34 \/ q = 39 -> next_token lx = scan_string q r (p0 + 1) p0 [].
Proof.
  intros lx bs p0 q r E -> Hq. unfold next_token. rewrite E.
  destruct Hq as [-> | ->]; cbn -[scan_string]; f_equal; lia.
Qed.

Lemma string_token : forall q ps rest pos st en, q = 34 \/ q = 39 -> Forall (piece_ok q) ps ->
  next_token (mkLexer (encode (q :: pieces_text ps) ++ q :: rest) pos st en) =
  Ok (TString (pieces_value ps),
      mkLexer rest (pos + N.of_nat (length (encode (pieces_text ps))) + 2) pos
        (pos + N.of_nat (length (encode (pieces_text ps))) + 2)).
Proof.
  intros q ps rest pos st en Hq H.
  assert (Q : q < 128 /\ q <> 92) by (destruct Hq; subst; split; lia). destruct Q as [Q1 Q2].
  rewrite encode_cons, enc1_ascii by assumption.
  erewrite next_token_quote.
  2:{ cbn [lx_rest lx_pos app skip_ws]. assert (W : is_ws q = false) by (destruct Hq; subst; reflexivity).
      rewrite W. reflexivity. }
  2: reflexivity.
  2: assumption.
  cbn [app]. rewrite scan_string_pieces by assumption. cbn [scan_string].
  rewrite N.eqb_refl. rewrite app_nil_r, rev_involutive, decode_encode.
  - do 3 f_equal; lia.
  - unfold valid_str, pieces_value. apply Forall_map. eapply Forall_impl; [|exact H].
    cbn. intros a Ha. eapply piece_char_scalar; exact Ha.
Qed.
