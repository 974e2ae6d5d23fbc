(** The lexer reads a written source as the tokens it was written from. *)
From Coq Require Import String List NArith Bool Lia ZArith.
From Verif Require Import Base F64 Utf8 Syntax Lexer Parser Base_proofs Utf8_proofs Parser_proofs Lexer_proofs Parse_proofs
  Float_proofs Exact_proofs Rounding_proofs Spec_syntax.
Import ListNotations.
Lemma str_eqb_spec : forall a b, reflect (a = b) (str_eqb a b).
Proof. intros a b. apply iff_reflect. symmetry. apply str_eqb_eq. Qed.
Local Open Scope N_scope.

(** ** numbers *)
Lemma digits_value_snoc : forall ds d, digits_value (ds ++ [d]) = digits_value ds * 10 + (d - 48).
Proof. intros. unfold digits_value. now rewrite fold_left_app. Qed.
Lemma digits_value_bound : forall ds, forallb is_digit ds = true -> digits_value ds < 10 ^ N.of_nat (length ds).
Proof.
  induction ds as [|d ds IH] using rev_ind; intros H; [reflexivity|].
  rewrite forallb_app in H. apply andb_true_iff in H as [H1 H2]. cbn in H2. rewrite andb_true_r in H2.
  unfold is_digit in H2. apply andb_true_iff in H2 as [A B]. apply N.leb_le in A, B.
  rewrite digits_value_snoc, app_length, Nat2N.inj_add. change (N.of_nat (length [d])) with 1.
  rewrite N.pow_add_r. change (10 ^ 1) with 10. specialize (IH H1). lia.
Qed.
Lemma f_of_dec_int : forall n, f_of_dec false n 0 = f_of_Z (Z.of_N n).
Proof.
  intros [|p]; [reflexivity|]. unfold f_of_dec, f_of_Z. cbn [Z.of_N SpecFloat.binary_normalize].
  change (Z.to_pos (10 ^ 0)) with 1%positive. now rewrite Pos.mul_1_r.
Qed.
Lemma fast_int_exact : forall ds, forallb is_digit ds = true -> (length ds <= 10)%nat ->
  fast_int ds = f_of_Z (Z.of_N (digits_value ds)).
Proof.
  induction ds as [|d ds IH] using rev_ind; intros H L; [reflexivity|].
  pose proof (digits_value_bound _ H) as B. rewrite app_length in L. cbn [length] in L.
  rewrite forallb_app in H. apply andb_true_iff in H as [H1 H2]. cbn in H2. rewrite andb_true_r in H2.
  unfold is_digit in H2. apply andb_true_iff in H2 as [A C]. apply N.leb_le in A, C.
  pose proof (digits_value_bound _ H1) as B1.
  assert (P : 10 ^ N.of_nat (length (ds ++ [d])) <= 10 ^ 10) by (apply N.pow_le_mono_r; [lia|]; rewrite app_length; cbn [length]; lia).
  rewrite digits_value_snoc in *. unfold fast_int in *. rewrite fold_left_app. cbn [fold_left].
  rewrite (IH H1 ltac:(lia)).
  assert (T : 10 ^ 10 = 10000000000) by reflexivity. rewrite T in P. clear T.
  assert (T : (2 ^ 53 = 9007199254740992)%Z) by reflexivity.
  set (v := digits_value ds) in *. clearbody v.
  rewrite f_mul_exact by (rewrite T; lia).
  assert (Z0 : (Z.of_N v * 10 <? 0)%Z = false) by (apply Z.ltb_ge; lia).
  assert (E : (if (Z.of_N v * 10 =? 0)%Z then SpecFloat.S754_zero (xorb (Z.of_N v <? 0)%Z (10 <? 0)%Z) else f_of_Z (Z.of_N v * 10))
              = f_of_Z (Z.of_N v * 10)).
  { destruct (Z.eqb_spec (Z.of_N v * 10) 0) as [E|E]; [|reflexivity]. rewrite E. assert (v = 0) by lia. subst v. reflexivity. }
  rewrite E. rewrite f_add_exact by (rewrite T; lia). f_equal. lia.
Qed.

Lemma split_dot_digits : forall ds, forallb is_digit ds = true -> split_dot ds = (ds, []).
Proof.
  induction ds as [|d ds IH]; intros H; [reflexivity|]. cbn in H. apply andb_true_iff in H as [A B]. cbn [split_dot].
  assert (E : (d =? 46) = false). { apply N.eqb_neq. unfold is_digit in A. apply andb_true_iff in A as [A _]. apply N.leb_le in A. lia. }
  rewrite E, (IH B). reflexivity.
Qed.
Lemma split_dot_point : forall ds fs, forallb is_digit ds = true -> split_dot (ds ++ 46 :: fs) = (ds, fs).
Proof.
  induction ds as [|d ds IH]; intros fs H; [reflexivity|]. cbn in H. apply andb_true_iff in H as [A B]. cbn [app split_dot].
  assert (E : (d =? 46) = false). { apply N.eqb_neq. unfold is_digit in A. apply andb_true_iff in A as [A _]. apply N.leb_le in A. lia. }
  rewrite E, (IH _ B). reflexivity.
Qed.

(** what may follow a number, a word *)
Definition ends_number (nxt : list N) : Prop := match nxt with [] => True | c :: _ => is_digit c = false /\ c <> 46 end.
Definition ends_word (nxt : list N) : Prop := match nxt with [] => True | c :: _ => word_char c = false end.

Lemma scan_digits : forall ds d nxt, forallb is_digit ds = true -> ends_number nxt ->
  scan_number (ds ++ nxt) d = (ds, d, nxt).
Proof.
  induction ds as [|x ds IH]; intros d nxt H E.
  - destruct nxt as [|c r]; [reflexivity|]. destruct E as [E1 E2]. cbn [app scan_number]. rewrite E1.
    rewrite (proj2 (N.eqb_neq c 46) E2). reflexivity.
  - cbn in H. apply andb_true_iff in H as [A B]. cbn [app scan_number]. rewrite A, (IH d nxt B E). reflexivity.
Qed.
Lemma scan_point : forall ds fs nxt, forallb is_digit ds = true -> digits fs -> ends_number nxt ->
  scan_number (ds ++ 46 :: fs ++ nxt) false = (ds ++ 46 :: fs, true, nxt).
Proof.
  induction ds as [|x ds IH]; intros fs nxt H [Hf1 Hf2] E.
  - destruct fs as [|f fs]; [congruence|]. pose proof (scan_digits (f :: fs) true nxt Hf2 E) as S.
    cbn in Hf2. apply andb_true_iff in Hf2 as [A B].
    cbn [app] in *. set (l := f :: fs ++ nxt) in *. cbn [scan_number]. change (is_digit 46) with false.
    change ((46 =? 46) && negb false) with true. cbv iota. unfold l at 1. rewrite A, S. reflexivity.
  - cbn in H. apply andb_true_iff in H as [A B]. cbn [app scan_number]. rewrite A, (IH fs nxt B (conj Hf1 Hf2) E). reflexivity.
Qed.
Lemma is_ident_byte_word : forall c, is_ident_byte c = word_char c.
Proof.
  intros c. unfold is_ident_byte, word_char, letter, is_alpha_ascii, is_upper_ascii, is_lower_ascii.
  destruct ((65 <=? c) && (c <=? 90)), ((97 <=? c) && (c <=? 122)), (is_digit c), (c =? 95); reflexivity.
Qed.
Lemma scan_word : forall w nxt, forallb word_char w = true -> ends_word nxt -> scan_ident (w ++ nxt) = (w, nxt).
Proof.
  induction w as [|x w IH]; intros nxt H E.
  - destruct nxt as [|c r]; [reflexivity|]. cbn [app scan_ident]. rewrite is_ident_byte_word. cbn in E. rewrite E. reflexivity.
  - cbn in H. apply andb_true_iff in H as [A B]. cbn [app scan_ident]. rewrite is_ident_byte_word, A, (IH nxt B E). reflexivity.
Qed.

(** [s], followed by [nxt], is read as the token [t] *)
Definition lexes (s : list N) (t : token) (nxt : list N) : Prop :=
  forall pos st en, 0 < pos \/ s <> [61] -> exists lx', next_token (mkLexer (s ++ nxt) pos st en) = Ok (t, lx')
    /\ lx_rest lx' = nxt /\ pos < lx_pos lx'.

Lemma digit_not_ws : forall c, is_digit c = true -> is_ws c = false.
Proof.
  intros c H. unfold is_digit in H. apply andb_true_iff in H as [A B]. apply N.leb_le in A, B. unfold is_ws.
  repeat (apply orb_false_iff; split); apply N.eqb_neq; lia.
Qed.
Lemma letter_facts : forall c, letter c = true -> is_ws c = false /\ is_digit c = false /\ is_alpha_ascii c || (c =? 95) = true.
Proof.
  intros c H. unfold letter in H. unfold is_ws, is_digit, is_alpha_ascii, is_upper_ascii, is_lower_ascii. split; [|split; [|exact H]].
  - apply orb_true_iff in H as [H|H]; [apply orb_true_iff in H as [H|H]; apply andb_true_iff in H as [A B]; apply N.leb_le in A, B|apply N.eqb_eq in H];
      repeat (apply orb_false_iff; split); apply N.eqb_neq; lia.
  - apply orb_true_iff in H as [H|H]; [apply orb_true_iff in H as [H|H]; apply andb_true_iff in H as [A B]; apply N.leb_le in A, B|apply N.eqb_eq in H];
      apply andb_false_iff; rewrite N.leb_gt; rewrite N.leb_gt; lia.
Qed.

Lemma simple_digits : forall ds, forallb is_digit ds = true -> parse_simple_f64 ds = f_of_dec false (digits_value ds) 0.
Proof. intros ds H. unfold parse_simple_f64. rewrite (split_dot_digits ds H), app_nil_r. reflexivity. Qed.
Lemma int_value : forall ds (n : N), forallb is_digit ds = true -> n = N.of_nat (length ds) ->
  (if (n <=? 10) && negb false then fast_int ds else parse_simple_f64 ds) = f_of_dec false (digits_value ds) 0.
Proof.
  intros ds n H ->. destruct (N.leb_spec (N.of_nat (length ds)) 10) as [L|L]; cbn [andb negb].
  - rewrite fast_int_exact by (assumption || lia). symmetry. apply f_of_dec_int.
  - now apply simple_digits.
Qed.
Lemma point_value : forall ds fs, forallb is_digit ds = true ->
  parse_simple_f64 (ds ++ 46 :: fs) = f_of_dec false (digits_value (ds ++ fs)) (- Z.of_nat (length fs)).
Proof. intros ds fs H. unfold parse_simple_f64. now rewrite (split_dot_point ds fs H). Qed.

Lemma number_lexes : forall s n nxt, number s n -> ends_number nxt -> lexes s (TNumber n) nxt.
Proof.
  intros s n nxt H E pos st en _. destruct H as [ds x [Hd1 Hd2] Dx | ds fs x Hd Hf Dx]; apply denotes_iff in Dx; subst x.
  - destruct ds as [|d ds]; [congruence|]. pose proof Hd2 as Hd3. cbn in Hd2. apply andb_true_iff in Hd2 as [A B].
    unfold next_token. cbn [lx_rest lx_pos app skip_ws]. rewrite (digit_not_ws d A). rewrite A. unfold lex_number.
    assert (D : (d =? 46) = false). { apply N.eqb_neq. intros ->. discriminate. }
    rewrite D, (scan_digits ds false nxt B E). eexists. split.
    { rewrite int_value; [reflexivity|assumption|]. cbn [length]. lia. }
    cbn [lx_rest lx_pos]. split; [reflexivity|lia].
  - destruct ds as [|d ds].
    + destruct Hf as [Hf1 Hf2]. destruct fs as [|f fs]; [congruence|]. pose proof Hf2 as Hf3. cbn in Hf2. apply andb_true_iff in Hf2 as [A B].
      unfold next_token. change (lit ".") with [46]. cbn [lx_rest lx_pos app skip_ws].
      change (is_ws 46) with false. cbv iota. change (is_digit 46) with false. change (is_alpha_ascii 46 || (46 =? 95)) with false.
      change (46 =? 46) with true. cbv iota.
      assert (D : (f =? 46) = false). { apply N.eqb_neq. intros ->. discriminate. }
      rewrite D, A. unfold lex_number. change (46 =? 46) with true. rewrite (scan_digits (f :: fs) true nxt Hf3 E : scan_number (f :: fs ++ nxt) true = _).
      eexists. split.
      { cbn [negb]. rewrite andb_false_r. rewrite (point_value [] (f :: fs) eq_refl : parse_simple_f64 (46 :: f :: fs) = _). reflexivity. }
      cbn [lx_rest lx_pos]. split; [reflexivity|]. lia.
    + pose proof Hd as Hd3. cbn in Hd. apply andb_true_iff in Hd as [A B].
      change (lit ".") with [46]. 
      unfold next_token. cbn [lx_rest lx_pos app skip_ws]. rewrite (digit_not_ws d A). rewrite A. unfold lex_number.
      assert (D : (d =? 46) = false). { apply N.eqb_neq. intros ->. discriminate. }
      rewrite D. rewrite <- app_assoc. cbn [app]. rewrite (scan_point ds fs nxt B Hf E).
      eexists. split.
      { cbn [negb]. rewrite andb_false_r. rewrite (point_value (d :: ds) fs Hd3 : parse_simple_f64 (d :: ds ++ 46 :: fs) = _). reflexivity. }
      cbn [lx_rest lx_pos]. split; [reflexivity|lia].
Qed.

(** ** words *)
Lemma keyword_spec : forall s, word s ->
  (same_word s (lit "true") -> keyword_or_ident s = TTrue)
  /\ (same_word s (lit "false") -> keyword_or_ident s = TFalse)
  /\ (same_word s (lit "null") -> keyword_or_ident s = TNull)
  /\ (~ keyword s -> keyword_or_ident s = TIdentifier s).
Proof.
  intros s _. unfold keyword, same_word, keyword_or_ident, eq_ignore_ascii_case.
  assert (L : forall b, map lower_ascii s = map lower_ascii b -> length s = length b).
  { intros b E. rewrite <- (map_length lower_ascii s), <- (map_length lower_ascii b). now rewrite E. }
  split; [|split; [|split]].
  - intros E. rewrite (L _ E). rewrite E. reflexivity.
  - intros E. rewrite (L _ E). rewrite E. reflexivity.
  - intros E. rewrite (L _ E). rewrite E. reflexivity.
  - intros N.
    destruct (Nat.eqb (length s) 4).
    + destruct (str_eqb_spec (map lower_ascii s) (map lower_ascii (lit "TRUE"))) as [E|_]; [exfalso; apply N; left; rewrite E; reflexivity|].
      destruct (str_eqb_spec (map lower_ascii s) (map lower_ascii (lit "NULL"))) as [E|_]; [exfalso; apply N; right; right; rewrite E; reflexivity|reflexivity].
    + destruct (Nat.eqb (length s) 5); [|reflexivity].
      destruct (str_eqb_spec (map lower_ascii s) (map lower_ascii (lit "FALSE"))) as [E|_]; [exfalso; apply N; right; left; rewrite E; reflexivity|reflexivity].
Qed.
Lemma word_lexes : forall s nxt, word s -> ends_word nxt -> lexes s (keyword_or_ident s) nxt.
Proof.
  intros s nxt (c & r & -> & Hc & Hr) E pos st en _. destruct (letter_facts c Hc) as (F1 & F2 & F3).
  unfold next_token. cbn [lx_rest lx_pos app skip_ws]. rewrite F1. rewrite F2, F3. unfold lex_identifier.
  rewrite (scan_word r nxt Hr E). eexists. split; [reflexivity|]. cbn [lx_rest lx_pos]. split; [reflexivity|lia].
Qed.
(** words that read as keywords are words *)
Lemma lower_letter : forall c k, 97 <= k -> k <= 122 -> lower_ascii c = k -> letter c = true.
Proof.
  intros c k H1 H2 H. unfold lower_ascii, is_upper_ascii in H. unfold letter.
  destruct ((65 <=? c) && (c <=? 90)) eqn:E; [reflexivity|]. subst k.
  rewrite (proj2 (N.leb_le _ _) H1), (proj2 (N.leb_le _ _) H2). reflexivity.
Qed.
Lemma keyword_word : forall s k, forallb is_lower_ascii k = true -> k <> [] -> same_word s k -> word s.
Proof.
  intros s k Hk Hn E. unfold same_word in E.
  assert (W : forall s k, forallb is_lower_ascii k = true -> map lower_ascii s = map lower_ascii k -> forallb letter s = true).
  { clear. induction s as [|c s IH]; intros [|x k] H E; try discriminate; [reflexivity|]. cbn in H. apply andb_true_iff in H as [A B].
    cbn [map] in E. injection E as E1 E2. cbn [forallb]. rewrite (IH k B E2), andb_true_r.
    unfold is_lower_ascii in A. apply andb_true_iff in A as [A1 A2]. apply N.leb_le in A1, A2.
    assert (lower_ascii x = x). { unfold lower_ascii, is_upper_ascii. assert ((x <=? 90) = false) as -> by (apply N.leb_gt; lia). now rewrite andb_false_r. }
    apply (lower_letter c x); [assumption|assumption|congruence]. }
  specialize (W s k Hk E). destruct s as [|c s]; [destruct k; [congruence|discriminate]|].
  cbn in W. apply andb_true_iff in W as [A B]. exists c, s. split; [reflexivity|]. split; [assumption|].
  apply forallb_forall. intros x Hx. unfold word_char. rewrite forallb_forall in B. now rewrite (B x Hx).
Qed.

(** ** symbols *)
Lemma glue_op : forall a c, glues a c = false -> op_char a = true ->
  (c =? 61) = false /\ (c =? 58) = false /\ (c =? 46) = false /\ (c =? 38) = false /\ (c =? 124) = false.
Proof.
  intros a c H Ha. unfold glues in H. rewrite Ha in H. cbn [andb] in H.
  apply orb_false_iff in H as [H _]. apply orb_false_iff in H as [H _]. apply orb_false_iff in H as [_ H].
  unfold op_char in H. change (lit "!=<>&|:.") with [33; 61; 60; 62; 38; 124; 58; 46] in H. cbn [existsb] in H.
  repeat (apply orb_false_iff in H as [? H]). now repeat split.
Qed.
Definition nxt_ok (a : N) (nxt : list N) : Prop := match nxt with [] => True | c :: _ => glues a c = false end.

Lemma dot_digit : forall c, glues 46 c = false -> is_digit c = false.
Proof.
  intros c H. unfold glues in H. apply orb_false_iff in H as [_ H]. exact H.
Qed.
Lemma symbol_lexes : forall t s nxt, In (t, s) symbols -> nxt_ok (last (lit s) 0) nxt -> lexes (lit s) t nxt.
Proof.
  intros t s nxt H K pos st en P.
  assert (Done : forall k (r : list N) (p : N) (tok : token), k <= p -> pos < p ->
    exists lx', mark k tok r p = Ok (tok, lx') /\ lx_rest lx' = r /\ pos < lx_pos lx').
  { intros k r p tok H1 H2. unfold mark. rewrite (proj2 (N.ltb_ge p k) H1). eexists. split; [reflexivity|]. now split. }
  unfold symbols in H. cbn [In] in H.
  repeat (destruct H as [[= <- <-]|H]); try contradiction; cbn in K;
    (destruct nxt as [|c nxt];
     [|try (pose proof (dot_digit _ K)); try (destruct (glue_op _ _ K eq_refl) as (G1 & G2 & G3 & G4 & G5))]);
    unfold next_token; cbn -[mark]; rewrite ?G1, ?G2, ?G3, ?G4, ?G5;
    try (match goal with HD : is_digit c = false |- _ => rewrite HD end);
    try (apply Done; lia).
  all: destruct P as [P|P]; [apply Done; lia|exfalso; now apply P].
Qed.

(** ** strings *)
Lemma quoted_pieces : forall q text value, quoted q text value ->
  exists ps, Forall (piece_ok q) ps /\ text = pieces_text ps /\ value = pieces_value ps.
Proof.
  intros q text value H. induction H as [|c text value S1 S2 S3 H (ps & A & -> & ->)|text value H (ps & A & -> & ->)
    |text value H (ps & A & -> & ->)|c text value S1 S2 S3 H (ps & A & -> & ->)].
  - exists []. repeat split; constructor.
  - exists (Raw c :: ps). split; [now constructor|]. split; reflexivity.
  - exists (Esc 110 :: ps). split; [now constructor|]. split; reflexivity.
  - exists (Esc 116 :: ps). split; [now constructor|]. split; reflexivity.
  - exists (Esc c :: ps). split; [now constructor|]. split; [reflexivity|].
    cbn [pieces_value map piece_char]. now rewrite (proj2 (N.eqb_neq c 110) S2), (proj2 (N.eqb_neq c 116) S3).
Qed.
Lemma string_lexes : forall q text value nxt, q = 34 \/ q = 39 -> quoted q text value ->
  lexes (encode (q :: text ++ [q])) (TString value) nxt.
Proof.
  intros q text value nxt Hq H pos st en _. destruct (quoted_pieces q text value H) as (ps & A & -> & ->).
  assert (E : encode (q :: pieces_text ps ++ [q]) = encode (q :: pieces_text ps) ++ [q]).
  { change (q :: pieces_text ps ++ [q]) with ((q :: pieces_text ps) ++ [q]).
    rewrite encode_app. f_equal. destruct Hq as [-> | ->]; reflexivity. }
  rewrite E, <- app_assoc. cbn [app]. rewrite string_token by assumption. eexists. split; [reflexivity|].
  cbn [lx_rest lx_pos]. split; [reflexivity|lia].
Qed.

(** ** any spelled token *)
Lemma encode_ascii : forall s, Forall (fun c => c < 128) s -> encode s = s.
Proof. induction 1 as [|c s H _ IH]; [reflexivity|]. rewrite encode_cons, enc1_ascii by assumption. now rewrite IH. Qed.
Lemma word_char_ascii : forall c, word_char c = true -> c < 128.
Proof.
  intros c H. unfold word_char, letter, is_digit in H. 
  repeat (apply orb_true_iff in H as [H|H]); try (apply andb_true_iff in H as [_ H]; apply N.leb_le in H; lia). apply N.eqb_eq in H. lia.
Qed.
Lemma forallb_ascii : forall f s, (forall c, f c = true -> c < 128) -> forallb f s = true -> Forall (fun c => c < 128) s.
Proof. intros f s Hf H. rewrite forallb_forall in H. apply Forall_forall. auto. Qed.
Lemma digit_ascii : forall c, is_digit c = true -> c < 128.
Proof. intros c H. apply word_char_ascii. unfold word_char. rewrite H. apply orb_true_r. Qed.
Lemma number_ascii : forall s n, number s n -> Forall (fun c => c < 128) s.
Proof.
  intros s n [ds x [_ H] _|ds fs x H1 [_ H2] _].
  - eapply forallb_ascii; [apply digit_ascii|assumption].
  - apply Forall_app. split; [eapply forallb_ascii; [apply digit_ascii|assumption]|].
    apply Forall_app. split; [repeat constructor|]. eapply forallb_ascii; [apply digit_ascii|assumption].
Qed.
Lemma word_ascii : forall s, word s -> Forall (fun c => c < 128) s.
Proof.
  intros s (c & r & -> & Hc & Hr). constructor; [apply word_char_ascii; unfold word_char; now rewrite Hc|].
  eapply forallb_ascii; [apply word_char_ascii|assumption].
Qed.
Lemma symbol_ascii : forall t s, In (t, s) symbols -> encode (lit s) = lit s.
Proof.
  intros t s H. unfold symbols in H. cbn [In] in H. repeat (destruct H as [[= <- <-]|H]); try contradiction; reflexivity.
Qed.
Lemma last_forall : forall (P : N -> Prop) s, s <> [] -> Forall P s -> P (last s 0).
Proof.
  intros P s Hn H. induction H as [|c s Hc Hs IH]; [congruence|]. destruct s as [|d s]; [assumption|]. apply IH. discriminate.
Qed.
Lemma number_last : forall s n, number s n -> is_digit (last s 0) = true.
Proof.
  intros s n [ds nx [H1 H2] _|ds fs nx H1 [H2 H3] _].
  - apply (last_forall (fun c => is_digit c = true)); [assumption|]. apply Forall_forall. now apply forallb_forall.
  - assert (E : last (ds ++ lit "." ++ fs) 0 = last fs 0).
    { rewrite app_assoc. destruct (exists_last H2) as (f & x & ->). rewrite app_assoc. now rewrite !last_last. }
    rewrite E. apply (last_forall (fun c => is_digit c = true)); [assumption|]. apply Forall_forall. now apply forallb_forall.
Qed.
Lemma word_last : forall s, word s -> word_char (last s 0) = true.
Proof.
  intros s (c & r & -> & Hc & Hr). apply (last_forall (fun c => word_char c = true)); [discriminate|].
  constructor; [unfold word_char; now rewrite Hc|]. apply Forall_forall. now apply forallb_forall.
Qed.
Lemma glue_word : forall a c, glues a c = false -> word_char a = true -> word_char c = false.
Proof.
  intros a c H Ha. unfold glues in H. rewrite Ha in H. cbn [andb] in H. destruct (word_char c); [|reflexivity].
  cbn in H. discriminate.
Qed.
Lemma glue_digit : forall a c, glues a c = false -> is_digit a = true -> is_digit c = false /\ c <> 46.
Proof.
  intros a c H Ha. assert (W : word_char a = true) by (unfold word_char; rewrite Ha; apply orb_true_r).
  pose proof (glue_word a c H W) as Wc. unfold word_char in Wc. apply orb_false_iff in Wc as [_ Wc]. split; [assumption|].
  intros ->. unfold glues in H. rewrite Ha in H. cbn in H. rewrite !orb_true_r in H. discriminate.
Qed.

Lemma spelled_lexes : forall t s nxt, spelled t s -> nxt_ok (last s 0) nxt -> lexes (encode s) t nxt.
Proof.
  intros t s nxt H K. destruct H as [t s H|s [W Nk]|s H|s H|s H|s n H|q text value Hq H].
  - rewrite (symbol_ascii t s H). now apply symbol_lexes.
  - rewrite encode_ascii by now apply word_ascii. destruct (keyword_spec s W) as (_ & _ & _ & E). rewrite <- (E Nk).
    apply word_lexes; [assumption|]. destruct nxt as [|c nxt]; [exact I|]. apply (glue_word _ _ K). now apply word_last.
  - assert (W : word s) by (eapply keyword_word; [|..|exact H]; [reflexivity|discriminate]).
    rewrite encode_ascii by now apply word_ascii. destruct (keyword_spec s W) as (E & _ & _ & _). rewrite <- (E H).
    apply word_lexes; [assumption|]. destruct nxt as [|c nxt]; [exact I|]. apply (glue_word _ _ K). now apply word_last.
  - assert (W : word s) by (eapply keyword_word; [|..|exact H]; [reflexivity|discriminate]).
    rewrite encode_ascii by now apply word_ascii. destruct (keyword_spec s W) as (_ & E & _ & _). rewrite <- (E H).
    apply word_lexes; [assumption|]. destruct nxt as [|c nxt]; [exact I|]. apply (glue_word _ _ K). now apply word_last.
  - assert (W : word s) by (eapply keyword_word; [|..|exact H]; [reflexivity|discriminate]).
    rewrite encode_ascii by now apply word_ascii. destruct (keyword_spec s W) as (_ & _ & E & _). rewrite <- (E H).
    apply word_lexes; [assumption|]. destruct nxt as [|c nxt]; [exact I|]. apply (glue_word _ _ K). now apply word_last.
  - rewrite encode_ascii by now apply number_ascii in H. apply number_lexes; [assumption|].
    destruct nxt as [|c nxt]; [exact I|]. apply (glue_digit _ _ K). now apply number_last in H.
  - now apply string_lexes.
Qed.

(** ** whole sources *)
Lemma blank_ws : forall c, blank c -> is_ws c = true /\ is_whitespace c = true /\ c < 128.
Proof. intros c [<-|[<-|[<-|[<-|[]]]]]; repeat split; reflexivity. Qed.
Lemma skip_blanks : forall gap bs pos, Forall blank gap -> skip_ws (gap ++ bs) pos = skip_ws bs (pos + N.of_nat (length gap)).
Proof.
  intros gap bs pos H. revert pos. induction H as [|c gap Hc _ IH]; intros pos.
  - cbn. f_equal. lia.
  - cbn [app skip_ws]. destruct (blank_ws c Hc) as (-> & _). rewrite IH. f_equal. cbn [length]. lia.
Qed.
Lemma encode_gap : forall gap, Forall blank gap -> encode gap = gap.
Proof. intros gap H. apply encode_ascii. eapply Forall_impl; [|exact H]. intros c Hc. now destruct (blank_ws c Hc). Qed.
Lemma next_token_gap : forall gap bs pos st en, Forall blank gap -> bs <> [] ->
  next_token (mkLexer (gap ++ bs) pos st en) = next_token (mkLexer bs (pos + N.of_nat (length gap)) st en).
Proof.
  intros gap bs pos st en H Hn. unfold next_token. cbn [lx_rest lx_pos]. rewrite (skip_blanks gap bs pos H).
  destruct (skip_ws bs (pos + N.of_nat (length gap))) as [[|c r] p] eqn:E; [|reflexivity]. reflexivity.
Qed.

(** the tokens of a stream that ends normally *)
Fixpoint streams (ts : list token) (rest : tstream -> Prop) (s : tstream) : Prop :=
  match ts with
  | [] => rest s
  | t :: ts' => exists p s', s = TSCons t p s' /\ streams ts' rest s'
  end.
Definition at_end (s : tstream) : Prop := exists p, s = TSEnd p.

Definition spelled_not_eof : forall t s, spelled t s -> t <> TEof.
Proof.
  intros t s H. destruct H; try discriminate. unfold symbols in H. cbn [In] in H.
  repeat (destruct H as [[= <- <-]|H]); try contradiction; discriminate.
Qed.
Lemma spelled_nonempty : forall t s, spelled t s -> encode s <> [].
Proof.
  intros t s H E. assert (L := spelled_lexes t s [] H I). rewrite E in L.
  destruct (L 1 0 0 (or_introl eq_refl)) as (lx & A & _). cbn in A. injection A as A _. now apply (spelled_not_eof t s H).
Qed.
Lemma tokenize_cons : forall lx t lx', next_token lx = Ok (t, lx') -> t <> TEof -> tokenize lx = TSCons t (lx_start lx') (tokenize lx').
Proof. intros lx t lx' E H. rewrite tokenize_unfold, E. destruct t; congruence. Qed.

(** the separator rule on the encoded text *)
Lemma encode_hd : forall rest c r, encode rest = c :: r -> exists x rest', rest = x :: rest' /\ (c = x \/ 128 <= c /\ 128 <= x).
Proof.
  intros [|x rest] c r E; [discriminate|]. exists x, rest. split; [reflexivity|].
  rewrite encode_cons in E. destruct (N.lt_ge_cases x 128) as [L|L].
  - rewrite enc1_ascii in E by assumption. cbn in E. left. now injection E.
  - right. split; [|assumption]. pose proof (enc1_nonascii x L) as F. destruct (enc1 x) as [|b bs] eqn:B; [now apply enc1_nonempty in B|].
    cbn in E. injection E as <- _. inversion F; subst. lia.
Qed.
Lemma glues_high : forall a c, 128 <= c -> glues a c = false.
Proof.
  intros a c H. assert (W : word_char c = false). { destruct (word_char c) eqn:W; [|reflexivity]. apply word_char_ascii in W. lia. }
  assert (O : op_char c = false). { unfold op_char. change (lit "!=<>&|:.") with [33; 61; 60; 62; 38; 124; 58; 46]. cbn [existsb].
    repeat (apply orb_false_iff; split); try reflexivity; apply N.eqb_neq; lia. }
  assert (D : is_digit c = false). { destruct (is_digit c) eqn:W1; [|reflexivity]. apply digit_ascii in W1. lia. }
  unfold glues. rewrite W, O, D, !andb_false_r. cbn [orb]. assert ((c =? 46) = false) as -> by (apply N.eqb_neq; lia). now rewrite andb_false_r.
Qed.
Lemma separated_nxt : forall s rest, separated s rest -> nxt_ok (last s 0) (encode rest).
Proof.
  intros s rest [->|H]; [exact I|]. unfold nxt_ok. destruct (encode rest) as [|c r] eqn:E; [exact I|].
  destruct (encode_hd rest c r E) as (x & rest' & -> & [->|[H1 H2]]); [exact H|]. now apply glues_high.
Qed.

(** Reading a written source, then [more]. *)
Lemma token_stream : forall gap t s rest lx, Forall blank gap -> spelled t s -> separated s rest ->
  lx_rest lx = encode (gap ++ s ++ rest) -> 0 < lx_pos lx \/ gap ++ s <> [61] \/ True /\ encode s <> [61] ->
  exists lx', tokenize lx = TSCons t (lx_start lx') (tokenize lx') /\ lx_rest lx' = encode rest /\ 0 < lx_pos lx'.
Proof.
  intros gap t s rest [bs pos st en] Hg Hs Hsep E P. cbn [lx_rest lx_pos] in *. subst bs.
  rewrite !encode_app, (encode_gap gap Hg).
  destruct (spelled_lexes t s (encode rest) Hs (separated_nxt _ _ Hsep) (pos + N.of_nat (length gap)) st en) as (lx' & A & B & C).
  - destruct P as [P|[P|[_ P]]]; [left; lia| |now right].
    destruct gap as [|g gap]; [|left; cbn [length]; lia]. right. intros E. apply P. cbn [app].
    destruct (encode_head s 61 [] E ltac:(lia)) as (s' & -> & E2). f_equal. destruct s' as [|x s']; [reflexivity|].
    rewrite encode_cons in E2. pose proof (enc1_nonempty x). destruct (enc1 x); [congruence|discriminate].
  - exists lx'. split; [|split; [assumption|lia]]. apply tokenize_cons; [|now apply spelled_not_eof in Hs].
    rewrite next_token_gap; [assumption|assumption|]. pose proof (spelled_nonempty t s Hs). destruct (encode s); [congruence|discriminate].
Qed.
Lemma gap_stream : forall gap lx, Forall blank gap -> lx_rest lx = encode gap -> at_end (tokenize lx).
Proof.
  intros gap [bs pos st en] Hg E. cbn [lx_rest] in E. subst bs. rewrite (encode_gap gap Hg). rewrite tokenize_unfold. unfold next_token. cbn [lx_rest lx_pos].
  pose proof (skip_blanks gap [] pos Hg) as S. rewrite app_nil_r in S. rewrite S. cbn [skip_ws]. eexists. reflexivity.
Qed.
Definition starts_ok (src : str) (lx : lexer) : Prop := 0 < lx_pos lx \/ no_leading_eq src.
Lemma written_stream : forall ts src, written ts src -> forall lx, lx_rest lx = encode src -> starts_ok src lx ->
  streams ts at_end (tokenize lx).
Proof.
  intros ts src H. induction H as [gap Hg|gap t s ts rest Hg Hs Hw IH Hsep]; intros lx E P.
  - cbn [streams]. now apply (gap_stream gap).
  - destruct (token_stream gap t s rest lx Hg Hs Hsep E) as (lx' & A & B & C).
    + destruct P as [P|P]; [now left|]. right; right. split; [exact I|]. intros E61.
      destruct (encode_head s 61 [] E61 ltac:(lia)) as (s' & -> & _). apply P. rewrite trim_start_app.
      * reflexivity.
      * eapply Forall_impl; [|exact Hg]. intros c Hc. now destruct (blank_ws c Hc) as (_ & ? & _).
    + cbn [streams]. exists (lx_start lx'), (tokenize lx'). split; [assumption|]. apply IH; [assumption|now left].
Qed.
