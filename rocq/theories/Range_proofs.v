(** What the parser can produce: exactly the expressible programs. *)
From Coq Require Import String List ZArith NArith Bool Lia.
From Verif Require Import Base F64 Utf8 Syntax Lexer Parser Spec_syntax Spec_grammar Utf8_proofs Lexer_proofs Parser_proofs Parse_proofs Written_proofs Sim_proofs
  Grammar_proofs Sound_proofs Grammar_text_proofs Print_proofs Text_proofs.
Import ListNotations.

Lemma decode_valid : forall n bs s, (length bs <= n)%nat -> decode bs = Some s -> valid_str s.
Proof.
  induction n as [|n IH]; intros bs s L H.
  - destruct bs; [|cbn in L; lia]. injection H as <-. constructor.
  - destruct bs as [|b r]; [injection H as <-; constructor|]. cbn [decode] in H. cbn [length] in L.
    assert (K : forall c r' o, option_map (cons c) (decode r') = Some o -> (length r' <= n)%nat -> is_scalar c = true -> valid_str o).
    { intros c r' o E L' C. destruct (decode r') as [t|] eqn:D; [|discriminate]. injection E as <-. constructor; [assumption|]. now apply (IH r'). }
    destruct (N.ltb_spec b 128) as [B1|B1].
    { apply (K _ _ _ H); [lia|]. apply scalar_of_range. lia. }
    destruct (N.ltb_spec b 194) as [B2|B2]; [discriminate|]. destruct (N.ltb_spec b 224) as [B3|B3].
    { destruct r as [|c1 r]; [discriminate|]. destruct (is_cont c1) eqn:C; [|discriminate]. cbn [length] in L. apply (K _ _ _ H); [lia|].
      unfold is_cont in C. apply andb_true_iff in C as [C1 C2]. apply N.leb_le in C1. apply N.ltb_lt in C2. apply scalar_of_range. lia. }
    destruct (N.ltb_spec b 240) as [B4|B4].
    { destruct r as [|c1 [|c2 r]]; try discriminate. match goal with H : (if ?c then _ else _) = _ |- _ => destruct c eqn:C; [|discriminate] end.
      cbn [length] in L. apply (K _ _ _ H); [lia|]. apply andb_true_iff in C as [_ C]. exact C. }
    destruct (N.ltb_spec b 245) as [B5|B5]; [|discriminate].
    destruct r as [|c1 [|c2 [|c3 r]]]; try discriminate. match goal with H : (if ?c then _ else _) = _ |- _ => destruct c eqn:C; [|discriminate] end.
    cbn [length] in L. apply (K _ _ _ H); [lia|]. apply andb_true_iff in C as [_ C]. exact C.
Qed.
Lemma scan_string_valid : forall n q bs pos st buf t lx, (length bs <= n)%nat -> scan_string q bs pos st buf = Ok (t, lx) -> exists s, t = TString s /\ valid_str s.
Proof.
  induction n as [|n IH]; intros q bs pos st buf t lx L H.
  - destruct bs; [discriminate|cbn in L; lia].
  - destruct bs as [|c r]; [discriminate|]. cbn [scan_string] in H. cbn [length] in L. destruct (c =? q)%N.
    + destruct (decode (rev buf)) as [s|] eqn:D; [|discriminate]. injection H as <- <-. exists s. split; [reflexivity|]. now apply (decode_valid (length (rev buf)) (rev buf)).
    + destruct (c =? 92)%N.
      * destruct r as [|x r]; [discriminate|]. cbn [length] in L. apply IH in H; [assumption|lia].
      * apply IH in H; [assumption|lia].
Qed.
(** the shape of what [scan_number] reads *)
Lemma scan_number_shape : forall bs d t d' r, scan_number bs d = (t, d', r) ->
  (d' = d /\ forallb is_digit t = true)
  \/ (d = false /\ d' = true /\ exists a b, t = a ++ 46%N :: b /\ forallb is_digit a = true /\ forallb is_digit b = true).
Proof.
  induction bs as [|c bs IH]; intros d t d' r H; cbn [scan_number] in H.
  - injection H as <- <- <-. left. split; reflexivity.
  - destruct (is_digit c) eqn:D.
    + destruct (scan_number bs d) as [[t0 d0] r0] eqn:E. injection H as <- <- <-. destruct (IH _ _ _ _ E) as [(-> & F)|(-> & -> & a & b & -> & Fa & Fb)].
      * left. split; [reflexivity|]. cbn. now rewrite D, F.
      * right. split; [reflexivity|]. split; [reflexivity|]. exists (c :: a), b. split; [reflexivity|]. split; [cbn; now rewrite D, Fa|assumption].
    + destruct ((c =? 46)%N && negb d) eqn:P.
      * apply andb_true_iff in P as [P Q]. apply N.eqb_eq in P. subst c. destruct d; [discriminate|]. destruct bs as [|x bs].
        -- injection H as <- <- <-. right. split; [reflexivity|]. split; [reflexivity|]. exists [], []. repeat split.
        -- destruct (is_digit x) eqn:X.
           ++ destruct (scan_number (x :: bs) true) as [[t0 d0] r0] eqn:E. injection H as <- <- <-. destruct (IH _ _ _ _ E) as [(-> & F)|(? & _)]; [|discriminate].
              right. split; [reflexivity|]. split; [reflexivity|]. exists [], t0. now repeat split.
           ++ injection H as <- <- <-. left. now split.
      * injection H as <- <- <-. left. now split.
Qed.
Lemma lex_number_spell : forall c bs pos t lx, (0 < pos)%N -> is_digit c = true \/ c = 46%N /\ (exists x r, bs = x :: r /\ is_digit x = true) ->
  lex_number c bs pos = (t, lx) -> spellable t.
Proof.
  intros c bs pos t lx Hp Hc H. unfold lex_number in H. destruct (scan_number bs (c =? 46)%N) as [[u d] rest] eqn:E. injection H as <- _.
  assert (G : forall n, (exists s, number s n) -> spellable (TNumber n)). { intros n (s & Hs). exists s. now apply spelled_number. }
  apply G. clear G. destruct Hc as [Hc|(-> & x & r & -> & Hx)].
  - assert (D : (c =? 46)%N = false). { apply N.eqb_neq. intros ->. discriminate. } rewrite D in E.
    destruct (scan_number_shape _ _ _ _ _ E) as [(-> & F)|(_ & -> & a & b & -> & Fa & Fb)].
    + exists (c :: u). rewrite int_value; [|cbn; now rewrite Hc, F|cbn [length]; lia]. apply number_int. split; [discriminate|]. cbn. now rewrite Hc, F.
    + cbn [negb]. rewrite andb_false_r. assert (PV := point_value (c :: a) b ltac:(cbn; now rewrite Hc, Fa)). cbn [app] in PV. rewrite PV. clear PV.
      destruct b as [|y b].
      * exists (c :: a). rewrite app_nil_r. apply number_int. split; [discriminate|]. cbn. now rewrite Hc, Fa.
      * exists ((c :: a) ++ lit "." ++ (y :: b)). apply number_point; [cbn; now rewrite Hc, Fa|]. split; [discriminate|assumption].
  - change ((46 =? 46)%N) with true in E. destruct (scan_number_shape _ _ _ _ _ E) as [(-> & F)|(? & _)]; [|discriminate].
    cbn [scan_number] in E. rewrite Hx in E. destruct (scan_number r true) as [[t0 d0] r0]. injection E as <- _ _.
    cbn [negb]. rewrite andb_false_r. assert (PV := point_value [] (x :: t0) eq_refl). cbn [app] in PV. rewrite PV. clear PV.
    exists (lit "." ++ (x :: t0)). apply (number_point [] (x :: t0)); [reflexivity|]. split; [discriminate|assumption].
Qed.
Lemma scan_ident_word : forall bs t r, scan_ident bs = (t, r) -> forallb word_char t = true.
Proof.
  induction bs as [|c bs IH]; intros t r H; cbn [scan_ident] in H; [injection H as <- _; reflexivity|].
  destruct (is_ident_byte c) eqn:E; [|injection H as <- _; reflexivity]. destruct (scan_ident bs) as [u r'] eqn:F. injection H as <- _.
  rewrite is_ident_byte_word in E. cbn. rewrite E. now apply (IH u r').
Qed.
Lemma keyword_spell : forall s, word s -> spellable (keyword_or_ident s).
Proof.
  intros s W. destruct (keyword_spec s W) as (K1 & K2 & K3 & K4).
  destruct (str_eqb_spec (map lower_ascii s) (map lower_ascii (lit "true"))) as [E|N1]; [rewrite (K1 E); exists s; now apply spelled_true|].
  destruct (str_eqb_spec (map lower_ascii s) (map lower_ascii (lit "false"))) as [E|N2]; [rewrite (K2 E); exists s; now apply spelled_false|].
  destruct (str_eqb_spec (map lower_ascii s) (map lower_ascii (lit "null"))) as [E|N3]; [rewrite (K3 E); exists s; now apply spelled_null|].
  assert (K : ~ keyword s) by (unfold keyword, same_word; tauto). rewrite (K4 K). exists s. apply spelled_name. now split.
Qed.
Lemma mark_spell : forall k tok r pos t lx, spellable tok -> mark k tok r pos = Ok (t, lx) -> spellable t.
Proof. intros k tok r pos t lx S0 H. unfold mark in H. destruct (pos <? k)%N; [discriminate|]. now injection H as <- _. Qed.
Lemma next_token_spell : forall lx t lx', next_token lx = Ok (t, lx') -> t = TEof \/ spellable t.
Proof.
  intros lx t lx' H. unfold next_token in H. destruct (skip_ws (lx_rest lx) (lx_pos lx)) as [bs p0]. destruct bs as [|ch r]; [left; now injection H as <- _|]. right.
  destruct (is_digit ch) eqn:D.
  { destruct (lex_number ch r (p0 + 1)) as [t0 lx0] eqn:E. injection H as <- <-. apply (lex_number_spell ch r (p0 + 1) _ lx0); [lia|now left|assumption]. }
  destruct (is_alpha_ascii ch || (ch =? 95)%N) eqn:A.
  { unfold lex_identifier in H. destruct (scan_ident r) as [u rest] eqn:E. injection H as <- _. apply keyword_spell. exists ch, u. split; [reflexivity|].
    split; [|now apply (scan_ident_word r u rest)]. pose proof (is_ident_byte_word ch) as W. unfold is_ident_byte, word_char in W. rewrite D, !orb_false_r in W. now rewrite <- W. }
  repeat match type of H with
  | (if ?c then _ else _) = _ => destruct c eqn:?
  | (match ?x with [] => _ | _ :: _ => _ end) = _ => destruct x eqn:?
  end; try discriminate; try (apply mark_spell in H; [assumption|sy]).
  - injection H as H. apply (lex_number_spell ch r (p0 + 1) t lx'); [lia| |assumption]. right.
    match goal with K : (ch =? 46)%N = true |- _ => apply N.eqb_eq in K; subst ch end. split; [reflexivity|]. destruct r as [|x r]; [discriminate|]. eauto.
  - apply (scan_string_valid (length r)) in H; [|lia]. destruct H as (s & -> & V). now apply str_spell.
  - apply (scan_string_valid (length r)) in H; [|lia]. destruct H as (s & -> & V). now apply str_spell.
Qed.
Fixpoint all_toks (P : token -> Prop) (s : tstream) : Prop :=
  match s with TSCons t _ r => P t /\ all_toks P r | _ => True end.
Lemma tokenize_spell : forall n lx, all_toks spellable (tokenize_fuel n lx).
Proof.
  induction n as [|n IH]; intros lx; cbn [tokenize_fuel]; destruct (next_token lx) as [[t lx']|e|w] eqn:E; try exact I.
  - destruct t; exact I.
  - destruct (next_token_spell _ _ _ E) as [->|S0]; [exact I|]. destruct t; try exact I; cbn [all_toks]; (split; [assumption|apply IH]).
Qed.
Lemma spans_spell : forall ts st st', spans st ts st' -> Forall (fun t => t <> TEof) ts -> (look st = TEof \/ spellable (look st)) -> all_toks spellable (toks st) -> SP ts.
Proof.
  induction ts as [|t ts IH]; intros st st' H NE L A; [constructor|]. destruct H as (E & st1 & B & H). inversion NE; subst. constructor.
  - destruct L as [L|L]; [congruence|assumption].
  - unfold bump in B. destruct (toks st) as [p|u p r| |] eqn:T; try discriminate; injection B as <-.
    + apply (IH _ _ H); [assumption|now left|exact I].
    + destruct A as [A1 A2]. apply (IH _ _ H); [assumption|now right|assumption].
Qed.

(** ** From sentences back to expressible trees *)
Lemma upper_letter : forall c, letter c = true -> letter (upper_ascii c) = true.
Proof.
  intros c H. unfold upper_ascii. destruct (is_lower_ascii c) eqn:E; [|assumption]. unfold is_lower_ascii in E. apply andb_true_iff in E as [A B]. apply N.leb_le in A, B.
  unfold letter. replace ((65 <=? c - 32)%N && (c - 32 <=? 90)%N) with true; [reflexivity|]. symmetry. apply andb_true_iff. split; apply N.leb_le; lia.
Qed.
Lemma lower_letter' : forall c, letter c = true -> letter (lower_ascii c) = true.
Proof.
  intros c H. unfold lower_ascii. destruct (is_upper_ascii c) eqn:E; [|assumption]. unfold is_upper_ascii in E. apply andb_true_iff in E as [A B]. apply N.leb_le in A, B.
  unfold letter. replace ((97 <=? c + 32)%N && (c + 32 <=? 122)%N) with true; [now rewrite orb_true_r|]. symmetry. apply andb_true_iff. split; apply N.leb_le; lia.
Qed.
Lemma digit_case : forall c, is_digit c = true -> upper_ascii c = c /\ lower_ascii c = c.
Proof.
  intros c H. unfold is_digit in H. apply andb_true_iff in H as [A B]. apply N.leb_le in A, B. unfold upper_ascii, lower_ascii, is_lower_ascii, is_upper_ascii.
  replace (97 <=? c)%N with false by (symmetry; apply N.leb_gt; lia). replace (65 <=? c)%N with false by (symmetry; apply N.leb_gt; lia). now split.
Qed.
Lemma word_char_case : forall c, word_char c = true -> word_char (upper_ascii c) = true /\ word_char (lower_ascii c) = true.
Proof.
  intros c H. unfold word_char in *. apply orb_true_iff in H as [H|H].
  - now rewrite (upper_letter c H), (lower_letter' c H).
  - destruct (digit_case c H) as [-> ->]. rewrite H. now rewrite !orb_true_r.
Qed.
Lemma forall_word_case : forall r, forallb word_char r = true -> forallb word_char (map upper_ascii r) = true /\ forallb word_char (map lower_ascii r) = true.
Proof.
  induction r as [|c r IH]; intros H; [now split|]. cbn in *. apply andb_true_iff in H as [A B]. destruct (word_char_case c A) as [-> ->]. cbn. now apply IH.
Qed.
Lemma lower_upper : forall c, lower_ascii (upper_ascii c) = lower_ascii c.
Proof.
  intros c. unfold upper_ascii. destruct (is_lower_ascii c) eqn:E; [|reflexivity]. unfold is_lower_ascii in E. apply andb_true_iff in E as [A B]. apply N.leb_le in A, B.
  unfold lower_ascii, is_upper_ascii. replace ((65 <=? c - 32)%N && (c - 32 <=? 90)%N) with true by (symmetry; apply andb_true_iff; split; apply N.leb_le; lia).
  replace (65 <=? c)%N with true by (symmetry; apply N.leb_le; lia). replace (c <=? 90)%N with false by (symmetry; apply N.leb_gt; lia). cbn [andb]. lia.
Qed.
Lemma lower_lower : forall c, lower_ascii (lower_ascii c) = lower_ascii c.
Proof.
  intros c. unfold lower_ascii at 2 3. destruct (is_upper_ascii c) eqn:E; [|unfold lower_ascii; now rewrite E]. unfold is_upper_ascii in E. apply andb_true_iff in E as [A B]. apply N.leb_le in A, B.
  unfold lower_ascii, is_upper_ascii. replace (c + 32 <=? 90)%N with false by (symmetry; apply N.leb_gt; lia). now rewrite andb_false_r.
Qed.
Lemma upper_upper : forall c, upper_ascii (upper_ascii c) = upper_ascii c.
Proof.
  intros c. unfold upper_ascii at 2 3. destruct (is_lower_ascii c) eqn:E; [|unfold upper_ascii; now rewrite E]. unfold is_lower_ascii in E. apply andb_true_iff in E as [A B]. apply N.leb_le in A, B.
  unfold upper_ascii, is_lower_ascii. replace (97 <=? c - 32)%N with false by (symmetry; apply N.leb_gt; lia). reflexivity.
Qed.
Lemma name_upper : forall s, name s -> name (map upper_ascii s) /\ map upper_ascii (map upper_ascii s) = map upper_ascii s.
Proof.
  intros s [(c & r & -> & L & W) K]. split; [|rewrite map_map; apply map_ext; apply upper_upper]. split.
  - exists (upper_ascii c), (map upper_ascii r). split; [reflexivity|]. split; [now apply upper_letter|now apply forall_word_case].
  - intros H. apply K. unfold keyword, same_word in *. rewrite map_map in H. rewrite (map_ext _ lower_ascii lower_upper) in H. exact H.
Qed.
Lemma name_lower : forall s, name s -> name (map lower_ascii s) /\ map lower_ascii (map lower_ascii s) = map lower_ascii s.
Proof.
  intros s [(c & r & -> & L & W) K]. split; [|rewrite map_map; apply map_ext; apply lower_lower]. split.
  - exists (lower_ascii c), (map lower_ascii r). split; [reflexivity|]. split; [now apply lower_letter'|now apply forall_word_case].
  - intros H. apply K. unfold keyword, same_word in *. rewrite map_map in H. rewrite (map_ext _ lower_ascii lower_lower) in H. exact H.
Qed.
Lemma ident_name : forall s, spellable (TIdentifier s) -> name s.
Proof.
  intros s (w & H). inversion H; subst; [|assumption].
  repeat (match goal with K : In _ _ |- _ => destruct K as [K|K]; [discriminate|] end). contradiction.
Qed.
Lemma number_text : forall n, spellable (TNumber n) -> exists s, number s n.
Proof.
  intros s (w & H). inversion H; subst; [|eauto].
  repeat (match goal with K : In _ _ |- _ => destruct K as [K|K]; [discriminate|] end). contradiction.
Qed.
Lemma quoted_valid : forall q text value, quoted q text value -> valid_str value.
Proof. induction 1; constructor; try assumption; reflexivity. Qed.
Lemma string_text : forall s, spellable (TString s) -> valid_str s.
Proof.
  intros s (w & H). inversion H; subst.
  - repeat (match goal with K : In _ _ |- _ => destruct K as [K|K]; [discriminate|] end). contradiction.
  - now apply (quoted_valid q text).
Qed.
Ltac sps := repeat match goal with
  | H : SP (_ ++ _) |- _ => apply Forall_app in H; destruct H
  | H : Forall spellable (_ ++ _) |- _ => apply Forall_app in H; destruct H
  | H : SP (_ :: _) |- _ => inversion H; subst; clear H
  | H : Forall spellable (_ :: _) |- _ => inversion H; subst; clear H
  end.
Lemma const_name : name (lit "__CONST_TRUE__") /\ name (lit "__CONST_FALSE__") /\ name (lit "__TERNARY__").
Proof. split; [|split]; eapply word_name; reflexivity. Qed.
Lemma expressible_all :
  (forall L ts e, reads L ts e -> SP ts -> expressible e) /\ (forall ts es, reads_args ts es -> SP ts -> Forall argument es)
  /\ (forall ts es, reads_args1 ts es -> SP ts -> Forall argument es) /\ (forall ts e, reads_arg ts e -> SP ts -> argument e)
  /\ (forall ts es, reads_items ts es -> SP ts -> Forall expressible es)
  /\ (forall ts kvs, reads_pairs ts kvs -> SP ts -> Forall (fun kv => valid_str (fst kv)) kvs /\ Forall expressible (map snd kvs))
  /\ (forall ts o, reads_bound ts o -> SP ts -> forall b, o = Some b -> expressible b).
Proof.
  destruct const_name as (C1 & C2 & C3).
  assert (KV : forall t k, reads_key t k -> spellable t -> valid_str k).
  { intros t k [s|s] H; [|now apply string_text]. apply ident_name in H. destruct H as [W _]. apply word_ascii in W.
    apply Forall_forall. intros x Hx. rewrite Forall_forall in W. specialize (W x Hx). apply scalar_of_range. lia. }
  apply reads_mutind; intros; sps;
    repeat match goal with H : spellable (TIdentifier ?s) |- _ => apply ident_name in H end;
    repeat match goal with H : ?A -> ?B, K : ?A |- _ => specialize (H K) end.
  all: try assumption.
  all: try (econstructor; eauto; fail).
  - match goal with H : spellable _ |- _ => destruct (number_text _ H) as (s & Hs) end. now apply (ok_number n s).
  - apply ok_string. now apply string_text.
  - destruct (name_upper f) as [A B]; [assumption|]. now apply ok_call.
  - apply ok_object; constructor.
  - match goal with H : _ /\ _ |- _ => destruct H end. now apply ok_object.
  - destruct (name_lower p) as [A B]; [assumption|]. now apply ok_method.
  - destruct (name_lower m) as [A B]; [assumption|]. apply ok_method; try assumption. discriminate.
  - destruct (name_lower m) as [A B]; [assumption|]. now apply ok_safe_method.
  - apply ok_call; [assumption|reflexivity|]. repeat constructor; assumption.
  - split; repeat constructor; try assumption. cbn. eauto.
  - split; repeat constructor; try assumption. cbn. eauto.
  - match goal with H : _ /\ _ |- _ => destruct H end. split; constructor; try assumption. cbn. eauto.
  - discriminate.
  - match goal with H : Some _ = Some _ |- _ => now injection H as <- end.
Qed.
Definition reads_expressible := proj1 expressible_all.

(** the end-of-input token is in no sentence *)
Notation NE := (Forall (fun t => t <> TEof)).
Lemma no_eof_all :
  (forall L ts e, reads L ts e -> NE ts) /\ (forall ts es, reads_args ts es -> NE ts)
  /\ (forall ts es, reads_args1 ts es -> NE ts) /\ (forall ts e, reads_arg ts e -> NE ts)
  /\ (forall ts es, reads_items ts es -> NE ts) /\ (forall ts kvs, reads_pairs ts kvs -> NE ts) /\ (forall ts o, reads_bound ts o -> NE ts).
Proof.
  apply reads_mutind; intros;
    repeat (first [ assumption | apply Forall_nil | apply Forall_app; split | apply Forall_cons | discriminate ]).
  all: try (match goal with H : reads_key _ _ |- _ => inversion H; discriminate end).
  - intros ->. repeat (match goal with K : In _ _ |- _ => destruct K as [K|K]; [discriminate|] end). contradiction.
  - intros ->. repeat (match goal with K : In _ _ |- _ => destruct K as [K|K]; [discriminate|] end). contradiction.
Qed.
Lemma more_no_eof : forall ts es, reads_more ts es -> NE ts.
Proof.
  induction 1; repeat (first [ apply Forall_nil | apply Forall_cons | discriminate ]). apply Forall_app. split; [|assumption]. now apply (proj1 no_eof_all _ _ _ H).
Qed.
Lemma program_no_eof : forall ts e, reads_program ts e -> NE ts.
Proof. intros ts e [? ? ? R M|? ? ? ? R M N]; apply Forall_app; (split; [apply (proj1 no_eof_all _ _ _ R)|now apply (more_no_eof _ _ M)]). Qed.
Lemma more_expressible : forall ts es, reads_more ts es -> SP ts -> Forall expressible es.
Proof.
  induction 1; intros K; try constructor.
  - inversion K as [|? ? ? K']; subst. apply Forall_app in K' as [K1 _]. now apply (reads_expressible _ _ _ H).
  - inversion K as [|? ? ? K']; subst. apply Forall_app in K' as [_ K2]. now apply IHreads_more.
Qed.
Lemma program_range : forall ts e, reads_program ts e -> SP ts -> program e.
Proof.
  intros ts e [us a vs R M|us a vs es R M N] K; apply Forall_app in K as [K1 K2].
  - left. now apply (reads_expressible _ _ _ R).
  - right. destruct es as [|b es]; [contradiction|]. exists a, b, es. split; [reflexivity|]. constructor; [now apply (reads_expressible _ _ _ R)|now apply (more_expressible _ _ M)].
Qed.
Lemma parse_range : forall src e, parse src = Ok e -> program e.
Proof.
  intros src e H. unfold parse, parse_out, parse_stream in H. set (s := tokenize (lexer_new (strip_eq src))) in *.
  assert (A : all_toks spellable s) by (unfold s, tokenize; apply tokenize_spell). clearbody s.
  destruct (parser_new s) as [[] st|er|w|] eqn:N; try discriminate.
  destruct (p_program (parse_fuel s) st) as [e1 st'|er|w|] eqn:P; try discriminate. injection H as ->.
  destruct (program_sound _ _ _ _ P) as (ts & S0 & R). apply (program_range ts e R).
  destruct s as [p|t p r|er|w]; try discriminate; injection N as <-.
  - apply (spans_spell _ _ _ S0); [now apply (program_no_eof ts e)|now left|exact I].
  - destruct A as [A1 A2]. apply (spans_spell _ _ _ S0); [now apply (program_no_eof ts e)|now right|assumption].
  - apply (spans_spell _ _ _ S0); [now apply (program_no_eof ts e)|now left|exact I].
Qed.
Lemma parse_exactly : forall e, (exists src, parse src = Ok e) <-> program e.
Proof.
  intros e. split; [intros (src & H); now apply (parse_range src)|]. intros H. destruct (every_program e H) as (src & _ & _ & P). now exists src.
Qed.
Lemma printed_parses' : forall e src, program e -> written (snd (print e)) src -> parse src = Ok e.
Proof. intros e src P W. apply (sentence_parses' (snd (print e))); [now apply program_read|assumption]. Qed.
(** Two readings of the same tokens are the same tree. *)
Lemma unambiguous : forall ts e e', SP ts -> reads_program ts e -> reads_program ts e' -> e = e'.
Proof.
  intros ts e e' K R R'. destruct (spaced ts K) as (src & W & _). pose proof (sentence_parses' ts e src R W) as A. pose proof (sentence_parses' ts e' src R' W) as B. congruence.
Qed.
(** the written form of what was read is read back as the same tree *)
Lemma rewritten : forall src e, parse src = Ok e -> exists src', written (snd (print e)) src' /\ parse src' = Ok e.
Proof. intros src e H. destruct (every_program e (parse_range src e H)) as (s & A & _ & B). now exists s. Qed.
(** chains of two operators *)
Lemma binary_up : forall k j ts e, (k <= j)%nat -> reads (Binary k) ts e -> reads (Binary j) ts e.
Proof. intros k j ts e L R. induction L; [assumption|now apply reads_binary]. Qed.
Lemma infix_le_6 : forall t op k, In (t, op, k) infix_operators -> (1 <= k <= 6)%nat.
Proof. intros t op k H. repeat (destruct H as [H|H]; [injection H as <- <- <-; lia|]). contradiction. Qed.
Lemma whole_binary : forall k ts e, (k <= 6)%nat -> reads (Binary k) ts e -> reads_program ts e.
Proof.
  intros k ts e L R. rewrite <- (app_nil_r ts). apply reads_one; [|constructor]. apply reads_whole, reads_condition. now apply (binary_up k 6).
Qed.
Lemma two_operators : forall t1 op1 k1 t2 op2 k2 as_ a bs b cs c src,
  In (t1, op1, k1) infix_operators -> In (t2, op2, k2) infix_operators ->
  reads (Binary 0) as_ a -> reads (Binary 0) bs b -> reads (Binary 0) cs c ->
  written (as_ ++ t1 :: bs ++ t2 :: cs) src ->
  parse src = Ok (if (k1 <=? k2)%nat then EBinary (EBinary a op1 b) op2 c else EBinary a op1 (EBinary b op2 c)).
Proof.
  intros t1 op1 k1 t2 op2 k2 as_ a bs b cs c src I1 I2 A B C W. apply (sentence_parses' _ _ _) with (2 := W).
  pose proof (infix_le_6 _ _ _ I1). pose proof (infix_le_6 _ _ _ I2). destruct k1 as [|k1]; [lia|]. destruct k2 as [|k2]; [lia|].
  destruct (Nat.leb_spec (S k1) (S k2)) as [L|L].
  - apply (whole_binary (S k2)); [lia|]. change (as_ ++ t1 :: bs ++ t2 :: cs) with (as_ ++ (t1 :: bs) ++ t2 :: cs). rewrite app_assoc. apply reads_infix; [assumption| |now apply (binary_up 0); [lia|]].
    apply (binary_up (S k1)); [assumption|]. apply reads_infix; [assumption| |]; (apply (binary_up 0); [lia|assumption]).
  - apply (whole_binary (S k1)); [lia|]. apply reads_infix; [assumption|apply (binary_up 0); [lia|assumption]|].
    apply (binary_up (S k2)); [lia|]. apply reads_infix; [assumption| |]; (apply (binary_up 0); [lia|assumption]).
Qed.
(** '^' groups to the right, and a prefix operator to its left takes the whole power *)
Lemma powers : forall as_ a bs b cs c src, reads Cast as_ a -> reads Cast bs b -> reads (Binary 0) cs c ->
  written (as_ ++ TCaret :: bs ++ TCaret :: cs) src -> parse src = Ok (EBinary a BPow (EBinary b BPow c)).
Proof.
  intros as_ a bs b cs c src A B C W. apply (sentence_parses' _ _ _) with (2 := W). apply (whole_binary 0); [lia|]. apply reads_power; [assumption|]. now apply reads_power.
Qed.
Lemma negated_power : forall t op as_ a bs b src, In (t, op) prefix_operators -> reads Cast as_ a -> reads (Binary 0) bs b ->
  written (t :: as_ ++ TCaret :: bs) src -> parse src = Ok (EUnary op (EBinary a BPow b)).
Proof.
  intros t op as_ a bs b src I0 A B W. apply (sentence_parses' _ _ _) with (2 := W). apply (whole_binary 0); [lia|]. apply reads_prefix; [assumption|]. now apply reads_power.
Qed.
