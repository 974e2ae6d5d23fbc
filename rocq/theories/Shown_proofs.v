(** The text the command [sk] prints for a result. *)
From Coq Require Import Floats.SpecFloat QArith Qabs Lqa.
From Coq Require Import String List ZArith NArith Bool Lia.
From Verif Require Import Base F64 F64Text Syntax Lexer Parser Ext Json Registry Core Methods Evaluator Api Lines Host HttpServer Pretty Command Spec Spec_syntax Spec_numbers Spec_text Spec_json Spec_http Spec_command Spec_crash
  Base_proofs Value_proofs Float_proofs Text_proofs Display_proofs Shortest_proofs Written_proofs Debug_proofs Doubles_proofs Crash_proofs CacheKey_proofs HttpCache_proofs Command_proofs.
From Verif Require Import Spec_text Spec_http Spec_command Spec_shown.
Import ListNotations.
Local Open Scope N_scope.

(** ** Numbers *)
Lemma digits_range : forall ds, digits ds -> hd 48 ds <> 48 -> 10 ^ N.of_nat (length ds - 1) <= digits_value ds < 10 ^ N.of_nat (length ds).
Proof. intros ds [Nd Dd] Hh. split; [|now apply digits_value_bound]. destruct ds as [|c r]; [congruence|]. cbn [hd] in Hh. change (c :: r) with ([c] ++ r). rewrite digits_value_app. cbn [forallb] in Dd. apply andb_true_iff in Dd as [Dc Dr].
  unfold is_digit in Dc. apply andb_true_iff in Dc as [D1 D2]. apply N.leb_le in D1, D2. change (digits_value [c]) with (0 * 10 + (c - 48)). cbn [app length]. rewrite Nat.sub_0_r || (replace (S (length r) - 1)%nat with (length r) by lia).
  assert (1 <= c - 48) by lia. nia. Qed.
Lemma decimal_range : forall ds k, digits ds -> hd 48 ds <> 48 -> (T (k - 1) <= decimal (digits_value ds) (k - Z.of_nat (length ds)) < T k)%Q.
Proof. intros ds k Dd Hh. destruct (digits_range ds Dd Hh) as [A B]. rewrite decimal_T. set (n := length ds) in *. assert (Ln : (1 <= n)%nat) by (destruct Dd as [Nd _]; unfold n; destruct ds; [congruence|cbn; lia]).
  pose proof (T_pos (k - Z.of_nat n)) as P.
  assert (E1 : (T (k - 1) == inject_Z (Z.of_N (10 ^ N.of_nat (n - 1))) * T (k - Z.of_nat n))%Q).
  { replace (k - 1)%Z with (Z.of_nat (n - 1) + (k - Z.of_nat n))%Z by lia. rewrite T_add, T_whole by lia. rewrite N2Z.inj_pow, nat_N_Z. reflexivity. }
  assert (E2 : (T k == inject_Z (Z.of_N (10 ^ N.of_nat n)) * T (k - Z.of_nat n))%Q).
  { replace k with (Z.of_nat n + (k - Z.of_nat n))%Z at 1 by lia. rewrite T_add, T_whole by lia. rewrite N2Z.inj_pow, nat_N_Z. reflexivity. }
  rewrite E1, E2. split.
  - apply Qmult_le_compat_r; [|apply Qlt_le_weak; exact P]. rewrite <- Zle_Qle. lia.
  - apply Qmult_lt_compat_r; [exact P|]. rewrite <- Zlt_Qlt. lia. Qed.
Lemma plain_range_iff : forall ds k, digits ds -> hd 48 ds <> 48 -> (plain_range (decimal (digits_value ds) (k - Z.of_nat (length ds))) <-> (-3 <= k <= 16)%Z).
Proof. intros ds k Dd Hh. destruct (decimal_range ds k Dd Hh) as [A B]. assert (T4 : (T (-4) == 1 # 10000)%Q) by reflexivity. assert (T16 : (T 16 == inject_Z (10 ^ 16))%Q) by reflexivity. unfold plain_range. rewrite <- T4, <- T16. split.
  - intros [L R]. split.
    + destruct (Z.le_gt_cases (-3) k) as [|K]; [assumption|exfalso]. pose proof (T_le k (-4) ltac:(lia)). lra.
    + destruct (Z.le_gt_cases k 16) as [|K]; [assumption|exfalso]. pose proof (T_le 16 (k - 1) ltac:(lia)). lra.
  - intros [L R]. pose proof (T_le (-4) (k - 1) ltac:(lia)). pose proof (T_le k 16 ltac:(lia)). split; lra. Qed.
Lemma debug_shown : forall x, representable x -> number_shown x (f_debug x).
Proof. intros [b|b| |s m e] R; [destruct b; constructor|destruct b; constructor|constructor|].
  unfold f_debug. destruct (digits_of m e) as [ds k] eqn:D. destruct (digits_best s m e ds k R D) as (B & Dd & Hh & Hl). pose proof (plain_range_iff ds k Dd Hh) as Rg.
  assert (Sg : forall t, with_sign s t = minus s ++ t) by (intros t; now destruct s).
  destruct ((-3 <=? k)%Z && (k <=? 16)%Z) eqn:E.
  - apply andb_true_iff in E as [E1 E2]. apply Z.leb_le in E1, E2. destruct (place_point ds k) as [ip fp] eqn:P. destruct (place_point_plain ds k ip fp Dd Hh Hl P) as (P1 & P2 & P3 & P4 & P5).
    rewrite Sg. apply (plain_shown (S754_finite s m e) (digits_value ds) (k - Z.of_nat (length ds)) ip (match fp with [] => [48] | _ => fp end)); auto.
    + now apply Rg.
    + destruct fp as [|c r]; [now split|]. split; [discriminate|exact P2].
    + destruct fp as [|c r]; [|exact P3]. rewrite <- P3. rewrite app_nil_r, digits_value_app. change (digits_value [48]) with 0. rewrite N.add_0_r. cbn [length Z.of_nat Z.opp].
      change (10 ^ N.of_nat 1) with (10 ^ Z.to_N 1). rewrite decimal_shift by lia. reflexivity.
    + destruct fp as [|c r]; [now left|]. destruct P5 as [P5|P5]; [discriminate|now right].
  - assert (Nr : ~ (-3 <= k <= 16)%Z). { intros [L1 L2]. apply Z.leb_le in L1, L2. now rewrite L1, L2 in E. }
    rewrite Sg. destruct ds as [|c r]; [now destruct Dd|]. cbn [hd] in Hh.
    assert (Es : sci (c :: r) k false = [c] ++ (match r with [] => [] | _ => lit "." ++ r end) ++ lit "e" ++ Z_to_str (k - 1)) by (unfold sci; destruct r; reflexivity).
    rewrite Es. destruct Dd as [_ Dd]. cbn [forallb] in Dd. apply andb_true_iff in Dd as [Dc Dr].
    apply (power_shown (S754_finite s m e) (digits_value (c :: r)) (k - Z.of_nat (length (c :: r))) c r (k - 1) (Z_to_str (k - 1))); auto.
    + intros K. now apply Rg in K.
    + split; [discriminate|]. cbn. now rewrite Dc.
    + destruct r as [|c' r]; [now left|right]. exact Hl.
    + replace (k - 1 - Z.of_nat (length r))%Z with (k - Z.of_nat (length (c :: r)))%Z by (cbn [length]; lia). reflexivity.
    + now apply written_unique. Qed.

(** ** Texts *)
Lemma figure : forall n, n < 16 -> nth_error hex_figures (N.to_nat n) = Some (hex_digit n).
Proof. intros n L. assert (K : In n (map N.of_nat (seq 0 16))) by (apply in_map_iff; exists (N.to_nat n); split; [lia|]; apply in_seq; lia).
  cbn in K. decompose [or] K; try contradiction; subst n; reflexivity. Qed.
Lemma hex_fuel_written : forall fuel n acc, n < 16 ^ N.of_nat fuel -> (0 < fuel)%nat -> exists t, hex_fuel fuel n acc = t ++ acc /\ hexadecimal t n /\ (0 < n -> hd 48 t <> 48).
Proof. intros fuel. induction fuel as [|k IH]; intros n acc L F; [lia|]. cbn [hex_fuel]. destruct (N.ltb_spec n 16) as [S0|S0].
  - exists [hex_digit n]. split; [reflexivity|]. split; [constructor; now apply figure|]. intros P. cbn [hd]. unfold hex_digit. destruct (N.ltb_spec n 10); lia.
  - rewrite Nat2N.inj_succ, N.pow_succ_r' in L. assert (M : n mod 16 < 16) by (apply N.mod_lt; discriminate).
    assert (Q0 : n / 16 < 16 ^ N.of_nat k) by (apply N.div_lt_upper_bound; [discriminate|lia]). assert (Q1 : 0 < n / 16) by (apply N.div_str_pos; lia).
    destruct (IH (n / 16) (hex_digit (n mod 16) :: acc) Q0) as (t & E & W & Z0). { destruct k; [cbn in Q0; lia|lia]. }
    exists (t ++ [hex_digit (n mod 16)]). split; [now rewrite E, <- app_assoc|]. split.
    + rewrite (N.div_mod n 16) at 2 by discriminate. rewrite (N.mul_comm 16). constructor; [exact W|now apply figure].
    + intros _. specialize (Z0 Q1). destruct t; [inversion W; subst; match goal with K : _ = [] |- _ => destruct t; discriminate K end|exact Z0]. Qed.
Section Texts.
  Context {X : Ext}.
  Lemma debug_char : forall c, char_shown c (esc_debug c).
  Proof. intros c. unfold esc_debug. destruct (N.eqb_spec c 34) as [->|N1]; [apply (escape_shown 34 "\"""); cbn; tauto|]. destruct (N.eqb_spec c 92) as [->|N2]; [apply (escape_shown 92 "\\"); cbn; tauto|].
    destruct (N.eqb_spec c 9) as [->|N3]; [apply (escape_shown 9 "\t"); cbn; tauto|]. destruct (N.eqb_spec c 10) as [->|N4]; [apply (escape_shown 10 "\n"); cbn; tauto|].
    destruct (N.eqb_spec c 13) as [->|N5]; [apply (escape_shown 13 "\r"); cbn; tauto|]. destruct (N.eqb_spec c 0) as [->|N6]; [apply (escape_shown 0 "\0"); cbn; tauto|].
    assert (Ne : ~ In c (map fst escapes)) by (cbn; intuition congruence).
    assert (Sn : (if is_ascii c then (32 <=? c) && negb (c =? 127) else x_printable c) = true <-> seen c).
    { unfold is_ascii, seen. destruct (N.ltb_spec c 128) as [L|L].
      - rewrite andb_true_iff, N.leb_le, negb_true_iff, N.eqb_neq. split; [intros [A B]; left; lia|intros [A|[A _]]; lia].
      - split; [intros K; right; auto|intros [A|[_ A]]; [lia|exact A]]. }
    destruct (if is_ascii c then _ else _).
    - apply itself_shown; [exact Ne|now apply Sn].
    - destruct (hex_fuel_written (S (N.to_nat (N.size c))) c [] (size_16 c) ltac:(lia)) as (t & E & W & Z0). rewrite app_nil_r in E. unfold hex_str. rewrite E. apply code_shown; [exact Ne| |exact W|apply Z0; lia].
      intros K. apply Sn in K. discriminate. Qed.
  Lemma debug_str : forall s, text_shown s (str_debug s).
  Proof. intros s. exists (map esc_debug s). split; [|unfold str_debug; now rewrite flat_map_concat_map]. induction s as [|c s IH]; constructor; [apply debug_char|exact IH]. Qed.
  Lemma debug_value : forall v, doubles v -> shown v (value_debug v).
  Proof. intros v. induction v as [n|xs IH|b|s| |n|t|s] using value_ind'; intros D; cbn [value_debug].
    - constructor. now apply debug_shown.
    - constructor. cbn [doubles] in D. induction IH as [|x xs K _ IHl]; constructor; [apply K; apply D|apply IHl; apply D].
    - destruct b; constructor.
    - constructor. apply debug_str.
    - constructor.
    - constructor. now apply debug_shown.
    - constructor. now apply written_unique.
    - constructor. apply debug_str. Qed.
End Texts.

(** ** The command *)
Lemma argument_doubles : forall n s v, (length s <= n)%nat -> argument_value s v -> doubles v.
Proof. intros n. induction n as [|n IH]; intros s v L A.
  - destruct s; [|cbn in L; lia]. inversion A; subst; cbn [doubles]; auto.
    all: try (match goal with K : in_brackets [] _ |- _ => unfold in_brackets in K; discriminate K end).
    match goal with K : float_text [] _ |- _ => apply float_text_iff in K; now apply float_text_representable in K end.
  - inversion A as [| | | | |s0 inner items cores vs Br W J Nc Tr Vs|s0 x Ft|]; subst; cbn [doubles]; auto; [|now apply float_text_iff, float_text_representable in Ft].
    assert (Sz : Forall (fun c => (length c <= n)%nat) cores).
    { assert (Si : Forall (fun i => (length i <= n)%nat) items).
      { apply Forall_forall. intros i I0. apply (join_in (lit ",")) in I0 as (b & c & E). unfold in_brackets in Br. rewrite Br, E in L. change (length ([91%N] ++ (b ++ i ++ c) ++ [93%N]) <= S n)%nat in L. rewrite !app_length in L. cbn [length] in L. lia. }
      clear - Tr Si. induction Tr as [|i c is cs Tc _ IHt]; [constructor|]. inversion Si; subst. constructor; [|auto].
      destruct Tc as (b & a & -> & _). rewrite !app_length in *. lia. }
    clear - IH Sz Vs. induction Vs as [|c v cs vs Vc _ IHv]; [exact Logic.I|]. inversion Sz; subst. split; [eapply IH; eassumption|apply IHv; assumption]. Qed.
Section Printed.
  Context {X : Ext} {H : Host}.
  Lemma bound_doubles : forall ps vars, bound ps vars -> variables_double vars.
  Proof. intros ps vars [_ B] k v K. apply B in K as (text & _ & A). exact (argument_doubles _ text v (le_n _) A). Qed.
  Lemma gives_doubles : forall reg expr vars v, platform_doubles X -> functions_double reg -> variables_double vars -> Spec_http.gives reg expr vars (Ok v) -> doubles v.
  Proof. intros reg expr vars v PD FD VD [[_ E]|[_ E]].
    - unfold evaluate_with_assignments in E. destruct (parse expr) as [e| |] eqn:P; try discriminate. cbn [bind] in E. destruct (eval_assign e vars) as [[v' vars']| |] eqn:Q0; try discriminate. cbn in E. injection E as ->.
      apply (doubles_assignments expr vars v' vars' PD VD). unfold evaluate_with_assignments_and_context. now rewrite P.
    - now apply (doubles_custom reg expr vars v PD FD VD). Qed.
  Lemma leaves_shown : forall ps v o, ~ as_json ps -> doubles v -> leaves ps (Ok v) o -> exists out, o = Exited 0 (out ++ [10]) [] /\ shown v out.
  Proof. intros ps v o Na D (out & -> & P & _). exists out. split; [reflexivity|]. rewrite (P Na). now apply debug_value. Qed.
  Lemma shown_variables : unicode X -> platform_doubles X -> forall reg, functions_double reg -> forall ms expr ps args vars v, command_line ps args -> json_given ps = None -> ~ as_json ps -> bound ps vars -> Spec_http.gives reg expr vars (Ok v) ->
    exists out, sk_main reg ms (expr :: args) = Exited 0 (out ++ [10]) [] /\ shown v out.
  Proof. intros U PD reg FD ms expr ps args vars v Cl Jg Na B G. apply (leaves_shown ps v _ Na); [apply (gives_doubles reg expr vars v PD FD (bound_doubles ps vars B) G)|]. now apply (command_variables U reg ms expr ps args vars). Qed.
  Lemma shown_object : unicode X -> platform_doubles X -> forall reg, functions_double reg -> forall ms expr ps args text v, command_line ps args -> Forall (fun b => exists w, argument_value (snd b) w) (bindings ps) -> json_given ps = Some text -> ~ has_statements expr -> ~ as_json ps ->
    evaluate_with_json_custom reg expr text = Ok v -> exists out, sk_main reg ms (expr :: args) = Exited 0 (out ++ [10]) [] /\ shown v out.
  Proof. intros U PD reg FD ms expr ps args text v Cl Fb Jg Ns Na E. apply (leaves_shown ps v _ Na); [exact (doubles_json reg expr text v PD FD E)|]. rewrite <- E. now apply (command_json U reg ms expr ps args text). Qed.
  Lemma shown_distinct : unicode X -> platform_doubles X -> forall reg reg', functions_double reg -> functions_double reg' -> forall ms ms' expr expr' ps ps' args args' vars vars' v v',
    command_line ps args -> json_given ps = None -> ~ as_json ps -> bound ps vars -> Spec_http.gives reg expr vars (Ok v) ->
    command_line ps' args' -> json_given ps' = None -> ~ as_json ps' -> bound ps' vars' -> Spec_http.gives reg' expr' vars' (Ok v') ->
    (sk_main reg ms (expr :: args) = sk_main reg' ms' (expr' :: args') <-> v = v').
  Proof. intros U PD reg reg' FD FD' ms ms' expr expr' ps ps' args args' vars vars' v v' Cl Jg Na B G Cl' Jg' Na' B' G'.
    destruct (command_variables U reg ms expr ps args vars (Ok v) Cl Jg B G) as (out & -> & P & _). destruct (command_variables U reg' ms' expr' ps' args' vars' (Ok v') Cl' Jg' B' G') as (out' & -> & P' & _).
    rewrite (P Na), (P' Na'). split; [|now intros ->]. intros E. injection E as E. apply app_inj_tail in E as [E _].
    apply (debug_inj v (gives_doubles reg expr vars v PD FD (bound_doubles ps vars B) G) v' [] [] (gives_doubles reg' expr' vars' v' PD FD' (bound_doubles ps' vars' B') G')); [now left|now left|now rewrite !app_nil_r]. Qed.
End Printed.
