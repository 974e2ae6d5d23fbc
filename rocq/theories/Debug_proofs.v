(** The debug text of a value determines the value. *)
From Coq Require Import Floats.SpecFloat.
From Coq Require Import String List ZArith NArith Bool Lia.
From Verif Require Import Base Base_proofs F64 F64Text Syntax Ext Json Spec Spec_syntax Spec_text Spec_http Value_proofs Cast_proofs Float_proofs Exact_proofs Text_proofs Round_proofs Display_proofs Json_proofs.
Import ListNotations.
Local Open Scope N_scope.

(** ** Numbers *)
Lemma debug_text : forall x, representable x -> float_text (f_debug x) x.
Proof.
  intros [z|z| |s m e] R.
  - apply (float_text_iff (f_debug (S754_zero z))). destruct z; reflexivity.
  - apply (float_text_iff (f_debug (S754_infinity z))). destruct z; reflexivity.
  - apply (float_text_iff (f_debug S754_nan)). reflexivity.
  - unfold f_debug. destruct (digits_of m e) as [ds k] eqn:D. assert (R' : representable (S754_finite false m e)) by exact R.
    destruct (digits_of_reads s m e ds k R' D) as [Dd V]. destruct ((-3 <=? k)%Z && (k <=? 16)%Z).
    + destruct (place_point ds k) as [ip fp] eqn:P. destruct (place_point_spec ds k ip fp Dd P) as (P1 & P2 & P3). specialize (P3 s). rewrite V in P3.
      set (fp' := match fp with [] => [48] | _ => fp end) in *.
      assert (Df : forallb is_digit fp' = true) by (unfold fp'; destruct fp; [reflexivity|exact P2]).
      assert (V' : f_of_dec s (digits_value (ip ++ fp')) (0 - Z.of_nat (length fp')) = S754_finite s m e).
      { unfold fp'. destruct fp as [|c r]; [|rewrite <- P3; f_equal; lia]. rewrite <- P3. rewrite app_nil_r. cbn [length Z.of_nat Z.opp].
        rewrite digits_value_app. change (digits_value [48]) with 0. change (N.of_nat (length [48])) with (Z.to_N 1). rewrite N.add_0_r.
        change (0 - Z.of_nat 1)%Z with (0 - 1)%Z. now rewrite dec_shift by lia. }
      rewrite <- V'.
      assert (G : forall sg, sign_text sg s -> float_text (sg ++ (ip ++ lit "." ++ fp') ++ []) (f_of_dec s (digits_value (ip ++ fp')) (0 - Z.of_nat (length fp')))).
      { intros sg Hs. apply decimal_text; [assumption| |constructor]. apply with_point; [apply P1|assumption|]. intros K. apply app_eq_nil in K as [K _]. destruct P1 as [P1 _]. now apply P1. }
      destruct s; [specialize (G (lit "-") minus_sign)|specialize (G [] no_sign)]; rewrite app_nil_r in G; exact G.
    + destruct ds as [|d r]; [now destruct Dd|]. destruct Dd as [_ Dd]. cbn [forallb] in Dd. apply andb_true_iff in Dd as [Dd Dr].
      set (mt := match r with [] => [d] | _ => d :: 46 :: r end).
      assert (Mt : mantissa_text mt [d] r).
      { unfold mt. destruct r as [|d' r]; [apply no_point; split; [discriminate|cbn; now rewrite Dd]|]. apply (with_point [d]); [unfold all_digits; cbn; now rewrite Dd|exact Dr|discriminate]. }
      assert (Ex : exponent_text (101 :: Z_to_str (k - 1)) (k - 1)).
      { destruct (proj2 (written_unique (k - 1) (Z_to_str (k - 1))) eq_refl) as (es & (De & Ve & _) & ->). destruct (Z.ltb_spec (k - 1) 0).
        - replace (k - 1)%Z with (signed_value true (digits_value es)) by (unfold signed_value; rewrite Ve; lia). apply (some_exponent 101 (lit "-") true es); auto. constructor.
        - replace (k - 1)%Z with (signed_value false (digits_value es)) by (unfold signed_value; rewrite Ve; lia). apply (some_exponent 101 [] false es); auto. constructor. }
      assert (G : forall sg, sign_text sg s -> float_text (sg ++ mt ++ 101 :: Z_to_str (k - 1)) (S754_finite s m e)).
      { intros sg Hs. rewrite <- V. replace (k - Z.of_nat (length (d :: r)))%Z with (k - 1 - Z.of_nat (length r))%Z by (cbn [length]; lia). exact (decimal_text sg s mt [d] r _ _ Hs Mt Ex). }
      assert (E : sci (d :: r) k false = mt ++ 101 :: Z_to_str (k - 1)) by (unfold sci, mt; destruct r; reflexivity).
      rewrite E. destruct s; [exact (G (lit "-") minus_sign)|exact (G [] no_sign)].
Qed.
Lemma debug_number_inj : forall x y, representable x -> representable y -> f_debug x = f_debug y -> x = y.
Proof. intros x y Rx Ry E. pose proof (debug_text x Rx) as A. pose proof (debug_text y Ry) as B. rewrite <- E in B. now apply (float_text_unique (f_debug x)). Qed.

(** characters of numbers *)
Definition number_char (c : N) : bool := is_digit c || existsb (N.eqb c) (lit "-.eNainf").
Lemma number_digits : forall ds, forallb is_digit ds = true -> forallb number_char ds = true.
Proof. intros ds. rewrite !forallb_forall. intros F c I. unfold number_char. now rewrite F. Qed.
Lemma number_N : forall n, forallb number_char (N_to_str n) = true.
Proof. intros n. apply number_digits. apply N_to_str_spec. Qed.
Lemma number_Z : forall z, forallb number_char (Z_to_str z) = true.
Proof. intros [|p|p]; [reflexivity|apply number_N|]. change (Z_to_str (Zneg p)) with (45 :: N_to_str (Npos p)). cbn [forallb]. now rewrite number_N. Qed.
Lemma forallb_strip : forall p ds, forallb p ds = true -> forallb p (strip_trailing_zeros ds) = true.
Proof.
  intros p ds. induction ds as [|c r IH]; [reflexivity|]. cbn. intros K. apply andb_true_iff in K as [Kc Kr]. specialize (IH Kr). destruct (strip_trailing_zeros r) as [|c' r']; [destruct (c =? 48); cbn; now rewrite ?Kc|]. cbn in *. now rewrite Kc.
Qed.
Lemma number_debug : forall x, forallb number_char (f_debug x) = true.
Proof.
  assert (W : forall s t, forallb number_char t = true -> forallb number_char (with_sign s t) = true) by (intros [] t K; cbn; now rewrite ?K).
  intros [z|z| |s m e]; try (destruct z; reflexivity); try reflexivity. unfold f_debug. destruct (digits_of m e) as [ds k] eqn:D.
  assert (Dd : forallb is_digit ds = true). { unfold digits_of in D. destruct (shortest m e) as [d x]. injection D as <- _. apply forallb_strip. apply N_to_str_spec. }
  apply W. destruct (_ && _).
  - unfold place_point. assert (Z0 : forall n, forallb number_char (zeros n) = true) by (intros n; apply number_digits, zeros_digits).
    assert (Fp : forall fp, forallb number_char fp = true -> forallb number_char (match fp with [] => [48] | _ => fp end) = true) by (intros [|]; auto).
    apply number_digits in Dd. destruct (k <=? 0)%Z; [|destruct (_ <=? k)%Z].
    + rewrite forallb_app. cbn [forallb]. rewrite Fp; [reflexivity|]. now rewrite forallb_app, Z0, Dd.
    + rewrite forallb_app, forallb_app, Dd, Z0. reflexivity.
    + rewrite forallb_app. cbn [forallb]. rewrite <- (firstn_skipn (Z.to_nat k) ds), forallb_app in Dd. apply andb_true_iff in Dd as [D1 D2]. now rewrite D1, Fp.
  - unfold sci. rewrite forallb_app. cbn [forallb andb]. rewrite number_Z, andb_true_r. cbn [andb]. destruct ds as [|d [|d' r]]; [reflexivity|now apply number_digits|]. apply number_digits in Dd. cbn [forallb] in *. apply andb_true_iff in Dd as [D1 D2]. now rewrite D1, D2.
Qed.
Lemma number_not : forall t c, forallb number_char t = true -> number_char c = false -> ~ In c t.
Proof. intros t c F K I. rewrite forallb_forall in F. apply F in I. congruence. Qed.

(** ** Text up to a character that is not in it *)
Lemma cut_at : forall (c : N) a b r r', ~ In c a -> ~ In c b -> a ++ c :: r = b ++ c :: r' -> a = b /\ r = r'.
Proof.
  intros c a. induction a as [|x a IH]; intros [|y b] r r' Na Nb E; cbn in *.
  - injection E as <-. now split.
  - injection E as <- _. tauto.
  - injection E as -> _. tauto.
  - injection E as -> E. destruct (IH b r r') as [-> ->]; auto.
Qed.

(** ** Strings *)
Lemma hex_char : forall n, n < 16 -> hex_digit n <> 125 /\ hex_digit n <> 34 /\ hex_digit n <> 92 /\ hex_digit n <> 124.
Proof. intros n L. unfold hex_digit. destruct (N.ltb_spec n 10); lia. Qed.
Lemma hex_inj : forall a b, a < 16 -> b < 16 -> hex_digit a = hex_digit b -> a = b.
Proof. intros a b A B. unfold hex_digit. destruct (N.ltb_spec a 10), (N.ltb_spec b 10); lia. Qed.
Definition hex_text (t : str) : Prop := Forall (fun c => exists n, n < 16 /\ c = hex_digit n) t.
Definition hex_value (t : str) : N := fold_left (fun a c => a * 16 + (if c <? 58 then c - 48 else c - 87)) t 0.
Lemma hex_back : forall n, n < 16 -> (if hex_digit n <? 58 then hex_digit n - 48 else hex_digit n - 87) = n.
Proof. intros n L. unfold hex_digit. destruct (N.ltb_spec n 10); [destruct (N.ltb_spec (48 + n) 58)|destruct (N.ltb_spec (87 + n) 58)]; lia. Qed.
Lemma hex_fuel_spec : forall fuel n acc, n < 16 ^ N.of_nat fuel -> exists t, hex_fuel fuel n acc = t ++ acc /\ hex_text t /\ forall a, fold_left (fun a c => a * 16 + (if c <? 58 then c - 48 else c - 87)) t a = a * 16 ^ N.of_nat (length t) + n.
Proof.
  intros fuel. induction fuel as [|k IH]; intros n acc L.
  - exists []. cbn in *. split; [reflexivity|]. split; [constructor|]. intros a. lia.
  - cbn [hex_fuel]. destruct (N.ltb_spec n 16) as [S|S].
    + exists [hex_digit n]. split; [reflexivity|]. split; [constructor; [eauto|constructor]|]. intros a. cbn [fold_left length]. rewrite hex_back by assumption. change (16 ^ N.of_nat 1) with 16. reflexivity.
    + rewrite Nat2N.inj_succ, N.pow_succ_r' in L. assert (n mod 16 < 16) by (apply N.mod_lt; discriminate).
      destruct (IH (n / 16) (hex_digit (n mod 16) :: acc)) as (t & E & T & V); [apply N.div_lt_upper_bound; [discriminate|lia]|].
      exists (t ++ [hex_digit (n mod 16)]). split; [now rewrite E, <- app_assoc|]. split; [apply Forall_app; split; [assumption|constructor; [eauto|constructor]]|].
      intros a. rewrite fold_left_app, V. cbn [fold_left]. rewrite hex_back by assumption. rewrite app_length, Nat2N.inj_add. change (N.of_nat (length [hex_digit (n mod 16)])) with 1. rewrite N.pow_add_r, N.pow_1_r. pose proof (N.div_mod n 16). lia.
Qed.
Lemma size_16 : forall n, n < 16 ^ N.of_nat (S (N.to_nat (N.size n))).
Proof.
  intros n. rewrite Nat2N.inj_succ, N2Nat.id. apply N.lt_le_trans with (2 ^ N.size n); [apply N.size_gt|]. apply N.le_trans with (16 ^ N.size n); [apply N.pow_le_mono_l; lia|]. apply N.pow_le_mono_r; lia.
Qed.
Lemma hex_str_spec : forall n, hex_text (hex_str n) /\ hex_value (hex_str n) = n.
Proof.
  intros n. unfold hex_str. destruct (hex_fuel_spec (S (N.to_nat (N.size n))) n [] (size_16 n)) as (t & -> & T & V). rewrite app_nil_r. split; [assumption|]. unfold hex_value. now rewrite V.
Qed.
Lemma hex_not : forall t c, hex_text t -> (forall n, n < 16 -> hex_digit n <> c) -> ~ In c t.
Proof. intros t c T K I. unfold hex_text in T. rewrite Forall_forall in T. destruct (T _ I) as (n & L & E). exact (K n L (eq_sym E)). Qed.

Section Strings.
  Context {X : Ext}.
  Lemma esc_cases : forall c, (esc_debug c = [c] /\ c <> 34 /\ c <> 92) \/ (exists d, esc_debug c = [92; d] /\ d <> 117 /\ d <> 124 /\ ((c = 34 /\ d = 34) \/ (c = 92 /\ d = 92) \/ (c = 9 /\ d = 116) \/ (c = 10 /\ d = 110) \/ (c = 13 /\ d = 114) \/ (c = 0 /\ d = 48)))
    \/ esc_debug c = 92 :: 117 :: 123 :: hex_str c ++ [125].
  Proof.
    intros c. unfold esc_debug. destruct (N.eqb_spec c 34) as [->|]; [right; left; exists 34; repeat split; try discriminate; tauto|]. destruct (N.eqb_spec c 92) as [->|]; [right; left; exists 92; repeat split; try discriminate; tauto|].
    destruct (N.eqb_spec c 9) as [->|]; [right; left; exists 116; repeat split; try discriminate; tauto|]. destruct (N.eqb_spec c 10) as [->|]; [right; left; exists 110; repeat split; try discriminate; tauto|].
    destruct (N.eqb_spec c 13) as [->|]; [right; left; exists 114; repeat split; try discriminate; tauto|]. destruct (N.eqb_spec c 0) as [->|]; [right; left; exists 48; repeat split; try discriminate; tauto|].
    destruct (if is_ascii c then _ else _); [left; auto|right; right; reflexivity].
  Qed.
  Lemma esc_inj : forall c c' r r', esc_debug c ++ r = esc_debug c' ++ r' -> c = c' /\ r = r'.
  Proof.
    intros c c' r r'. destruct (esc_cases c) as [(E & N1 & N2)|[(d & E & U & _ & D)|E]], (esc_cases c') as [(E' & N1' & N2')|[(d' & E' & U' & _ & D')|E']]; rewrite E, E'; cbn [app]; intros K.
    - injection K as -> ->. now split.
    - injection K as -> _. contradiction.
    - injection K as -> _. contradiction.
    - injection K as <- _. contradiction.
    - injection K as -> ->. split; [|reflexivity]. lia.
    - injection K as -> _. contradiction.
    - injection K as <- _. contradiction.
    - injection K as <- _. contradiction.
    - injection K as K. rewrite <- !app_assoc in K. cbn [app] in K. destruct (hex_str_spec c) as [T V], (hex_str_spec c') as [T' V'].
      apply cut_at in K as [K ->]; [|apply hex_not; [assumption|intros n L; apply hex_char; assumption]..]. split; [congruence|reflexivity].
  Qed.
  Lemma esc_head : forall c r r', esc_debug c ++ r <> 34 :: r'.
  Proof. intros c r r'. destruct (esc_cases c) as [(E & N1 & N2)|[(d & E & _)|E]]; rewrite E; intros K; injection K as K _; try discriminate. contradiction. Qed.
  Lemma str_debug_inj : forall s s' r r', str_debug s ++ r = str_debug s' ++ r' -> s = s' /\ r = r'.
  Proof.
    unfold str_debug. intros s s' r r' E. cbn [app] in E. injection E as E. rewrite <- !app_assoc in E. cbn [app] in E. revert s' E. induction s as [|c s IH]; intros [|c' s'] E; cbn [flat_map app] in E.
    - injection E as ->. now split.
    - rewrite <- app_assoc in E. symmetry in E. now apply esc_head in E.
    - rewrite <- app_assoc in E. now apply esc_head in E.
    - rewrite <- !app_assoc in E. apply esc_inj in E as [-> E]. destruct (IH s' E) as [-> ->]. now split.
  Qed.

  (** ** Values *)
  Lemma debug_first : forall v, exists c r, value_debug v = c :: r /\ c <> 93 /\ c <> 44.
  Proof. intros [n|xs|b|s| |n|t|s]; try destruct b; cbn; eexists; eexists; repeat split; discriminate. Qed.
  Definition decodable (v : value) : Prop := doubles v -> forall v' r r', doubles v' -> stop r -> stop r' -> value_debug v ++ r = value_debug v' ++ r' -> v = v' /\ r = r'.
  Lemma stop_not_number : forall c r, stop (c :: r) -> number_char c = false.
  Proof. intros c r [K|(c' & r0 & E & I)]; [discriminate|]. injection E as -> _. cbn in I. repeat destruct I as [<-|I]; try reflexivity. contradiction. Qed.
  Lemma paren_cut : forall a b r r', forallb number_char a = true -> forallb number_char b = true -> (a ++ [41]) ++ r = (b ++ [41]) ++ r' -> a = b /\ r = r'.
  Proof. intros a b r r' A B E. rewrite <- !app_assoc in E. cbn [app] in E. apply cut_at in E; auto; apply number_not; auto. Qed.
  Lemma decode_list : forall xs, Forall decodable xs -> Forall doubles xs -> forall ys r r', Forall doubles ys -> join (lit ", ") (map value_debug xs) ++ 93 :: r = join (lit ", ") (map value_debug ys) ++ 93 :: r' -> xs = ys /\ r = r'.
  Proof.
    intros xs F. induction F as [|x xs Hx F IH]; intros Dx [|y ys] r r' Dy E.
    - cbn in E. injection E as ->. now split.
    - exfalso. destruct (debug_first y) as (c & t & Ey & N1 & _). cbn [map join] in E. destruct (map value_debug ys); cbn in E; rewrite Ey in E; injection E as <- _; now apply N1.
    - exfalso. destruct (debug_first x) as (c & t & Ex & N1 & _). cbn [map join] in E. destruct (map value_debug xs); cbn in E; rewrite Ex in E; injection E as E _; now apply N1.
    - inversion Dx as [|? ? Dx0 Dx1]; subst. inversion Dy as [|? ? Dy0 Dy1]; subst.
      assert (St : forall r0, stop (93 :: r0)) by (intros r0; right; exists 93, r0; split; [reflexivity|cbn; tauto]).
      assert (Sc : forall r0, stop (44 :: r0)) by (intros r0; right; exists 44, r0; split; [reflexivity|cbn; tauto]).
      destruct xs as [|x2 xs], ys as [|y2 ys].
      + cbn [map join] in E. destruct (Hx Dx0 y (93 :: r) (93 :: r') Dy0 (St _) (St _) E) as [-> K]. injection K as ->. now split.
      + cbn [map] in E. change (join (lit ", ") (value_debug y :: value_debug y2 :: map value_debug ys)) with (value_debug y ++ lit ", " ++ join (lit ", ") (map value_debug (y2 :: ys))) in E. cbn [join] in E. rewrite <- !app_assoc in E.
        destruct (Hx Dx0 y _ _ Dy0 (St _) (Sc _) E) as [_ K]. discriminate.
      + cbn [map] in E. change (join (lit ", ") (value_debug x :: value_debug x2 :: map value_debug xs)) with (value_debug x ++ lit ", " ++ join (lit ", ") (map value_debug (x2 :: xs))) in E. cbn [join] in E. rewrite <- !app_assoc in E.
        destruct (Hx Dx0 y _ _ Dy0 (Sc _) (St _) E) as [_ K]. discriminate.
      + change (map value_debug (x :: x2 :: xs)) with (value_debug x :: value_debug x2 :: map value_debug xs) in E. change (map value_debug (y :: y2 :: ys)) with (value_debug y :: value_debug y2 :: map value_debug ys) in E.
        change (join (lit ", ") (value_debug x :: value_debug x2 :: map value_debug xs)) with (value_debug x ++ lit ", " ++ join (lit ", ") (map value_debug (x2 :: xs))) in E.
        change (join (lit ", ") (value_debug y :: value_debug y2 :: map value_debug ys)) with (value_debug y ++ lit ", " ++ join (lit ", ") (map value_debug (y2 :: ys))) in E. rewrite <- !app_assoc in E.
        destruct (Hx Dx0 y _ _ Dy0 (Sc _) (Sc _) E) as [-> K]. change (lit ", " ++ join (lit ", ") (map value_debug (x2 :: xs)) ++ 93 :: r) with (44 :: 32 :: join (lit ", ") (map value_debug (x2 :: xs)) ++ 93 :: r) in K.
        change (lit ", " ++ join (lit ", ") (map value_debug (y2 :: ys)) ++ 93 :: r') with (44 :: 32 :: join (lit ", ") (map value_debug (y2 :: ys)) ++ 93 :: r') in K. injection K as K.
        destruct (IH Dx1 (y2 :: ys) r r' Dy1 K) as [-> ->]. now split.
  Qed.
  Lemma doubles_array : forall xs, doubles (VArray xs) -> Forall doubles xs.
  Proof. intros xs. cbn. induction xs as [|x xs IH]; [constructor|]. intros [A B]. constructor; auto. Qed.
  Lemma debug_inj : forall v, decodable v.
  Proof.
    intros v. induction v as [n|xs IH|b|s| |n|t|s] using value_ind'; intros D v' r r' D' S0 S1 E.
    - destruct v' as [n'|xs'|b'|s'| |n'|t'|s']; try destruct b'; cbn [value_debug] in E; try discriminate. rewrite <- !app_assoc in E. apply app_inv_head in E. rewrite !app_assoc in E. apply paren_cut in E as [E ->]; try apply number_debug. apply debug_number_inj in E as ->; auto.
    - destruct v' as [n'|xs'|b'|s'| |n'|t'|s']; try destruct b'; cbn [value_debug] in E; try discriminate. rewrite <- !app_assoc in E. apply app_inv_head in E. change (lit "])" ++ r) with (93 :: 41 :: r) in E. change (lit "])" ++ r') with (93 :: 41 :: r') in E.
      apply decode_list in E; auto using doubles_array. destruct E as [-> E]. injection E as ->. now split.
    - destruct v' as [n'|xs'|b'|s'| |n'|t'|s']; try destruct b'; destruct b; cbn [value_debug] in E; try discriminate; apply app_inv_head in E as ->; now split.
    - destruct v' as [n'|xs'|b'|s'| |n'|t'|s']; try destruct b'; cbn [value_debug] in E; try discriminate. rewrite <- !app_assoc in E. apply app_inv_head in E. apply str_debug_inj in E as [-> E]. apply app_inv_head in E as ->. now split.
    - destruct v' as [n'|xs'|b'|s'| |n'|t'|s']; try destruct b'; cbn [value_debug] in E; try discriminate. apply app_inv_head in E as ->. now split.
    - destruct v' as [n'|xs'|b'|s'| |n'|t'|s']; try destruct b'; cbn [value_debug] in E; try discriminate. rewrite <- !app_assoc in E. apply app_inv_head in E. rewrite !app_assoc in E. apply paren_cut in E as [E ->]; try apply number_debug. apply debug_number_inj in E as ->; auto.
    - destruct v' as [n'|xs'|b'|s'| |n'|t'|s']; try destruct b'; cbn [value_debug] in E; try discriminate. rewrite <- !app_assoc in E. apply app_inv_head in E. rewrite !app_assoc in E. apply paren_cut in E as [E ->]; try apply number_Z.
      assert (W : integer_written t (Z_to_str t')) by (rewrite <- E; now apply written_unique). split; [|reflexivity]. f_equal.
      destruct W as (ds & (_ & V & _) & W). destruct (proj2 (written_unique t' _) eq_refl) as (ds' & (Dd' & V' & _) & W'). rewrite W' in W. destruct (Z.ltb_spec t' 0), (Z.ltb_spec t 0); cbn [app] in W.
      + injection W as ->. lia.
      + exfalso. destruct (proj2 (written_unique t _) eq_refl) as (d2 & (Dd2 & V2 & _) & W2). rewrite E, W' in W2. destruct (Z.ltb_spec t' 0); [|lia]. destruct (Z.ltb_spec t 0); [lia|]. destruct Dd2 as [_ Dd2]. rewrite <- W2 in Dd2. discriminate.
      + exfalso. destruct Dd' as [_ Dd']. rewrite W in Dd'. discriminate.
      + rewrite W in V'. lia.
    - destruct v' as [n'|xs'|b'|s'| |n'|t'|s']; try destruct b'; cbn [value_debug] in E; try discriminate. rewrite <- !app_assoc in E. apply app_inv_head in E. apply str_debug_inj in E as [-> E]. apply app_inv_head in E as ->. now split.
  Qed.
End Strings.
