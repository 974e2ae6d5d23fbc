(** Reading back printed JSON. *)
From Coq Require Import String List ZArith NArith Bool Lia Sorted.
From Coq Require Import Floats.SpecFloat.
From Verif Require Import Base F64 F64Text Syntax Ext Json Spec Spec_syntax Spec_text Spec_json
  Base_proofs Float_proofs Exact_proofs Text_proofs Round_proofs Display_proofs.
Import ListNotations.
Local Open Scope N_scope.

(** ** Induction on documents *)
Section Induction.
  Context (P : json -> Prop) (h_null : P JNull) (h_bool : forall b, P (JBool b)) (h_num : forall n, P (JNum n)) (h_str : forall s, P (JStr s))
    (h_arr : forall xs, Forall P xs -> P (JArr xs)) (h_obj : forall kvs, Forall (fun kv => P (snd kv)) kvs -> P (JObj kvs)).
  Fixpoint json_ind' (j : json) : P j :=
    match j with
    | JNull => h_null | JBool b => h_bool b | JNum n => h_num n | JStr s => h_str s
    | JArr xs => h_arr xs ((fix go l : Forall P l := match l with [] => Forall_nil _ | x :: r => Forall_cons _ (json_ind' x) (go r) end) xs)
    | JObj kvs => h_obj kvs ((fix go l : Forall (fun kv => P (snd kv)) l := match l with [] => Forall_nil _ | x :: r => Forall_cons _ (json_ind' (snd x)) (go r) end) kvs)
    end.
End Induction.

(** ** Strings *)
Lemma hex_digit_val : forall n, n < 16 -> hex_val (hex_digit n) = Some n.
Proof.
  intros n H. unfold hex_digit, hex_val, is_digit. destruct (N.ltb_spec n 10) as [A|A].
  - replace ((48 <=? 48 + n) && (48 + n <=? 57)) with true by (symmetry; apply andb_true_iff; split; apply N.leb_le; lia). f_equal. lia.
  - replace ((48 <=? 87 + n) && (87 + n <=? 57)) with false by (symmetry; apply andb_false_iff; right; apply N.leb_gt; lia).
    replace ((97 <=? 87 + n) && (87 + n <=? 102)) with true by (symmetry; apply andb_true_iff; split; apply N.leb_le; lia). f_equal. lia.
Qed.
Lemma escape_length : forall c, (1 <= length (json_escape_char c))%nat.
Proof. intros c. unfold json_escape_char. repeat (destruct (_ =? _); [cbn; lia|]). destruct (_ <? _); cbn; lia. Qed.
Lemma read_escaped : forall c f rest, read_string (S f) (json_escape_char c ++ rest) = match read_string f rest with Some (t, r) => Some (c :: t, r) | None => None end.
Proof.
  intros c f rest. unfold json_escape_char.
  destruct (N.eqb_spec c 34) as [->|N1]; [reflexivity|]. destruct (N.eqb_spec c 92) as [->|N2]; [reflexivity|]. destruct (N.eqb_spec c 8) as [->|N3]; [reflexivity|].
  destruct (N.eqb_spec c 9) as [->|N4]; [reflexivity|]. destruct (N.eqb_spec c 10) as [->|N5]; [reflexivity|]. destruct (N.eqb_spec c 12) as [->|N6]; [reflexivity|]. destruct (N.eqb_spec c 13) as [->|N7]; [reflexivity|].
  destruct (N.ltb_spec c 32) as [L|L].
  - cbn [app read_string]. change (92 =? 34) with false. change (92 =? 92) with true. cbv iota. cbn [read_escape read_unicode].
    unfold read_unicode, read_hex4. change (hex_val 48) with (Some 0). rewrite (hex_digit_val (c / 16)) by (apply N.div_lt_upper_bound; lia). rewrite (hex_digit_val (c mod 16)) by (apply N.mod_lt; lia).
    replace (((0 * 16 + 0) * 16 + c / 16) * 16 + c mod 16) with c by (pose proof (N.div_mod c 16 ltac:(lia)); lia).
    replace ((55296 <=? c) && (c <=? 56319)) with false by (symmetry; apply andb_false_iff; left; apply N.leb_gt; lia).
    replace ((56320 <=? c) && (c <=? 57343)) with false by (symmetry; apply andb_false_iff; left; apply N.leb_gt; lia). reflexivity.
  - cbn [app read_string]. rewrite (proj2 (N.eqb_neq c 34) N1), (proj2 (N.eqb_neq c 92) N2). replace (c <? 32) with false by (symmetry; apply N.ltb_ge; lia). reflexivity.
Qed.
Lemma read_quoted : forall s f rest, (length s < f)%nat -> read_string f (concat (map json_escape_char s) ++ 34 :: rest) = Some (s, rest).
Proof.
  induction s as [|c s IH]; intros f rest H; (destruct f as [|f]; [cbn in H; lia|]).
  - reflexivity.
  - cbn [map concat]. rewrite <- app_assoc, read_escaped, IH by (cbn in H; lia). reflexivity.
Qed.
Lemma escaped_length : forall s, (length s <= length (concat (map json_escape_char s)))%nat.
Proof. induction s as [|c s IH]; cbn [map concat length]; [lia|]. rewrite app_length. pose proof (escape_length c). lia. Qed.
Lemma read_quote : forall s rest, exists body, json_quote s ++ rest = 34 :: body /\ read_string (S (length body)) body = Some (s, rest).
Proof.
  intros s rest. exists (concat (map json_escape_char s) ++ 34 :: rest). split; [unfold json_quote; cbn [app]; now rewrite <- app_assoc|].
  apply read_quoted. rewrite app_length. pose proof (escaped_length s). cbn. lia.
Qed.

(** ** Numbers *)
Definition stops (rest : str) : Prop := match rest with [] => True | c :: _ => c = 44 \/ c = 93 \/ c = 125 \/ c = 32 \/ c = 10 \/ c = 9 \/ c = 13 end.
Lemma stops_digit : forall rest, stops rest -> match rest with c :: _ => is_digit c = false | [] => True end.
Proof. intros [|c r] H; [exact I|]. destruct H as [->|[->|[->|[->|[->|[->| ->]]]]]]; reflexivity. Qed.
Lemma overflow_iff : forall a d, d <= 9 -> u64_overflow a d = false <-> a * 10 + d < 2 ^ 64.
Proof.
  intros a d H. unfold u64_overflow. assert (E1 : u64_max / 10 = 1844674407370955161) by reflexivity. assert (E2 : u64_max mod 10 = 5) by reflexivity. rewrite E1, E2.
  assert (E3 : 2 ^ 64 = 18446744073709551616) by reflexivity. rewrite E3.
  destruct (N.leb_spec 1844674407370955161 a), (N.ltb_spec 1844674407370955161 a), (N.ltb_spec 5 d); cbn [andb orb]; split; intros; try reflexivity; try discriminate; lia.
Qed.
Lemma digit_value : forall c, is_digit c = true -> c - 48 <= 9.
Proof. intros c H. apply is_digit_range in H. lia. Qed.
Lemma fold_value : forall ds acc, fold_left (fun a b => a * 10 + (b - 48)) ds acc = acc * 10 ^ N.of_nat (length ds) + digits_value ds.
Proof.
  intros ds acc. pose proof (digits_value_app) as A. unfold digits_value in *. revert acc. induction ds as [|c ds IH]; intros acc; cbn [fold_left length]; [change (N.of_nat 0) with 0; rewrite N.pow_0_r; lia|].
  rewrite IH, (IH (0 * 10 + (c - 48))). rewrite Nat2N.inj_succ, N.pow_succ_r by lia. lia.
Qed.
Lemma grow : forall ds acc, acc <= acc * 10 ^ N.of_nat (length ds) + digits_value ds.
Proof. intros. assert (1 <= 10 ^ N.of_nat (length ds)) by (pose proof (N.pow_nonzero 10 (N.of_nat (length ds))); lia). nia. Qed.
Lemma int_digits_read : forall ds acc rest, forallb is_digit ds = true -> acc * 10 ^ N.of_nat (length ds) + digits_value ds < 2 ^ 64 ->
  match rest with c :: _ => is_digit c = false | [] => True end -> int_digits acc (ds ++ rest) = inl (acc * 10 ^ N.of_nat (length ds) + digits_value ds, rest).
Proof.
  induction ds as [|c ds IH]; intros acc rest D B R.
  - cbn [app length]. change (N.of_nat 0) with 0. rewrite N.pow_0_r, N.mul_1_r. cbn [digits_value fold_left]. rewrite N.add_0_r. destruct rest as [|c r]; [reflexivity|]. cbn [int_digits]. now rewrite R.
  - cbn [forallb] in D. apply andb_true_iff in D as [D1 D2]. rewrite <- fold_value in *. cbn [fold_left] in *. rewrite fold_value in *. cbn [app int_digits]. rewrite D1.
    replace (u64_overflow acc (c - 48)) with false; [now apply IH|]. symmetry. apply overflow_iff; [now apply digit_value|]. pose proof (grow ds (acc * 10 + (c - 48))). lia.
Qed.
Lemma decimal_digits_read : forall ds acc after rest, forallb is_digit ds = true -> acc * 10 ^ N.of_nat (length ds) + digits_value ds < 2 ^ 64 ->
  match rest with c :: _ => is_digit c = false | [] => True end ->
  decimal_digits acc after (ds ++ rest) = (acc * 10 ^ N.of_nat (length ds) + digits_value ds, (after - Z.of_nat (length ds))%Z, rest).
Proof.
  induction ds as [|c ds IH]; intros acc after rest D B R.
  - cbn [app length]. change (N.of_nat 0) with 0. rewrite N.pow_0_r, N.mul_1_r. cbn [digits_value fold_left]. rewrite N.add_0_r, Z.sub_0_r. destruct rest as [|c r]; [reflexivity|]. cbn [decimal_digits]. now rewrite R.
  - cbn [forallb] in D. apply andb_true_iff in D as [D1 D2]. rewrite <- fold_value in *. cbn [fold_left] in *. rewrite fold_value in *. cbn [app decimal_digits]. rewrite D1.
    replace (u64_overflow acc (c - 48)) with false.
    + rewrite IH by assumption. do 2 f_equal. cbn [length]. lia.
    + symmetry. apply overflow_iff; [now apply digit_value|]. pose proof (grow ds (acc * 10 + (c - 48))). lia.
Qed.
Lemma parse_integer_read : forall pos n ds rest, decimal_text_of n ds -> n < 2 ^ 64 -> match rest with c :: _ => is_digit c = false | [] => True end ->
  parse_integer pos (ds ++ rest) = parse_number_tail pos n rest.
Proof.
  intros pos n ds rest ((Nd & Dd) & V & H) B R. destruct ds as [|c ds]; [congruence|]. destruct (N.eq_dec c 48) as [->|Nc].
  - specialize (H eq_refl). injection H as ->. cbn in V. subst n. cbn [app parse_integer]. destruct rest as [|d r]; [reflexivity|]. now rewrite R.
  - cbn [forallb] in Dd. apply andb_true_iff in Dd as [D1 D2]. unfold digits_value in V. cbn [fold_left] in V. rewrite fold_value in V. change (0 * 10 + (c - 48)) with (c - 48) in V.
    assert (E : parse_integer pos ((c :: ds) ++ rest) = match int_digits (c - 48) (ds ++ rest) with inl (sig, r') => parse_number_tail pos sig r' | inr (sig, r') => parse_long_integer pos sig r' end).
    { cbn [app]. unfold parse_integer. apply is_digit_range in D1 as D3. assert (c = 49 \/ c = 50 \/ c = 51 \/ c = 52 \/ c = 53 \/ c = 54 \/ c = 55 \/ c = 56 \/ c = 57) as Cs by lia.
      repeat (destruct Cs as [->|Cs]; [reflexivity|]). now subst c. }
    rewrite E, int_digits_read; [now rewrite V|assumption|now rewrite V|assumption].
Qed.
Lemma natural_read : forall n rest, n < 2 ^ 64 -> stops rest -> parse_integer true (N_to_str n ++ rest) = Some (JPos n, rest).
Proof.
  intros n rest H R. rewrite (parse_integer_read true n) by (try apply N_to_str_spec; try assumption; now apply stops_digit).
  destruct rest as [|c r]; [reflexivity|]. destruct R as [->|[->|[->|[->|[->|[->| ->]]]]]]; reflexivity.
Qed.
Lemma negative_read : forall n rest, 0 < n <= 2 ^ 63 -> stops rest -> parse_integer false (N_to_str n ++ rest) = Some (JNeg (- Z.of_N n), rest).
Proof.
  intros n rest H R. assert (2 ^ 63 < 2 ^ 64) by reflexivity. rewrite (parse_integer_read false n) by (try apply N_to_str_spec; try lia; now apply stops_digit).
  assert (E1 : (n =? 0) = false) by (apply N.eqb_neq; lia). assert (E2 : (9223372036854775808 <? n) = false) by (apply N.ltb_ge; assert (2 ^ 63 = 9223372036854775808) by reflexivity; lia).
  destruct rest as [|c r]; [cbn [parse_number_tail]; rewrite E1, E2; reflexivity|]. destruct R as [->|[->|[->|[->|[->|[->| ->]]]]]]; cbn [parse_number_tail]; rewrite E1, E2; reflexivity.
Qed.

(** dividing an exact significand by an exact power of ten rounds like reading the decimal *)
Local Open Scope Z_scope.
Lemma five_small : forall j, 0 <= j <= 22 -> 5 ^ j < 2 ^ 53.
Proof. intros j H. apply Z.le_lt_trans with (5 ^ 22); [apply Z.pow_le_mono_r; lia|reflexivity]. Qed.
Lemma parts_read : forall n j, (Z.of_N n < 2 ^ 53) -> 0 < j <= 22 -> from_parts_loop 4 (f_of_Z (Z.of_N n)) (- j) = Some (f_of_dec false n (- j)).
Proof.
  intros n j Hn Hj. cbn [from_parts_loop]. replace (Z.abs (- j)) with j by lia. replace (j <=? 308) with true by (symmetry; apply Z.leb_le; lia).
  replace (0 <=? - j) with false by (symmetry; apply Z.leb_gt; lia). f_equal.
  assert (P5 : 0 < 5 ^ j) by (apply Z.pow_pos_nonneg; lia). destruct (5 ^ j) as [|u|u] eqn:E5; try lia. pose proof (five_small j ltac:(lia)) as F5. rewrite E5 in F5.
  assert (T : f_of_dec false 1 j = S754_finite false (int_m u) (int_e u + j)).
  { rewrite dec_rnd. unfold ten. replace (Z.max j 0) with j by lia. replace (Z.max (- j) 0) with 0 by lia. change (10 ^ 0) with 1. rewrite Z.mul_1_l, ten_two_five by lia. rewrite E5, Z.mul_comm. apply exact_form; lia. }
  rewrite T. destruct n as [|p].
  - reflexivity.
  - cbn [Z.of_N] in *. rewrite f_of_Z_pos by assumption. unfold f_div, SFdiv. cbn [xorb]. rewrite div_rnd by lia. rewrite dec_rnd. unfold ten. replace (Z.max (- j) 0) with 0 by lia. replace (Z.max (- - j) 0) with j by lia. change (10 ^ 0) with 1. rewrite Z.mul_1_r.
    apply rnd_value; try lia; try (apply Z.mul_pos_pos; [lia|apply pw_pos]); try (apply Z.pow_pos_nonneg; lia).
    rewrite (int_m_val p Hn), (int_m_val u F5). pose proof (int_e_range p Hn). pose proof (int_e_range u F5). rewrite (ten_two_five j) by lia. rewrite E5.
    set (a := int_e p) in *. set (b := int_e u) in *.
    assert (K : 2 ^ (- a) * pw (a - (b + j)) * 2 ^ j = 2 ^ (- b) * pw (b + j - a)).
    { unfold pw. destruct (Z.le_gt_cases a (b + j)) as [L|L].
      - replace (Z.max (a - (b + j)) 0) with 0 by lia. replace (Z.max (b + j - a) 0) with (b + j - a) by lia. change (2 ^ 0) with 1. rewrite Z.mul_1_r, <- !Z.pow_add_r by lia. f_equal. lia.
      - replace (Z.max (a - (b + j)) 0) with (a - (b + j)) by lia. replace (Z.max (b + j - a) 0) with 0 by lia. change (2 ^ 0) with 1. rewrite Z.mul_1_r, <- !Z.pow_add_r by lia. f_equal. lia. }
    transitivity (Zpos p * Zpos u * (2 ^ (- a) * pw (a - (b + j)) * 2 ^ j)); [ring|]. rewrite K. ring.
Qed.
Local Open Scope N_scope.

Section Reading.
  Context {X : Ext}.
  Lemma fold_app_value : forall a b, digits_value (a ++ b) = digits_value a * 10 ^ N.of_nat (length b) + digits_value b.
  Proof. exact digits_value_app. Qed.
  Lemma float_read : forall pos a b rest, decimal_text_of (digits_value a) a -> digits b -> digits_value (a ++ b) < 2 ^ 53 -> (length b <= 22)%nat -> stops rest ->
    parse_integer pos (a ++ lit "." ++ b ++ rest) = Some (JFlt (if pos : bool then f_of_dec false (digits_value (a ++ b)) (- Z.of_nat (length b)) else f_neg (f_of_dec false (digits_value (a ++ b)) (- Z.of_nat (length b)))), rest).
  Proof.
    intros pos a b rest Ha (Nb & Db) V L R. rewrite digits_value_app in V.
    assert (B53 : 2 ^ 53 < 2 ^ 64) by reflexivity.
    assert (Va : digits_value a < 2 ^ 64). { pose proof (grow b (digits_value a)). lia. }
    rewrite (parse_integer_read pos (digits_value a) a) by (assumption || reflexivity). change (lit "." ++ b ++ rest) with (46 :: b ++ rest). cbn [parse_number_tail]. unfold parse_decimal.
    destruct (b ++ rest) as [|c r] eqn:E; [destruct b; [congruence|discriminate]|].
    assert (Dc : is_digit c = true). { destruct b as [|c' b']; [congruence|]. cbn [app] in E. injection E as <- _. cbn [forallb] in Db. now apply andb_true_iff in Db as [Db _]. }
    rewrite Dc, <- E. rewrite decimal_digits_read; [|assumption|lia|now apply stops_digit].
    rewrite digits_value_app. set (n := digits_value a * 10 ^ N.of_nat (length b) + digits_value b) in *.
    assert (Lb : (0 < Z.of_nat (length b) <= 22)%Z) by (destruct b; [congruence|cbn [length] in *; lia]).
    assert (F : f64_from_parts pos n (0 + (0 - Z.of_nat (length b))) = Some (if pos then f_of_dec false n (- Z.of_nat (length b)) else f_neg (f_of_dec false n (- Z.of_nat (length b))))).
    { unfold f64_from_parts. replace (0 + (0 - Z.of_nat (length b)))%Z with (- Z.of_nat (length b))%Z by lia. rewrite parts_read; [reflexivity| |exact Lb].
      assert (E53 : (2 ^ 53)%Z = Z.of_N (2 ^ 53)) by reflexivity. rewrite E53. lia. }
    unfold finish_float. destruct rest as [|d r']; [now rewrite F|]. destruct R as [->|[->|[->|[->|[->|[->| ->]]]]]]; now rewrite F.
  Qed.
  Lemma json_float_text : forall x, is_finite x = true -> representable x -> short_text (json_float x) -> float_text (json_float x) x.
  Proof.
    intros [z|z| |s m e] F R S; try discriminate.
    - apply (float_text_iff (json_float (S754_zero z))). destruct z; reflexivity.
    - unfold json_float in *. destruct (digits_of m e) as [ds k] eqn:D. assert (R' : representable (S754_finite false m e)) by exact R.
      destruct (digits_of_reads s m e ds k R' D) as [Dd V]. destruct ((-4 <=? k)%Z && (k <=? 16)%Z).
      + destruct (place_point ds k) as [ip fp] eqn:P. destruct (place_point_spec ds k ip fp Dd P) as (P1 & P2 & P3). specialize (P3 s). rewrite V in P3.
        set (fp' := match fp with [] => [48] | _ => fp end) in *.
        assert (Df : forallb is_digit fp' = true) by (unfold fp'; destruct fp; [reflexivity|exact P2]).
        assert (V' : f_of_dec s (digits_value (ip ++ fp')) (0 - Z.of_nat (length fp')) = S754_finite s m e).
        { unfold fp'. destruct fp as [|c r]; [|rewrite <- P3; f_equal; lia]. rewrite <- P3. rewrite app_nil_r. cbn [length Z.of_nat Z.opp].
          rewrite digits_value_app. change (digits_value [48]) with 0. change (N.of_nat (length [48])) with (Z.to_N 1). rewrite N.add_0_r.
          change (0 - Z.of_nat 1)%Z with (0 - 1)%Z. now rewrite dec_shift by lia. }
        rewrite <- V'.
        assert (G : forall sg, sign_text sg s -> float_text (sg ++ (ip ++ lit "." ++ fp') ++ []) (f_of_dec s (digits_value (ip ++ fp')) (0 - Z.of_nat (length fp')))).
        { intros sg Hs. apply decimal_text; [assumption| |constructor]. apply with_point; [apply P1|assumption|]. intros K. apply app_eq_nil in K as [K _]. destruct P1 as [P1 _]. now apply P1. }
        destruct s; [specialize (G (lit "-") minus_sign)|specialize (G [] no_sign)]; rewrite app_nil_r in G; exact G.
      + exfalso. destruct S as (sg & neg & a & b & Hs & Ha & Hb & _ & _ & E).
        assert (I : In 101 (sg ++ a ++ lit "." ++ b)).
        { rewrite <- E. unfold with_sign, sci. destruct s; [right|]; apply in_or_app; right; now left. }
        assert (ND : forall t, forallb is_digit t = true -> In 101 t -> False). { intros t Dt It. rewrite forallb_forall in Dt. apply Dt in It. discriminate. }
        apply in_app_or in I as [I|I]; [destruct Hs as [[-> _]|[-> _]]; cbn in I; [contradiction|]; destruct I as [I|[]]; discriminate|].
        apply in_app_or in I as [I|I]; [apply (ND a); [apply Ha|assumption]|]. apply in_app_or in I as [I|I]; [destruct I as [I|[]]; discriminate|]. apply (ND b); [apply Hb|assumption].
  Qed.
  Lemma float_text_unique : forall s x y, float_text s x -> float_text s y -> x = y.
  Proof. intros s x y A B. apply float_text_iff in A, B. congruence. Qed.
  Lemma number_read : forall d n rest, plain_number n -> stops rest -> read_value (S d) (json_num n ++ rest) = Some (JNum n, rest).
  Proof.
    assert (SK : forall c r, is_digit c = true -> skip_ws (c :: r) = c :: r).
    { intros c r H. apply is_digit_range in H. cbn [skip_ws]. unfold json_ws. repeat (rewrite (proj2 (N.eqb_neq _ _)) by lia). reflexivity. }
    assert (P : forall d c r o, is_digit c = true -> parse_integer true (c :: r) = o -> read_value (S d) (c :: r) = num_result o).
    { intros d c r o H <-. cbn [read_value]. rewrite SK by assumption. apply is_digit_range in H as H'. repeat (rewrite (proj2 (N.eqb_neq c _)) by lia). now rewrite H. }
    assert (M : forall d r o, parse_integer false r = o -> read_value (S d) (45 :: r) = num_result o).
    { intros d r o <-. reflexivity. }
    assert (P' : forall d ds rest o, digits ds -> parse_integer true (ds ++ rest) = o -> read_value (S d) (ds ++ rest) = num_result o).
    { intros d [|c ds] rest o [Nd Dd] H; [congruence|]. apply P; [|exact H]. cbn [forallb] in Dd. now apply andb_true_iff in Dd as [Dd _]. }
    intros d n rest Hn R. destruct Hn as [n H|z H|x F Rx S].
    - cbn [json_num]. rewrite (P' d (N_to_str n) rest (Some (JPos n, rest))); [reflexivity|apply N_to_str_spec|]. now apply natural_read.
    - cbn [json_num]. destruct z as [|p|p]; [lia|lia|]. change (Z_to_str (Zneg p) ++ rest) with (45 :: N_to_str (Npos p) ++ rest).
      rewrite (M d (N_to_str (Npos p) ++ rest) (Some (JNeg (- Z.of_N (Npos p)), rest))); [reflexivity|]. apply negative_read; [|assumption].
      split; [lia|]. assert (E : Z.of_N (2 ^ 63) = (2 ^ 63)%Z) by reflexivity. lia.
    - change (json_print (JNum (JFlt x))) with (json_float x) in S. pose proof (json_float_text x F Rx S) as T. cbn [json_num]. destruct S as (sg & neg & a & b & Hs & Ha & Hb & V & L & E). rewrite E in *.
      assert (Ex : x = f_of_dec neg (digits_value (a ++ b)) (0 - Z.of_nat (length b))).
      { apply (float_text_unique (sg ++ a ++ lit "." ++ b)); [assumption|]. replace (sg ++ a ++ lit "." ++ b) with (sg ++ (a ++ lit "." ++ b) ++ []) by now rewrite app_nil_r.
        apply decimal_text; [destruct Hs as [[-> ->]|[-> ->]]; constructor| |constructor]. apply with_point; [apply Ha|apply Hb|]. intros K. apply app_eq_nil in K as [_ K]. destruct Hb as [Nb _]. now apply Nb. }
      rewrite Z.sub_0_l in Ex. destruct Hs as [[-> ->]|[-> ->]].
      + cbn [app]. rewrite <- !app_assoc. erewrite P'; [|apply Ha|apply float_read; assumption]. cbn [num_result]. now rewrite Ex.
      + change ((lit "-" ++ a ++ lit "." ++ b) ++ rest) with (45 :: (a ++ lit "." ++ b) ++ rest). rewrite <- !app_assoc. erewrite M; [|apply float_read; assumption]. cbn [num_result]. rewrite Ex, dec_sign. reflexivity.
  Qed.
  (** ** Arrays and objects *)
  Definition reads_back (n : nat) (j : json) : Prop := forall rest, stops rest -> read_value n (json_print j ++ rest) = Some (j, rest).
  Definition starts_ok (s : str) : Prop := match s with c :: _ => json_ws c = false /\ c <> 93 /\ c <> 44 /\ c <> 125 | [] => False end.
  Lemma digit_starts : forall c r, is_digit c = true -> starts_ok (c :: r).
  Proof. intros c r H. apply is_digit_range in H. cbn. unfold json_ws. repeat (rewrite (proj2 (N.eqb_neq c _)) by lia). repeat split; lia. Qed.
  Lemma document_starts : forall j, document j -> starts_ok (json_print j).
  Proof.
    intros j [|[] |n Hn|s|xs H|kvs Ho H]; try (cbn; repeat split; discriminate). destruct Hn as [n H|z H|x F Rx S].
    - change (json_print (JNum (JPos n))) with (N_to_str n). destruct (N_to_str_spec n) as ((Nd & Dd) & _). destruct (N_to_str n) as [|c r]; [congruence|]. apply digit_starts. cbn [forallb] in Dd. now apply andb_true_iff in Dd as [Dd _].
    - destruct z as [|p|p]; try lia. cbn. repeat split; discriminate.
    - destruct S as (sg & neg & a & b & Hs & ((Na & Da) & _) & Hb & V & L & ->). destruct Hs as [[-> ->]|[-> ->]]; [|cbn; repeat split; discriminate].
      destruct a as [|c r]; [congruence|]. cbn [app]. apply digit_starts. cbn [forallb] in Da. now apply andb_true_iff in Da as [Da _].
  Qed.
  Lemma starts_skip : forall s t, starts_ok s -> skip_ws (s ++ t) = s ++ t.
  Proof. intros [|c r] t H; [contradiction|]. destruct H as (H & _). cbn [app skip_ws]. now rewrite H. Qed.
  Lemma join_tail : forall p ps, join [44] (p :: ps) = p ++ concat (map (cons 44) ps).
  Proof.
    intros p ps. revert p. induction ps as [|q ps IH]; intros p; [cbn; now rewrite app_nil_r|]. change (join [44] (p :: q :: ps)) with (p ++ [44] ++ join [44] (q :: ps)). rewrite IH. reflexivity.
  Qed.
  Lemma not_close : forall A (g : str -> option A) s, starts_ok s -> match skip_ws s with 93 :: _ => None | s1 => g s1 end = g s.
  Proof.
    intros A g [|c r] H; [contradiction|]. destruct H as (W & N93 & _). cbn [skip_ws]. rewrite W. clear W. destruct c as [|c]; [reflexivity|]. do 7 (try (destruct c as [c|c|]; try reflexivity; try (exfalso; congruence))).
  Qed.
  Lemma not_close_comma : forall A (h k g : str -> option A) s, starts_ok s -> match skip_ws s with 93 :: r => h r | 44 :: r => k r | s1 => g s1 end = g s.
  Proof.
    intros A h k g [|c r] H; [contradiction|]. destruct H as (W & N93 & N44 & _). cbn [skip_ws]. rewrite W. clear W. destruct c as [|c]; [reflexivity|]. do 7 (try (destruct c as [c|c|]; try reflexivity; try (exfalso; congruence))).
  Qed.
  Lemma starts_app : forall s t, starts_ok s -> starts_ok (s ++ t).
  Proof. intros [|c r] t H; [contradiction|exact H]. Qed.
  Lemma elems_tail : forall (rec : str -> option (json * str)) xs fuel rest, (length xs < fuel)%nat ->
    Forall (fun x => starts_ok (json_print x) /\ forall rest, stops rest -> rec (json_print x ++ rest) = Some (x, rest)) xs ->
    read_elems rec fuel false (concat (map (cons 44) (map json_print xs)) ++ 93 :: rest) = Some (xs, rest).
  Proof.
    induction xs as [|x xs IH]; intros fuel rest L F; (destruct fuel as [|fuel]; [cbn in L; lia|]); [reflexivity|].
    inversion F as [|? ? [S Hx] F']; subst. cbn [map concat app]. cbn [read_elems skip_ws]. change (json_ws 44) with false. cbv iota. rewrite <- app_assoc.
    refine (eq_trans (not_close _ (fun s1 => match rec s1 with Some (v, r1) => match read_elems rec fuel false r1 with Some (vs, r2) => Some (v :: vs, r2) | None => None end | None => None end) _ (starts_app _ _ S)) _).
    cbv beta. rewrite Hx by (destruct xs; cbn; tauto). now rewrite IH by (try assumption; cbn in L; lia).
  Qed.
  Lemma elems_read : forall (rec : str -> option (json * str)) xs fuel rest, (length xs < fuel)%nat ->
    Forall (fun x => starts_ok (json_print x) /\ forall rest, stops rest -> rec (json_print x ++ rest) = Some (x, rest)) xs ->
    read_elems rec fuel true (join [44] (map json_print xs) ++ 93 :: rest) = Some (xs, rest).
  Proof.
    intros rec [|x xs] fuel rest L F; (destruct fuel as [|fuel]; [cbn in L; lia|]); [reflexivity|].
    inversion F as [|? ? [S Hx] F']; subst. cbn [map]. rewrite join_tail, <- app_assoc. cbn [read_elems].
    refine (eq_trans (not_close_comma _ (fun r => Some ([], r)) (fun _ => None) (fun s1 => match rec s1 with Some (v, r1) => match read_elems rec fuel false r1 with Some (vs, r2) => Some (v :: vs, r2) | None => None end | None => None end) _ (starts_app _ _ S)) _).
    cbv beta. rewrite Hx by (destruct xs; cbn; tauto). now rewrite elems_tail by (try assumption; cbn in L; lia).
  Qed.
  Definition member_text (kv : str * json) : str := json_quote (fst kv) ++ 58 :: json_print (snd kv).
  Lemma binsert_last : forall V k (v : V) m, Forall (fun kv => str_cmp (fst kv) k = Lt) m -> binsert k v m = m ++ [(k, v)].
  Proof.
    intros V k v m H. induction H as [|[k' v'] m H _ IH]; [reflexivity|]. cbn [binsert app]. cbn [fst] in H. rewrite str_cmp_antisym, H. cbn [CompOpp]. now rewrite IH.
  Qed.
  Lemma member_step : forall (rec : str -> option (json * str)) k v rest, (forall rest, stops rest -> rec (json_print v ++ rest) = Some (v, rest)) -> stops rest -> forall f acc,
    (match skip_ws (member_text (k, v) ++ rest) with
     | 34 :: r => match read_string (S (length r)) r with
                  | Some (k, r1) => match skip_ws r1 with 58 :: r2 => match rec r2 with Some (v, r3) => read_members rec f false (binsert k v acc) r3 | None => None end | _ => None end
                  | None => None end
     | _ => None end) = read_members rec f false (binsert k v acc) rest.
  Proof.
    intros rec k v rest Hv R f acc. unfold member_text. cbn [fst snd]. rewrite <- app_assoc. destruct (read_quote k ((58 :: json_print v) ++ rest)) as (body & -> & Q). cbn [skip_ws]. change (json_ws 34) with false. cbv iota.
    rewrite Q. cbn [app skip_ws]. change (json_ws 58) with false. cbv iota. now rewrite Hv.
  Qed.
  Lemma members_tail : forall (rec : str -> option (json * str)) kvs fuel acc rest, (length kvs < fuel)%nat ->
    in_key_order (map fst kvs) -> Forall (fun kv => Forall (fun kv' => str_cmp (fst kv') (fst kv) = Lt) acc) kvs ->
    Forall (fun kv => forall rest, stops rest -> rec (json_print (snd kv) ++ rest) = Some (snd kv, rest)) kvs ->
    read_members rec fuel false acc (concat (map (cons 44) (map member_text kvs)) ++ 125 :: rest) = Some (acc ++ kvs, rest).
  Proof.
    induction kvs as [|[k v] kvs IH]; intros fuel acc rest L O A F; (destruct fuel as [|fuel]; [cbn in L; lia|]); [now rewrite app_nil_r|].
    inversion F as [|? ? Hv F']; subst. inversion A as [|? ? Ak A']; subst. inversion O as [|? ? O' Ok]; subst. cbn [fst snd] in *.
    cbn [map concat app]. cbn [read_members skip_ws]. change (json_ws 44) with false. cbv iota. rewrite <- app_assoc.
    rewrite (member_step rec k v (concat (map (cons 44) (map member_text kvs)) ++ 125 :: rest) Hv) by (destruct kvs; cbn; tauto).
    rewrite binsert_last by assumption. rewrite IH; [now rewrite <- app_assoc|cbn in L; lia|assumption| |assumption].
    apply Forall_forall. intros [k' v'] I. rewrite Forall_forall in A', Ok. apply Forall_app. split; [apply (A' _ I)|]. constructor; [|constructor]. cbn [fst]. apply Ok. now apply (in_map fst) in I.
  Qed.
  Lemma members_read : forall (rec : str -> option (json * str)) kvs fuel rest, (length kvs < fuel)%nat -> in_key_order (map fst kvs) ->
    Forall (fun kv => forall rest, stops rest -> rec (json_print (snd kv) ++ rest) = Some (snd kv, rest)) kvs ->
    read_members rec fuel true [] (join [44] (map member_text kvs) ++ 125 :: rest) = Some (kvs, rest).
  Proof.
    intros rec [|[k v] kvs] fuel rest L O F; (destruct fuel as [|fuel]; [cbn in L; lia|]); [reflexivity|].
    inversion F as [|? ? Hv F']; subst. inversion O as [|? ? O' Ok]; subst. cbn [fst snd] in *.
    cbn [map]. rewrite join_tail, <- app_assoc. cbn [read_members].
    pose proof (member_step rec k v (concat (map (cons 44) (map member_text kvs)) ++ 125 :: rest) Hv ltac:(destruct kvs; cbn; tauto) fuel []) as M.
    assert (S34 : exists r, skip_ws (member_text (k, v) ++ concat (map (cons 44) (map member_text kvs)) ++ 125 :: rest) = 34 :: r) by (eexists; reflexivity).
    destruct S34 as (r & E). rewrite E in M |- *. rewrite M. cbn [binsert]. rewrite members_tail; [reflexivity|cbn in L; lia|assumption| |assumption].
    apply Forall_forall. intros [k' v'] I. rewrite Forall_forall in Ok. constructor; [|constructor]. cbn [fst]. apply Ok. now apply (in_map fst) in I.
  Qed.
  Lemma count_length : forall (l : list str), (forall s, In s l -> s <> []) -> (length l <= length (join [44%N] l))%nat.
  Proof.
    intros [|p ps] H; [cbn; lia|]. rewrite join_tail, app_length. assert (p <> []) by (apply H; now left). assert (length ps <= length (concat (map (cons 44%N) ps)))%nat.
    { clear. induction ps as [|q ps IH]; cbn; [lia|]. rewrite app_length. lia. } destruct p; [congruence|]. cbn [length]. lia.
  Qed.
  Lemma print_nonempty : forall j, document j -> json_print j <> [].
  Proof. intros j H K. apply document_starts in H. rewrite K in H. exact H. Qed.
  Lemma list_max_in : forall l x n, In x l -> (list_max l <= n)%nat -> (x <= n)%nat.
  Proof. intros l x n I L. apply list_max_le in L. rewrite Forall_forall in L. now apply L. Qed.
  Lemma read_print : forall j, document j -> forall n, (nesting j < n)%nat -> reads_back n j.
  Proof.
    induction j as [|b|n|s|xs IH|kvs IH] using json_ind'; intros D d Hd rest R; (destruct d as [|d]; [lia|]).
    - reflexivity.
    - destruct b; reflexivity.
    - inversion D; subst. now apply number_read.
    - change (json_print (JStr s)) with (json_quote s). destruct (read_quote s rest) as (body & E & Q). rewrite E. cbn [read_value skip_ws]. change (json_ws 34) with false. cbv iota. change (34 =? 34) with true. cbv iota. now rewrite Q.
    - inversion D as [| | | |? Dx|]; subst. cbn [nesting] in Hd. destruct d as [|d]; [lia|].
      change (json_print (JArr xs) ++ rest) with (91 :: (join [44] (map json_print xs) ++ [93]) ++ rest). rewrite <- app_assoc. change ([93] ++ rest) with (93 :: rest).
      remember (join [44] (map json_print xs) ++ 93 :: rest) as t eqn:Et. 
      assert (E : read_elems (read_value (S d)) (S (length t)) true t = Some (xs, rest)).
      { rewrite Et at 2. apply elems_read.
        - rewrite Et, app_length. pose proof (count_length (map json_print xs)) as C. rewrite map_length in C. cbn [length]. assert (length xs <= length (join [44%N] (map json_print xs)))%nat; [|lia]. apply C.
          intros s I. apply in_map_iff in I as (x & <- & I). rewrite Forall_forall in Dx. apply print_nonempty, Dx, I.
        - rewrite Forall_forall in *. intros x I. split; [now apply document_starts, Dx|]. apply IH; [assumption|now apply Dx|].
          assert (nesting x <= d)%nat; [|lia]. apply (list_max_in (map nesting xs)); [now apply in_map|lia]. }
      cbn [read_value skip_ws]. change (json_ws 91) with false. cbv iota. change (91 =? 34) with false. change (91 =? 91) with true. cbv iota. change (match read_elems (read_value (S d)) (S (length t)) true t with Some (vs, r') => Some (JArr vs, r') | None => None end = Some (JArr xs, rest)). now rewrite E.
    - inversion D as [| | | | |? O Dx]; subst. cbn [nesting] in Hd. destruct d as [|d]; [lia|].
      assert (Ep : json_print (JObj kvs) = 123 :: join [44] (map member_text kvs) ++ [125]).
      { cbn [json_print]. do 3 f_equal. apply map_ext. intros [k v]. reflexivity. }
      rewrite Ep. cbn [app]. rewrite <- app_assoc. change ([125] ++ rest) with (125 :: rest).
      remember (join [44] (map member_text kvs) ++ 125 :: rest) as t eqn:Et. 
      assert (E : read_members (read_value (S d)) (S (length t)) true [] t = Some (kvs, rest)).
      { rewrite Et at 2. apply members_read; [| assumption|].
        - rewrite Et, app_length. pose proof (count_length (map member_text kvs)) as C. rewrite map_length in C. cbn [length]. assert (length kvs <= length (join [44%N] (map member_text kvs)))%nat; [|lia]. apply C.
          intros s I. apply in_map_iff in I as ([k v] & <- & I). unfold member_text, json_quote. discriminate.
        - rewrite Forall_forall in *. intros kv I. apply (IH kv); [assumption|now apply Dx|].
          assert (nesting (snd kv) <= d)%nat; [|lia]. apply (list_max_in (map (fun kv => nesting (snd kv)) kvs)); [now apply (in_map (fun kv => nesting (snd kv)))|lia]. }
      cbn [read_value skip_ws]. change (json_ws 123) with false. cbv iota. change (123 =? 34) with false. change (123 =? 91) with false. change (123 =? 123) with true. cbv iota.
      change (match read_members (read_value (S d)) (S (length t)) true [] t with Some (vs, r') => Some (JObj vs, r') | None => None end = Some (JObj kvs, rest)). now rewrite E.
  Qed.
  Lemma round_trip : forall j, document j -> (nesting j <= 127)%nat -> json_parse (json_print j) = Some j.
  Proof.
    intros j D N. unfold json_parse. rewrite <- (app_nil_r (json_print j)). rewrite (read_print j D json_depth) by (unfold json_depth; lia || exact I). reflexivity.
  Qed.
End Reading.
