(** Numbers as text: [F64Text] against [Spec_text]. *)
From Coq Require Import String List ZArith NArith Bool Lia.
From Coq Require Import Floats.SpecFloat.
From Verif Require Import Base F64 F64Text Syntax Spec Spec_syntax Spec_numbers Spec_text Base_proofs Rounding_proofs.
Import ListNotations.
Local Open Scope Z_scope.

(** the same texts, with the number computed *)
Lemma number_int : forall ds, digits ds -> number ds (f_of_dec false (digits_value ds) 0).
Proof. intros ds H. apply whole_number; [assumption|apply denotes_dec]. Qed.
Lemma number_point : forall ds fs, forallb is_digit ds = true -> digits fs -> number (ds ++ lit "." ++ fs) (f_of_dec false (digits_value (ds ++ fs)) (- Z.of_nat (length fs))).
Proof. intros ds fs H1 H2. apply point_number; [assumption|assumption|apply denotes_dec]. Qed.
Lemma decimal_text : forall sg neg m a b ex e, sign_text sg neg -> mantissa_text m a b -> exponent_text ex e ->
  float_text (sg ++ m ++ ex) (f_of_dec neg (digits_value (a ++ b)) (e - Z.of_nat (length b))).
Proof. intros sg neg m a b ex e H1 H2 H3. apply (decimal_number sg neg m a b ex e); try assumption. apply denotes_dec. Qed.
Lemma dec_digits : forall ds, dec_N ds = digits_value ds.
Proof. reflexivity. Qed.
Lemma span_app : forall ds r, forallb is_digit ds = true -> match r with c :: _ => is_digit c = false | [] => True end -> span_digits (ds ++ r) = (ds, r).
Proof.
  induction ds as [|d ds IH]; intros r H R; cbn [app].
  - destruct r as [|c r]; [reflexivity|]. cbn [span_digits]. now rewrite R.
  - cbn in H. apply andb_true_iff in H as [A B]. cbn [span_digits]. rewrite A, (IH r B R). reflexivity.
Qed.
Lemma span_split : forall s ds r, span_digits s = (ds, r) -> s = ds ++ r /\ forallb is_digit ds = true /\ match r with c :: _ => is_digit c = false | [] => True end.
Proof.
  induction s as [|c s IH]; intros ds r H; cbn [span_digits] in H.
  - injection H as <- <-. repeat split.
  - destruct (is_digit c) eqn:D.
    + destruct (span_digits s) as [d r'] eqn:E. injection H as <- <-. destruct (IH _ _ eq_refl) as (-> & A & B). cbn. rewrite D, A. repeat split. exact B.
    + injection H as <- <-. repeat split. exact D.
Qed.
Lemma head_cases : forall {T} (s : str) (A B : str -> T) (C : T),
  match s with 45%N :: r => A r | 43%N :: r => B r | _ => C end =
  match s with x :: r => if (x =? 45)%N then A r else if (x =? 43)%N then B r else C | [] => C end.
Proof.
  intros T [|x r] A B C; [reflexivity|]. destruct (N.eqb_spec x 45) as [->|N1]; [reflexivity|]. destruct (N.eqb_spec x 43) as [->|N2]; [reflexivity|].
  destruct x as [|p]; [reflexivity|].
  do 6 (destruct p as [p|p|]; try reflexivity); congruence.
Qed.
(** the optional sign in front *)
Lemma sign_cases : forall (s : str), exists sg neg r, sign_text sg neg /\ s = sg ++ r
  /\ (forall T (A : str -> T) (B : str -> T), match s with 45%N :: r => A r | 43%N :: r => B r | _ => B s end = if neg then A r else B r).
Proof.
  intros [|x r].
  - exists [], false, []. split; [constructor|]. split; reflexivity.
  - destruct (N.eqb_spec x 45) as [->|N1]; [exists (lit "-"), true, r; split; [constructor|]; split; reflexivity|].
    destruct (N.eqb_spec x 43) as [->|N2]; [exists (lit "+"), false, r; split; [constructor|]; split; reflexivity|].
    exists [], false, (x :: r). split; [constructor|]. split; [reflexivity|]. intros T A B. rewrite (head_cases (x :: r) A B (B (x :: r))).
    apply N.eqb_neq in N1, N2. now rewrite N1, N2.
Qed.
Definition unsigned (s : str) : Prop := match s with 45%N :: _ | 43%N :: _ => False | _ => True end.
Lemma not_signed : forall s, hd 0%N s <> 45%N -> hd 0%N s <> 43%N -> unsigned s.
Proof.
  intros s A B. unfold unsigned. generalize (head_cases s (fun _ => False) (fun _ => False) True). cbv beta. intros ->. destruct s as [|x r]; [exact I|]. cbn [hd] in A, B.
  apply N.eqb_neq in A, B. now rewrite A, B.
Qed.
Lemma digit_not_sign : forall d ds, is_digit d = true -> unsigned (d :: ds).
Proof. intros d ds H. apply not_signed; cbn [hd]; intros ->; discriminate. Qed.
Lemma signed_head : forall sg neg r, sign_text sg neg -> (sg = [] -> unsigned r) ->
  forall T (A B : str -> T), match sg ++ r with 45%N :: r => A r | 43%N :: r => B r | _ => B (sg ++ r) end = if neg then A r else B r.
Proof.
  intros sg neg r Sg H T A B. destruct Sg; [|reflexivity|reflexivity]. cbn [app]. specialize (H eq_refl). rewrite (head_cases r A B (B r)).
  destruct r as [|x r]; [reflexivity|]. destruct (N.eqb_spec x 45) as [->|N1]; [contradiction|]. destruct (N.eqb_spec x 43) as [->|N2]; [contradiction|]. reflexivity.
Qed.
Lemma read_exp_iff : forall s e, read_exp s = Some e <-> exponent_text s e.
Proof.
  intros s e. split.
  - destruct s as [|c r]; cbn [read_exp]; [intros [= <-]; constructor|]. destruct ((c =? 101)%N || (c =? 69)%N) eqn:C; [|discriminate].
    assert (C' : c = 101%N \/ c = 69%N) by (apply orb_true_iff in C as [C|C]; apply N.eqb_eq in C; auto).
    destruct (sign_cases r) as (sg & neg & r1 & Sg & -> & E). specialize (E (bool * list N)%type (fun r' => (true, r')) (fun r' => (false, r'))). cbv beta in E. unfold str in *. rewrite E. clear E.
    replace (if neg then (true, r1) else (false, r1)) with (neg, r1) by (destruct neg; reflexivity).
    destruct (span_digits r1) as [d r2] eqn:E. apply span_split in E as (-> & A & B).
    destruct d as [|d ds]; [discriminate|]. destruct r2; [|discriminate]. intros [= <-]. rewrite app_nil_r.
    apply (some_exponent c sg neg (d :: ds)); [assumption|assumption|split; [discriminate|assumption]].
  - intros H. destruct H as [|c sg neg ds C Sg [D1 D2]]; [reflexivity|]. cbn [read_exp].
    replace ((c =? 101)%N || (c =? 69)%N) with true by (destruct C as [->| ->]; reflexivity).
    destruct ds as [|d ds]; [congruence|]. assert (Dd : is_digit d = true) by (cbn in D2; now apply andb_true_iff in D2).
    assert (S1 : span_digits (d :: ds) = (d :: ds, [])) by (rewrite <- (app_nil_r (d :: ds)) at 1; apply span_app; [assumption|exact I]).
    pose proof (signed_head sg neg (d :: ds) Sg (fun _ => digit_not_sign d ds Dd) (bool * list N)%type (fun r' => (true, r')) (fun r' => (false, r'))) as E. cbv beta in E. unfold str in *. rewrite E. clear E.
    replace (if neg then (true, d :: ds) else (false, d :: ds)) with (neg, d :: ds) by (destruct neg; reflexivity).
    rewrite S1. reflexivity.
Qed.
Lemma i64_iff : forall s z, i64_from_str s = Some z <-> integer_text s z.
Proof.
  intros s z. unfold i64_from_str. split.
  - destruct (sign_cases s) as (sg & neg & r1 & Sg & -> & E). specialize (E (bool * list N)%type (fun r' => (true, r')) (fun r' => (false, r'))). cbv beta in E. unfold str in *. rewrite E. clear E.
    replace (if neg then (true, r1) else (false, r1)) with (neg, r1) by (destruct neg; reflexivity).
    destruct (span_digits r1) as [d r2] eqn:E. apply span_split in E as (-> & A & B).
    destruct d as [|d ds]; [discriminate|]. destruct r2; [|discriminate]. rewrite app_nil_r.
    match goal with |- context [if ?c then _ else _] => destruct c eqn:R; [|discriminate] end. intros [= <-].
    apply (integer_digits sg neg (d :: ds)); [assumption|split; [discriminate|assumption]|].
    apply andb_true_iff in R as [R1 R2]. apply Z.leb_le in R1, R2. unfold i64_min, i64_max in *. rewrite dec_digits in *. unfold signed_value. destruct neg; lia.
  - intros H. destruct H as [sg neg ds Sg [D1 D2] R].
    destruct ds as [|d ds]; [congruence|]. assert (Dd : is_digit d = true) by (cbn in D2; now apply andb_true_iff in D2).
    assert (S1 : span_digits (d :: ds) = (d :: ds, [])) by (rewrite <- (app_nil_r (d :: ds)) at 1; apply span_app; [assumption|exact I]).
    pose proof (signed_head sg neg (d :: ds) Sg (fun _ => digit_not_sign d ds Dd) (bool * list N)%type (fun r' => (true, r')) (fun r' => (false, r'))) as E. cbv beta in E. unfold str in *. rewrite E. clear E.
    replace (if neg then (true, d :: ds) else (false, d :: ds)) with (neg, d :: ds) by (destruct neg; reflexivity).
    rewrite S1, dec_digits. fold (signed_value neg (digits_value (d :: ds))).
    replace ((i64_min <=? signed_value neg (digits_value (d :: ds))) && (signed_value neg (digits_value (d :: ds)) <=? i64_max)) with true; [reflexivity|].
    symmetry. apply andb_true_iff. unfold i64_min, i64_max. split; apply Z.leb_le; lia.
Qed.
Lemma word_case : forall w k, str_eqb (map lower_ascii w) (lit k) = true -> map lower_ascii (lit k) = lit k -> same_word w (lit k).
Proof. intros w k H K. apply str_eqb_eq in H. unfold same_word. now rewrite H, K. Qed.
Lemma read_unsigned_sound : forall neg s x, read_unsigned neg s = Some x ->
  ((same_word s (lit "inf") \/ same_word s (lit "infinity")) /\ x = S754_infinity neg)
  \/ (same_word s (lit "nan") /\ x = f_nan)
  \/ exists m a b ex e, s = m ++ ex /\ mantissa_text m a b /\ exponent_text ex e /\ x = f_of_dec neg (digits_value (a ++ b)) (e - Z.of_nat (length b)).
Proof.
  intros neg s x H. unfold read_unsigned in H.
  destruct (str_eqb (map lower_ascii s) (lit "inf") || str_eqb (map lower_ascii s) (lit "infinity")) eqn:E1.
  { injection H as <-. left. split; [|reflexivity]. apply orb_true_iff in E1 as [E1|E1]; [left|right]; apply word_case; auto. }
  destruct (str_eqb (map lower_ascii s) (lit "nan")) eqn:E2; [injection H as <-; right; left; split; [apply word_case; auto|reflexivity]|].
  right. right. destruct (span_digits s) as [ip r] eqn:S1. apply span_split in S1 as (-> & A & B).
  assert (G : exists fp r', (match r with 46%N :: r1 => span_digits r1 | _ => ([], r) end) = (fp, r')
     /\ forallb is_digit fp = true /\ ((r = r' /\ fp = []) \/ r = 46%N :: fp ++ r')).
  { destruct r as [|c r]; [exists [], []; auto|]. destruct (N.eqb_spec c 46) as [->|N].
    - destruct (span_digits r) as [fp r'] eqn:S2. apply span_split in S2 as (-> & A' & B'). exists fp, r'. auto.
    - exists [], (c :: r). split; [|auto]. destruct c as [|p]; [reflexivity|]. do 6 (destruct p as [p|p|]; try reflexivity). congruence. }
  destruct G as (fp & r' & G & F & R). rewrite G in H. destruct (ip ++ fp) as [|d ds] eqn:Ed; [discriminate|]. rewrite <- Ed in *.
  destruct (read_exp r') as [e|] eqn:Ex; [|discriminate]. injection H as <-. apply read_exp_iff in Ex.
  destruct R as [[-> ->]| ->].
  - exists ip, ip, [], r', e. split; [reflexivity|]. split; [|split; [assumption|reflexivity]]. constructor. split; [|assumption]. rewrite app_nil_r in Ed. congruence.
  - exists (ip ++ lit "." ++ fp), ip, fp, r', e. split; [cbn; rewrite <- app_assoc; reflexivity|]. split; [|split; [assumption|reflexivity]]. constructor; [assumption|assumption|congruence].
Qed.
Lemma exponent_head : forall ex e, exponent_text ex e -> match ex with c :: _ => is_digit c = false /\ c <> 46%N | [] => True end.
Proof. intros ex e H. destruct H as [|c sg neg ds [->| ->] _ _]; [exact I|split; [reflexivity|discriminate]..]. Qed.
Lemma mantissa_head : forall m a b, mantissa_text m a b -> exists c r, m = c :: r /\ (is_digit c = true \/ c = 46%N).
Proof.
  intros m a b H. destruct H as [ds [N D]|a b A B N].
  - destruct ds as [|c r]; [congruence|]. exists c, r. split; [reflexivity|]. left. cbn in D. now apply andb_true_iff in D.
  - destruct a as [|c r]; [exists 46%N, b; split; [reflexivity|now right]|]. exists c, (r ++ lit "." ++ b). split; [reflexivity|]. left. unfold all_digits in A. cbn in A. now apply andb_true_iff in A.
Qed.
Lemma not_word : forall c r k, is_digit c = true \/ c = 46%N -> (match lit k with x :: _ => is_lower_ascii x = true | [] => False end) -> str_eqb (map lower_ascii (c :: r)) (lit k) = false.
Proof.
  intros c r k H K. cbn [map]. assert (L : lower_ascii c = c).
  { unfold lower_ascii. replace (is_upper_ascii c) with false; [reflexivity|]. symmetry. unfold is_upper_ascii. apply andb_false_iff.
    destruct H as [H| ->]; [|left; reflexivity]. unfold is_digit in H. apply andb_true_iff in H as [_ H]. apply N.leb_le in H. left. apply N.leb_gt. lia. }
  rewrite L. destruct (lit k) as [|x w]; [contradiction|]. cbn [str_eqb]. replace (c =? x)%N with false; [reflexivity|]. symmetry. apply N.eqb_neq. intros ->.
  unfold is_lower_ascii in K. apply andb_true_iff in K as [K _]. apply N.leb_le in K. destruct H as [H| ->]; [|lia]. unfold is_digit in H. apply andb_true_iff in H as [_ H]. apply N.leb_le in H. lia.
Qed.
Lemma read_unsigned_decimal : forall neg m a b ex e, mantissa_text m a b -> exponent_text ex e ->
  read_unsigned neg (m ++ ex) = Some (f_of_dec neg (digits_value (a ++ b)) (e - Z.of_nat (length b))).
Proof.
  intros neg m a b ex e M E. destruct (mantissa_head m a b M) as (c & r & Em & Hc). unfold read_unsigned.
  assert (W : forall k, (match lit k with x :: _ => is_lower_ascii x = true | [] => False end) -> str_eqb (map lower_ascii (m ++ ex)) (lit k) = false).
  { intros k K. rewrite Em. cbn [app]. now apply not_word. }
  rewrite !W by reflexivity. cbn [orb]. clear W Em Hc c r. pose proof (exponent_head ex e E) as Hd. apply read_exp_iff in E. destruct M as [ds [N D]|a b A B N].
  - rewrite span_app; [|assumption|destruct ex; [exact I|apply Hd]].
    assert (P : match ex with 46%N :: r1 => span_digits r1 | _ => ([], ex) end = ([], ex)).
    { destruct ex as [|c r]; [reflexivity|]. destruct Hd as [_ Hd]. destruct c as [|p]; [reflexivity|]. do 6 (destruct p as [p|p|]; try reflexivity). congruence. }
    rewrite P, app_nil_r. destruct ds as [|d ds]; [congruence|]. rewrite E. reflexivity.
  - change (lit "." ++ b) with (46%N :: b). rewrite <- app_assoc. cbn [app]. rewrite span_app; [|assumption|reflexivity].
    rewrite span_app; [|assumption|destruct ex; [exact I|apply Hd]]. destruct (a ++ b) as [|d ds]; [congruence|]. rewrite E. reflexivity.
Qed.
Lemma f_from_str_sign : forall s, exists sg neg r, sign_text sg neg /\ s = sg ++ r /\ f_from_str s = read_unsigned neg r.
Proof.
  intros s. destruct (sign_cases s) as (sg & neg & r & Sg & E & H). exists sg, neg, r. split; [assumption|]. split; [assumption|]. unfold f_from_str.
  specialize (H _ (read_unsigned true) (read_unsigned false)). rewrite H. now destruct neg.
Qed.
Lemma f_from_signed : forall sg neg r, sign_text sg neg -> (sg = [] -> unsigned r) -> f_from_str (sg ++ r) = read_unsigned neg r.
Proof. intros sg neg r Sg H. unfold f_from_str. rewrite (signed_head sg neg r Sg H _ (read_unsigned true) (read_unsigned false)). now destruct neg. Qed.
Lemma word_unsigned : forall w k c, same_word w k -> hd 0%N k = c -> is_lower_ascii c = true -> lower_ascii c = c -> unsigned w.
Proof.
  intros w k c H K L I0. unfold same_word in H. destruct w as [|x w]; [exact I|]. destruct k as [|y k]; [discriminate|]. cbn in H, K. subst y. injection H as H _. rewrite I0 in H.
  apply not_signed; cbn [hd]; intros ->; change (lower_ascii 45) with 45%N in H || change (lower_ascii 43) with 43%N in H; subst c; discriminate.
Qed.
Lemma float_text_iff : forall s x, f_from_str s = Some x <-> float_text s x.
Proof.
  intros s x. split.
  - intros H. destruct (f_from_str_sign s) as (sg & neg & r & Sg & -> & E). rewrite E in H.
    destruct (read_unsigned_sound neg r x H) as [(W & ->)|[(W & ->)|(m & a & b & ex & e & -> & M & Ex & ->)]].
    + now apply infinity_text.
    + now apply (nan_text sg neg).
    + now apply decimal_text.
  - intros H. destruct H as [sg neg w Sg W|sg neg w Sg W|sg neg m a b ex e x Sg M E Dx]; [| |apply denotes_iff in Dx; subst x].
    + assert (U : unsigned w) by (destruct W as [W|W]; eapply word_unsigned; try eassumption; reflexivity).
      rewrite (f_from_signed sg neg w Sg (fun _ => U)). unfold read_unsigned, same_word in *.
      change (map lower_ascii (lit "inf")) with (lit "inf") in W. change (map lower_ascii (lit "infinity")) with (lit "infinity") in W.
      destruct W as [->| ->]; reflexivity.
    + assert (U : unsigned w) by (eapply word_unsigned; try eassumption; reflexivity).
      rewrite (f_from_signed sg neg w Sg (fun _ => U)). unfold read_unsigned, same_word in *.
      change (map lower_ascii (lit "nan")) with (lit "nan") in W. rewrite W. reflexivity.
    + destruct (mantissa_head m a b M) as (c & r & Em & Hc).
      rewrite (f_from_signed sg neg (m ++ ex) Sg). 2: { intros _. rewrite Em. cbn [app]. apply not_signed; cbn [hd]; intros ->; destruct Hc; discriminate. }
      now apply read_unsigned_decimal.
Qed.
