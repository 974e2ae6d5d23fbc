(** Numbers written as text. *)
From Coq Require Import String List ZArith NArith Bool Lia.
From Coq Require Import Floats.SpecFloat.
From Verif Require Import Base F64 F64Text Syntax Spec Spec_syntax Spec_text Float_proofs Exact_proofs Text_proofs Written_proofs Cast_proofs Round_proofs Rounding_proofs.
Import ListNotations.
Local Open Scope N_scope.

(** ** Natural numbers *)
Lemma is_digit_range : forall c, is_digit c = true <-> 48 <= c <= 57.
Proof. intros c. unfold is_digit. rewrite andb_true_iff, !N.leb_le. reflexivity. Qed.
Lemma digits_value_app : forall a b, digits_value (a ++ b) = digits_value a * 10 ^ N.of_nat (length b) + digits_value b.
Proof.
  intros a b. induction b as [|d b IH] using rev_ind; [rewrite app_nil_r; cbn; lia|].
  rewrite app_assoc, !digits_value_snoc, IH, app_length. cbn [length]. replace (N.of_nat (length b + 1)) with (N.of_nat (length b) + 1) by lia.
  rewrite N.pow_add_r. change (10 ^ 1) with 10. lia.
Qed.
Lemma digits_value_pos : forall ds, digits ds -> hd 0 ds <> 48 -> 0 < digits_value ds.
Proof.
  intros [|d ds] [Nn H] Hh; [congruence|]. cbn [hd] in Hh. change (d :: ds) with ([d] ++ ds). rewrite digits_value_app. cbn [forallb] in H. apply andb_true_iff in H as [H _]. apply is_digit_range in H.
  assert (0 < 10 ^ N.of_nat (length ds)) by (apply N.neq_0_lt_0, N.pow_nonzero; discriminate). unfold digits_value at 1. cbn [fold_left]. nia.
Qed.
Lemma decimal_unique : forall n a b, decimal_text_of n a -> decimal_text_of n b -> a = b.
Proof.
  intros n a. revert n. induction a as [|d a IH] using rev_ind; intros n b (Da & Va & La) (Db & Vb & Lb); [now destruct Da|].
  destruct b as [|d' b] using rev_ind; [now destruct Db|]. clear IHb. rewrite digits_value_snoc in Va, Vb.
  destruct Da as [_ Fa], Db as [_ Fb]. rewrite forallb_app in Fa, Fb. apply andb_true_iff in Fa as [Fa Da], Fb as [Fb Db]. cbn [forallb] in Da, Db. rewrite andb_true_r in Da, Db.
  apply is_digit_range in Da, Db. assert (E : digits_value a = digits_value b /\ d = d') by lia. destruct E as [E ->]. f_equal.
  assert (Hd : forall l, forallb is_digit l = true -> (hd 0 (l ++ [d']) = 48 -> l ++ [d'] = [48]) -> l = [] \/ decimal_text_of (digits_value l) l).
  { intros [|x l] F L; [now left|right]. split; [split; [discriminate|assumption]|]. split; [reflexivity|]. cbn [hd app] in *. intros K. specialize (L K). injection L as -> L. now destruct l. }
  destruct (Hd a Fa La) as [->|Ca], (Hd b Fb Lb) as [->|Cb].
  - reflexivity.
  - exfalso. cbn in E. destruct Cb as (C1 & C2 & C3). destruct (N.eq_dec (hd 0 b) 48) as [K|K]; [|pose proof (digits_value_pos b C1 K); lia].
    specialize (C3 K). subst b. specialize (Lb eq_refl). discriminate.
  - exfalso. cbn in E. destruct Ca as (C1 & C2 & C3). destruct (N.eq_dec (hd 0 a) 48) as [K|K]; [|pose proof (digits_value_pos a C1 K); lia].
    specialize (C3 K). subst a. specialize (La eq_refl). discriminate.
  - apply (IH (digits_value a)); [assumption|now rewrite E].
Qed.
Lemma digits_fuel_spec : forall f n acc, n < 2 ^ N.of_nat f -> (0 < f)%nat -> exists ds, digits_fuel f n acc = ds ++ acc /\ decimal_text_of n ds.
Proof.
  induction f as [|f IH]; intros n acc H Hf; [lia|]. cbn [digits_fuel]. pose proof (N.mod_lt n 10 ltac:(discriminate)) as M. destruct (N.ltb_spec n 10) as [L|L].
  - exists [48 + n mod 10]. split; [reflexivity|]. rewrite N.mod_small in * by assumption. split; [split; [discriminate|]|].
    + cbn [forallb]. rewrite andb_true_r. apply is_digit_range. lia.
    + split; [unfold digits_value; cbn [fold_left]; lia|]. cbn [hd]. intros ->. reflexivity.
  - assert (Hf' : (0 < f)%nat). { destruct f; [exfalso; change (2 ^ N.of_nat 1) with 2 in H; lia|lia]. }
    replace (N.of_nat (S f)) with (1 + N.of_nat f) in H by lia. rewrite N.pow_add_r in H. change (2 ^ 1) with 2 in H.
    pose proof (N.div_mod n 10 ltac:(discriminate)) as D.
    destruct (IH (n / 10) ((48 + n mod 10) :: acc)) as (ds & E & C1 & C2 & C3); [lia|assumption|]. exists (ds ++ [48 + n mod 10]). split; [now rewrite E, <- app_assoc|].
    split; [split|split].
    + intros K. apply app_eq_nil in K as [_ K]. discriminate.
    + destruct C1 as [_ F]. rewrite forallb_app, F. cbn [forallb andb]. rewrite andb_true_r. apply is_digit_range. lia.
    + rewrite digits_value_snoc, C2. lia.
    + intros K. destruct ds as [|d ds]; [now destruct C1|]. cbn [hd app] in K. specialize (C3 K). injection C3 as -> ->. cbn in C2. lia.
Qed.
Lemma N_to_str_spec : forall n, decimal_text_of n (N_to_str n).
Proof.
  intros n. unfold N_to_str. destruct (digits_fuel_spec (S (N.to_nat (N.size n))) n []) as (ds & -> & H); [|lia|now rewrite app_nil_r].
  replace (N.of_nat (S (N.to_nat (N.size n)))) with (N.size n + 1) by lia. rewrite N.pow_add_r. pose proof (N.size_gt n). change (2 ^ 1) with 2. lia.
Qed.
Lemma written_unique : forall z s, integer_written z s <-> s = Z_to_str z.
Proof.
  assert (K : forall z, integer_written z (Z_to_str z)).
  { intros [|p|p]; [exists (N_to_str 0)|exists (N_to_str (Npos p))|exists (N_to_str (Npos p))]; (split; [apply N_to_str_spec|reflexivity]). }
  intros z s. split; [|intros ->; apply K]. intros (ds & D & ->). destruct (K z) as (ds' & D' & ->). now rewrite (decimal_unique _ _ _ D D').
Qed.
Lemma zeros_app : forall a b, zeros (a + b) = zeros a ++ zeros b.
Proof. induction a as [|a IH]; intros b; cbn; [reflexivity|now rewrite IH]. Qed.
Lemma zeros_length : forall a, length (zeros a) = a.
Proof. induction a; cbn; congruence. Qed.
Lemma zeros_digits : forall a, forallb is_digit (zeros a) = true.
Proof. induction a; cbn; assumption || reflexivity. Qed.
Lemma zeros_value : forall a, digits_value (zeros a) = 0.
Proof. induction a as [|a IH]; [reflexivity|]. change (zeros (S a)) with ([48] ++ zeros a). rewrite digits_value_app, IH. reflexivity. Qed.
Lemma strip_spec : forall ds, exists j, ds = strip_trailing_zeros ds ++ zeros j.
Proof.
  induction ds as [|c r [j IH]]; [now exists 0%nat|]. cbn [strip_trailing_zeros]. destruct (strip_trailing_zeros r) as [|x t] eqn:E.
  - destruct (N.eqb_spec c 48) as [->|Nc]; [exists (S j)|exists j]; cbn [app zeros] in *; now rewrite <- IH.
  - exists j. cbn [app]. cbn [app] in IH. now rewrite <- IH.
Qed.

(** ** Floating-point numbers *)
Lemma dec_sign : forall n e, f_of_dec true n e = f_neg (f_of_dec false n e).
Proof.
  intros [|p] e; [reflexivity|]. unfold f_of_dec. destruct (0 <=? e)%Z.
  - unfold binary_round. destruct (shl_align _ _ _) as [mz ez]. apply round_aux_sign.
  - destruct (SFdiv_core_binary _ _ _ _ _ _) as [[mz ez] lz]. apply round_aux_sign.
Qed.
Lemma bits_eq : forall x s m e, f_bits_eqb x (S754_finite s m e) = true -> x = S754_finite s m e.
Proof.
  intros [b|b| |b m' e'] s m e; try discriminate. cbn. rewrite !andb_true_iff, eqb_true_iff, Pos.eqb_eq, Z.eqb_eq. now intros [[-> ->] ->].
Qed.
Lemma candidate_reads : forall m e k n d x, candidate m e k n = Some (d, x) -> f_of_dec false d x = S754_finite false m e.
Proof.
  intros m e k n d x. unfold candidate. destruct (scaled m e (Z.of_nat n - k)) as [[q r] dd]. 
  destruct (f_bits_eqb (f_of_dec false (Z.to_N (q + 1)) (- (Z.of_nat n - k))) (S754_finite false m e)) eqn:Hi;
  destruct (f_bits_eqb (f_of_dec false (Z.to_N q) (- (Z.of_nat n - k))) (S754_finite false m e)) eqn:Lo; cbn [andb negb orb]; try discriminate;
  try (destruct (dd <=? 2 * r)%Z); intros [= <- <-]; apply bits_eq; assumption.
Qed.
Lemma search_reads : forall todo m e k n d x, search_digits m e k n todo = Some (d, x) -> f_of_dec false d x = S754_finite false m e.
Proof.
  induction todo as [|t IH]; intros m e k n d x; cbn [search_digits]; destruct (candidate m e k n) as [[d' x']|] eqn:C; try discriminate.
  - intros [= <- <-]. now apply candidate_reads in C.
  - intros [= <- <-]. now apply candidate_reads in C.
  - apply IH.
Qed.
Lemma ten_two_five : forall k, (0 <= k)%Z -> (10 ^ k = 2 ^ k * 5 ^ k)%Z.
Proof. intros k H. now rewrite <- Z.pow_mul_l. Qed.
Lemma shortest_reads : forall m e, representable (S754_finite false m e) -> let '(d, x) := shortest m e in f_of_dec false d x = S754_finite false m e.
Proof.
  intros m e R. unfold shortest. destruct (search_digits m e (dec_exponent m e) 1 16) as [[d x]|] eqn:S; [now apply search_reads in S|].
  destruct (Z.leb_spec 0 e) as [H|H].
  - assert (P : (0 < Zpos m * 2 ^ e)%Z) by (apply Z.mul_pos_pos; [lia|apply Z.pow_pos_nonneg; lia]). destruct (Zpos m * 2 ^ e)%Z as [|p|p] eqn:V; try lia.
    cbn [Z.to_N]. rewrite dec_rnd. apply rnd_canonical; [assumption|unfold ten; cbn; lia|unfold ten; cbn; lia|]. unfold ten, pw. cbn [Z.opp Z.max].
    change (Z.max 0 0) with 0%Z. change (10 ^ 0)%Z with 1%Z. replace (Z.max e 0) with e by lia. replace (Z.max (- e) 0) with 0%Z by lia. change (2 ^ 0)%Z with 1%Z. lia.
  - assert (P : (0 < Zpos m * 5 ^ (- e))%Z) by (apply Z.mul_pos_pos; [lia|apply Z.pow_pos_nonneg; lia]). destruct (Zpos m * 5 ^ (- e))%Z as [|p|p] eqn:V; try lia.
    cbn [Z.to_N]. rewrite dec_rnd. pose proof (ten_pos e). pose proof (ten_pos (- e)). apply rnd_canonical; [assumption|lia|lia|]. unfold ten, pw.
    replace (Z.max e 0) with 0%Z by lia. replace (Z.max (- e) 0) with (- e)%Z by lia. change (10 ^ 0)%Z with 1%Z. change (2 ^ 0)%Z with 1%Z. rewrite <- V, ten_two_five by lia. ring.
Qed.
(** what the digits of a number mean *)
Lemma digits_of_reads : forall s m e ds k, representable (S754_finite false m e) -> digits_of m e = (ds, k) ->
  digits ds /\ f_of_dec s (digits_value ds) (k - Z.of_nat (length ds)) = S754_finite s m e.
Proof.
  intros s m e ds k R D. pose proof (shortest_reads m e R) as H. unfold digits_of in D. destruct (shortest m e) as [d x]. injection D as <- <-.
  destruct (N_to_str_spec d) as ((C0 & C1) & C2 & C3). destruct (strip_spec (N_to_str d)) as (j & E). set (t := strip_trailing_zeros (N_to_str d)) in *.
  rewrite E in C0, C1, C2 |- *. rewrite forallb_app in C1. apply andb_true_iff in C1 as [C1 _]. rewrite digits_value_app, zeros_value, zeros_length in C2. rewrite app_length, zeros_length.
  assert (Nt : t <> []). { intros K. rewrite K in C2. cbn in C2. subst d. discriminate. }
  split; [now split|]. replace (Z.of_nat (length t + j) + x - Z.of_nat (length t))%Z with (x + Z.of_nat j)%Z by lia.
  assert (F : f_of_dec false (digits_value t) (x + Z.of_nat j) = S754_finite false m e).
  { rewrite <- H, <- (dec_shift false (digits_value t) (x + Z.of_nat j) (Z.of_nat j)) by lia. f_equal; [|lia]. rewrite <- C2. replace (Z.to_N (Z.of_nat j)) with (N.of_nat j) by lia. lia. }
  destruct s; [rewrite dec_sign, F; reflexivity|exact F].
Qed.
Lemma place_point_spec : forall ds k ip fp, digits ds -> place_point ds k = (ip, fp) ->
  digits ip /\ forallb is_digit fp = true /\ forall s, f_of_dec s (digits_value (ip ++ fp)) (- Z.of_nat (length fp)) = f_of_dec s (digits_value ds) (k - Z.of_nat (length ds)).
Proof.
  intros ds k ip fp [Nd Dd]. unfold place_point. destruct (Z.leb_spec k 0) as [H|H]; [|destruct (Z.leb_spec (Z.of_nat (length ds)) k) as [H'|H']]; intros [= <- <-].
  - split; [split; [discriminate|reflexivity]|]. split; [rewrite forallb_app, zeros_digits; assumption|]. intros s. rewrite !digits_value_app, zeros_value, app_length, zeros_length. cbn [digits_value fold_left].
    f_equal; lia.
  - split; [split|split; [reflexivity|]].
    + intros K. apply app_eq_nil in K as [K _]. congruence.
    + now rewrite forallb_app, Dd, zeros_digits.
    + intros s. rewrite app_nil_r, digits_value_app, zeros_value, zeros_length, N.add_0_r. cbn [length Z.of_nat Z.opp].
      rewrite <- (dec_shift s (digits_value ds) (k - Z.of_nat (length ds)) (k - Z.of_nat (length ds))) by lia. f_equal; [|lia]. f_equal. f_equal. lia.
  - pose proof (firstn_skipn (Z.to_nat k) ds) as FS. assert (Da := Dd). rewrite <- FS, forallb_app in Da. apply andb_true_iff in Da as [D1 D2]. split; [split; [|assumption]|].
    + intros K. apply (f_equal (@length N)) in K. rewrite firstn_length in K. cbn in K. lia.
    + split; [assumption|]. intros s. rewrite FS, skipn_length. f_equal. lia.
Qed.
Lemma display_text : forall x, representable x -> float_text (f_display x) x.
Proof.
  intros [b|b| |s m e] R.
  - apply (float_text_iff (f_display (S754_zero b))). destruct b; reflexivity.
  - apply (float_text_iff (f_display (S754_infinity b))). destruct b; reflexivity.
  - apply (float_text_iff (f_display S754_nan)). reflexivity.
  - unfold f_display. destruct (digits_of m e) as [ds k] eqn:D. assert (R' : representable (S754_finite false m e)) by exact R.
    destruct (digits_of_reads s m e ds k R' D) as [Dd V]. destruct (place_point ds k) as [ip fp] eqn:P. destruct (place_point_spec ds k ip fp Dd P) as (P1 & P2 & P3).
    specialize (P3 s). rewrite V in P3.
    assert (G : forall sg mt, sign_text sg s -> mantissa_text mt ip fp -> float_text (sg ++ mt ++ []) (S754_finite s m e)).
    { intros sg mt Hs Hm. rewrite <- P3. replace (- Z.of_nat (length fp))%Z with (0 - Z.of_nat (length fp))%Z by lia. apply decimal_text; [assumption|assumption|constructor]. }
    assert (Mt : mantissa_text (match fp with [] => ip | _ => ip ++ 46 :: fp end) ip fp).
    { destruct fp as [|c r]; [now constructor|]. apply with_point; [apply P1|assumption|]. intros K. apply app_eq_nil in K as [_ K]. discriminate. }
    destruct s; [specialize (G (lit "-") _ minus_sign Mt)|specialize (G [] _ no_sign Mt)]; rewrite app_nil_r in G; exact G.
Qed.

(** ** Whole numbers *)
Local Open Scope Z_scope.
Lemma exact_form : forall s u j, Zpos u < 2 ^ 53 -> 0 <= j <= 900 -> rnd s (Zpos u * 2 ^ j) 1 = S754_finite s (int_m u) (int_e u + j).
Proof.
  intros s u j Hu Hj. pose proof (int_e_range u Hu) as Er. pose proof (int_m_digits u Hu) as Dg. pose proof (int_m_val u Hu) as Vm. apply rnd_canonical.
  - cbn [valid_binary]. unfold bounded, canonical_mantissa. apply andb_true_iff. split; [|apply Z.leb_le; unfold emax, prec; lia].
    apply Zeq_is_eq_bool. rewrite Dg, fexp_max. lia.
  - apply Z.mul_pos_pos; [lia|apply Z.pow_pos_nonneg; lia].
  - lia.
  - rewrite Vm. unfold pw. transitivity (Zpos u * (2 ^ (- int_e u) * 2 ^ Z.max (int_e u + j) 0)); [ring|]. rewrite <- Z.mul_assoc. f_equal. rewrite <- !Z.pow_add_r by lia. f_equal. lia.
Qed.
Lemma exact_trunc : forall u j, Zpos u < 2 ^ 53 -> 0 <= j <= 900 -> trunc_Z (rnd false (Zpos u * 2 ^ j) 1) = Zpos u * 2 ^ j.
Proof.
  intros u j Hu Hj. rewrite exact_form by assumption. pose proof (int_e_range u Hu) as Er. pose proof (int_m_val u Hu) as Vm. cbn [trunc_Z].
  destruct (Z.leb_spec 0 (int_e u + j)) as [L|L].
  - rewrite Vm, <- Z.mul_assoc, <- Z.pow_add_r by lia. do 2 f_equal. lia.
  - rewrite Vm. replace (- int_e u) with (j + (- (int_e u + j))) by lia. rewrite Z.pow_add_r by lia. rewrite Z.mul_assoc, Z.div_mul; [reflexivity|]. apply Z.pow_nonzero; lia.
Qed.
Lemma trunc_dec_int : forall w, (w <> 0)%N -> Z.of_N w < 2 ^ 53 \/ (exists v, (w = 2 * v)%N /\ Z.of_N v < 2 ^ 53) -> trunc_Z (f_of_dec false w 0) = Z.of_N w.
Proof.
  intros [|p] H K; [congruence|]. rewrite dec_rnd. unfold ten. change (10 ^ Z.max 0 0) with 1. change (10 ^ Z.max (- 0) 0) with 1. rewrite Z.mul_1_r.
  destruct K as [K|([|v] & Ev & K)]; [| discriminate|].
  - replace (Zpos p) with (Zpos p * 2 ^ 0) at 1 by (change (2 ^ 0) with 1; lia). rewrite exact_trunc; [change (2 ^ 0) with 1; cbn [Z.of_N]; lia|exact K|lia].
  - replace (Zpos p) with (Zpos v * 2 ^ 1) at 1 by (change (2 ^ 1) with 2; lia). rewrite exact_trunc; [change (2 ^ 1) with 2; cbn [Z.of_N]; lia|exact K|lia].
Qed.
Lemma scaled_int : forall p t, Zpos p < 2 ^ 53 -> t <= 0 -> exists r d, scaled (int_m p) (int_e p) t = (Zpos p / 10 ^ (- t), r, d).
Proof.
  intros p t Hp Ht. pose proof (int_e_range p Hp) as Er. pose proof (int_m_val p Hp) as Vm. unfold scaled.
  replace (if 0 <=? int_e p then 2 ^ int_e p else 1) with 1.
  2:{ destruct (Z.leb_spec 0 (int_e p)); [|reflexivity]. replace (int_e p) with 0 by lia. reflexivity. }
  replace (if 0 <=? t then 10 ^ t else 1) with 1.
  2:{ destruct (Z.leb_spec 0 t); [|reflexivity]. replace t with 0 by lia. reflexivity. }
  replace (if int_e p <? 0 then 2 ^ (- int_e p) else 1) with (2 ^ (- int_e p)).
  2:{ destruct (Z.ltb_spec (int_e p) 0); [reflexivity|]. replace (int_e p) with 0 by lia. reflexivity. }
  replace (if t <? 0 then 10 ^ (- t) else 1) with (10 ^ (- t)).
  2:{ destruct (Z.ltb_spec t 0); [reflexivity|]. replace t with 0 by lia. reflexivity. }
  assert (P : 0 < 2 ^ (- int_e p)) by (apply Z.pow_pos_nonneg; lia).
  assert (P10 : 0 < 10 ^ (- t)) by (apply Z.pow_pos_nonneg; lia).
  eexists _, _. f_equal. f_equal. rewrite Vm, !Z.mul_1_r. rewrite (Z.mul_comm (2 ^ (- int_e p)) (10 ^ (- t))). apply Z.div_mul_cancel_r; lia.
Qed.
Lemma read_whole : forall p w, Zpos p < 2 ^ 53 -> (w <> 0)%N -> Z.of_N w < 2 ^ 53 \/ (exists v, (w = 2 * v)%N /\ Z.of_N v < 2 ^ 53) ->
  f_of_dec false w 0 = S754_finite false (int_m p) (int_e p) -> Z.of_N w = Zpos p.
Proof.
  intros p w Hp Hw K E. apply (f_equal trunc_Z) in E. rewrite trunc_dec_int in E by assumption. rewrite trunc_int in E by assumption. exact E.
Qed.
Lemma candidate_int : forall p k n, Zpos p < 2 ^ 53 -> 10 ^ (k - 1) <= Zpos p < 10 ^ k -> k <= 16 -> 1 <= Z.of_nat n <= k ->
  candidate (int_m p) (int_e p) k n = (if Zpos p mod 10 ^ (k - Z.of_nat n) =? 0 then Some (Z.to_N (Zpos p / 10 ^ (k - Z.of_nat n)), k - Z.of_nat n) else None).
Proof.
  intros p k n Hp Hk Hk16 Hn. unfold candidate. set (t := Z.of_nat n - k). destruct (scaled_int p t Hp ltac:(lia)) as (r & d & ->).
  replace (- t) with (k - Z.of_nat n) by (unfold t; lia). set (g := k - Z.of_nat n) in *. assert (G : 0 < 10 ^ g) by (apply Z.pow_pos_nonneg; lia).
  set (q := Zpos p / 10 ^ g). pose proof (Z.div_mod (Zpos p) (10 ^ g) ltac:(lia)) as D. fold q in D. pose proof (Z.mod_pos_bound (Zpos p) (10 ^ g) G) as B.
  assert (Q0 : 0 < q). { apply Z.div_str_pos. split; [lia|]. apply Z.le_trans with (10 ^ (k - 1)); [|lia]. apply Z.pow_le_mono_r; lia. }
  assert (Qn : q < 10 ^ Z.of_nat n). { apply Z.div_lt_upper_bound; [lia|]. rewrite <- Z.pow_add_r by lia. replace (g + Z.of_nat n) with k by lia. lia. }
  assert (K16 : 10 ^ k <= 10 ^ 16) by (apply Z.pow_le_mono_r; lia).
  assert (Rd : forall c, 0 < c -> c <= 10 ^ Z.of_nat n -> (n = Z.to_nat k -> c <= Zpos p + 1) -> f_bits_eqb (f_of_dec false (Z.to_N c) g) (S754_finite false (int_m p) (int_e p)) = true -> c * 10 ^ g = Zpos p).
  { intros c C0 C1 C2 E. apply bits_eq in E. rewrite <- (dec_shift false (Z.to_N c) g g) in E by lia. rewrite Z.sub_diag in E.
    assert (V : Z.of_N (Z.to_N c * 10 ^ Z.to_N g) = c * 10 ^ g) by (rewrite N2Z.inj_mul, N2Z.inj_pow, !Z2N.id by lia; reflexivity).
    rewrite <- V. apply (read_whole p); try assumption.
    - intros K. rewrite K in V. cbn in V. nia.
    - rewrite V. assert (U : c * 10 ^ g <= 10 ^ 16). { apply Z.le_trans with (10 ^ Z.of_nat n * 10 ^ g); [apply Z.mul_le_mono_nonneg_r; lia|]. rewrite <- Z.pow_add_r by lia. replace (Z.of_nat n + g) with k by lia. lia. }
      destruct (Z.eq_dec g 0) as [Zg|Zg].
      + rewrite Zg in *. change (10 ^ 0) with 1 in *. rewrite Z.mul_1_r in *. assert (c <= Zpos p + 1) by (apply C2; lia). destruct (Z.eq_dec c (2 ^ 53)) as [Ec|Ec]; [|left; lia].
        right. exists (2 ^ 52)%N. split; [|reflexivity]. rewrite Ec. reflexivity.
      + right. exists (Z.to_N (c * (5 * 10 ^ (g - 1)))). assert (T : 10 ^ g = 2 * (5 * 10 ^ (g - 1))) by (replace g with (1 + (g - 1)) at 1 by lia; rewrite Z.pow_add_r by lia; change (10 ^ 1) with 10; ring).
        assert (0 <= c * (5 * 10 ^ (g - 1))) by (apply Z.mul_nonneg_nonneg; [lia|]; pose proof (Z.pow_nonneg 10 (g - 1)); lia).
        split; [|rewrite Z2N.id by assumption; rewrite T in U; nia]. apply N2Z.inj. rewrite V, N2Z.inj_mul, Z2N.id by assumption. rewrite T. cbn [Z.of_N]. ring. }
  assert (Hi : f_bits_eqb (f_of_dec false (Z.to_N (q + 1)) g) (S754_finite false (int_m p) (int_e p)) = false).
  { apply not_true_iff_false. intros E. apply Rd in E; [nia|lia|lia|]. intros ->. unfold q, g. replace (k - Z.of_nat (Z.to_nat k)) with 0 by lia. change (10 ^ 0) with 1. rewrite Z.div_1_r. lia. }
  rewrite Hi. cbn [andb]. destruct (f_bits_eqb (f_of_dec false (Z.to_N q) g) (S754_finite false (int_m p) (int_e p))) eqn:Lo.
  - apply Rd in Lo; [|lia|lia|intros ->; unfold q, g; replace (k - Z.of_nat (Z.to_nat k)) with 0 by lia; change (10 ^ 0) with 1; rewrite Z.div_1_r; lia].
    replace (Zpos p mod 10 ^ g =? 0) with true by (symmetry; apply Z.eqb_eq; lia). reflexivity.
  - destruct (Z.eqb_spec (Zpos p mod 10 ^ g) 0) as [E|E]; [|reflexivity]. exfalso.
    assert (Y : f_of_dec false (Z.to_N q) g = S754_finite false (int_m p) (int_e p)).
    { rewrite <- (dec_shift false (Z.to_N q) g g), Z.sub_diag by lia. replace (Z.to_N q * 10 ^ Z.to_N g)%N with (Npos p).
      - rewrite f_of_dec_int. now apply f_of_Z_pos.
      - apply N2Z.inj. rewrite N2Z.inj_mul, N2Z.inj_pow, !Z2N.id by lia. cbn [Z.of_N]. lia. }
    rewrite Y in Lo. cbn in Lo. rewrite Pos.eqb_refl, Z.eqb_refl in Lo. discriminate.
Qed.
Lemma search_int : forall todo p k n, Zpos p < 2 ^ 53 -> 10 ^ (k - 1) <= Zpos p < 10 ^ k -> k <= 16 -> 1 <= Z.of_nat n <= k -> k <= Z.of_nat n + Z.of_nat todo ->
  exists d x, search_digits (int_m p) (int_e p) k n todo = Some (d, x) /\ 0 <= x /\ (d * 10 ^ Z.to_N x)%N = Npos p.
Proof.
  induction todo as [|todo IH]; intros p k n Hp Hk H16 Hn Ht; cbn [search_digits]; rewrite candidate_int by assumption; set (g := k - Z.of_nat n);
    (assert (G : 0 < 10 ^ g) by (apply Z.pow_pos_nonneg; lia)); pose proof (Z.div_mod (Zpos p) (10 ^ g) ltac:(lia)) as D.
  - replace g with 0 in * by lia. change (10 ^ 0) with 1. rewrite Z.mod_1_r. cbn [Z.eqb]. eexists _, _. split; [reflexivity|]. split; [lia|]. rewrite Z.div_1_r. cbn. now rewrite Pos.mul_1_r.
  - destruct (Z.eqb_spec (Zpos p mod 10 ^ g) 0) as [E|E].
    + eexists _, _. split; [reflexivity|]. split; [lia|]. apply N2Z.inj. rewrite N2Z.inj_mul, N2Z.inj_pow, !Z2N.id; [cbn [Z.of_N]; lia|lia|]. apply Z.div_pos; lia.
    + apply IH; try assumption; [|lia]. assert (Z.of_nat n <> k). { intros K. unfold g in E. replace (k - Z.of_nat n) with 0 in E by lia. change (10 ^ 0) with 1 in E. rewrite Z.mod_1_r in E. congruence. } lia.
Qed.
Lemma ge_pow10_int : forall p k, Zpos p < 2 ^ 53 -> 0 <= k -> ge_pow10 (int_m p) (int_e p) k = (10 ^ k <=? Zpos p).
Proof.
  intros p k Hp Hk. pose proof (int_e_range p Hp) as Er. pose proof (int_m_val p Hp) as Vm. unfold ge_pow10.
  replace (k <? 0) with false by (symmetry; apply Z.ltb_ge; lia). replace (0 <=? k) with true by (symmetry; apply Z.leb_le; lia).
  replace (if 0 <=? int_e p then Zpos (int_m p) * 2 ^ int_e p else Zpos (int_m p)) with (Zpos (int_m p)).
  2:{ destruct (Z.leb_spec 0 (int_e p)); [|reflexivity]. replace (int_e p) with 0 by lia. change (2 ^ 0) with 1. lia. }
  replace (if int_e p <? 0 then 10 ^ k * 2 ^ (- int_e p) else 10 ^ k) with (10 ^ k * 2 ^ (- int_e p)).
  2:{ destruct (Z.ltb_spec (int_e p) 0); [reflexivity|]. replace (int_e p) with 0 by lia. change (2 ^ (- 0)) with 1. lia. }
  rewrite Vm. assert (P : 0 < 2 ^ (- int_e p)) by (apply Z.pow_pos_nonneg; lia).
  destruct (Z.leb_spec (10 ^ k) (Zpos p)) as [L|L]; [apply Z.leb_le; nia|apply Z.leb_gt; nia].
Qed.
Definition est_ok (l : Z) : bool :=
  let est := (l * 30103) / 100000 in (0 <=? est) && (2 ^ (l + 1) <=? 10 ^ (est + 2)) && ((est =? 0) || (10 ^ (est - 1) <=? 2 ^ l)).
Lemma est_all : forall l, 0 <= l < 53 -> est_ok l = true.
Proof.
  intros l H. assert (A : forallb est_ok (map Z.of_nat (seq 0 53)) = true) by (vm_compute; reflexivity).
  rewrite forallb_forall in A. apply A. apply in_map_iff. exists (Z.to_nat l). split; [lia|]. apply in_seq. lia.
Qed.
Lemma dec_exponent_int : forall p, Zpos p < 2 ^ 53 -> let k := dec_exponent (int_m p) (int_e p) in 1 <= k <= 16 /\ 10 ^ (k - 1) <= Zpos p < 10 ^ k.
Proof.
  intros p Hp. cbv zeta. unfold dec_exponent. pose proof (int_e_range p Hp) as Er. pose proof (int_m_val p Hp) as Vm.
  assert (L : Z.log2 (Zpos (int_m p)) + int_e p = Z.log2 (Zpos p)) by (rewrite Vm, Z.log2_mul_pow2 by lia; lia). rewrite L.
  pose proof (Z.log2_spec (Zpos p) ltac:(lia)) as [Lo Up]. pose proof (Z.log2_nonneg (Zpos p)) as Nn.
  assert (L53 : Z.log2 (Zpos p) < 53) by (apply Z.log2_lt_pow2; lia). set (l := Z.log2 (Zpos p)) in *. pose proof (est_all l ltac:(lia)) as E. unfold est_ok in E. set (est := l * 30103 / 100000) in *.
  apply andb_true_iff in E as [E E3]. apply andb_true_iff in E as [E1 E2]. apply Z.leb_le in E1, E2.
  assert (Bd : forall k, 1 <= k -> 10 ^ (k - 1) <= Zpos p -> k <= 16).
  { intros k K1 K2. assert (10 ^ (k - 1) < 10 ^ 16) by lia. apply Z.pow_lt_mono_r_iff in H; lia. }
  assert (G : 1 <= (if ge_pow10 (int_m p) (int_e p) (est + 1) then est + 2 else if ge_pow10 (int_m p) (int_e p) est then est + 1 else est)
    /\ 10 ^ ((if ge_pow10 (int_m p) (int_e p) (est + 1) then est + 2 else if ge_pow10 (int_m p) (int_e p) est then est + 1 else est) - 1) <= Zpos p < 10 ^ (if ge_pow10 (int_m p) (int_e p) (est + 1) then est + 2 else if ge_pow10 (int_m p) (int_e p) est then est + 1 else est)).
  { rewrite !ge_pow10_int by (assumption || lia). destruct (Z.leb_spec (10 ^ (est + 1)) (Zpos p)) as [A|A].
    - split; [lia|]. replace (est + 2 - 1) with (est + 1) by lia. split; [assumption|]. unfold Z.succ in Up. lia.
    - destruct (Z.leb_spec (10 ^ est) (Zpos p)) as [C|C].
      + split; [lia|]. replace (est + 1 - 1) with est by lia. lia.
      + destruct (Z.eqb_spec est 0) as [Z0|Z0]; [rewrite Z0 in C; change (10 ^ 0) with 1 in C; lia|]. cbn [orb] in E3. apply Z.leb_le in E3. split; [lia|]. lia. }
  destruct G as (G1 & G2 & G3). split; [split; [assumption|now apply Bd]|now split].
Qed.
Lemma digits_of_int : forall p, Zpos p < 2 ^ 53 -> exists ds j, digits_of (int_m p) (int_e p) = (ds, Z.of_nat (length ds) + Z.of_nat j) /\ digits ds /\ N_to_str (Npos p) = ds ++ zeros j.
Proof.
  intros p Hp. destruct (dec_exponent_int p Hp) as (K1 & K2). set (k := dec_exponent (int_m p) (int_e p)) in *.
  destruct (search_int 16 p k 1 Hp K2 ltac:(lia) ltac:(lia) ltac:(lia)) as (d & x & Hs & Hx & Hd).
  unfold digits_of, shortest. fold k. rewrite Hs. destruct (strip_spec (N_to_str d)) as (j & E). set (t := strip_trailing_zeros (N_to_str d)) in *.
  destruct (N_to_str_spec d) as ((C0 & C1) & C2 & C3).
  assert (S : N_to_str (Npos p) = N_to_str d ++ zeros (Z.to_nat x)).
  { apply (decimal_unique (Npos p)); [apply N_to_str_spec|]. split; [split|split].
    - intros K. apply app_eq_nil in K as [K _]. congruence.
    - now rewrite forallb_app, C1, zeros_digits.
    - rewrite digits_value_app, C2, zeros_value, zeros_length. replace (N.of_nat (Z.to_nat x)) with (Z.to_N x) by lia. rewrite Hd. lia.
    - intros K. destruct (N_to_str d) as [|c r] eqn:Ed; [congruence|]. cbn [hd app] in *. specialize (C3 K). injection C3 as -> ->. cbn in C2. subst d. discriminate. }
  exists t, (j + Z.to_nat x)%nat. split; [|split].
  - f_equal. rewrite E, app_length, zeros_length. lia.
  - rewrite E, forallb_app in C1. apply andb_true_iff in C1 as [C1 _]. split; [|assumption]. intros K. rewrite K in E. cbn [app] in E. rewrite E in C2. rewrite zeros_value in C2. subst d. discriminate.
  - rewrite S, E, zeros_app. now rewrite app_assoc.
Qed.
Lemma display_pos : forall s p, Zpos p < 2 ^ 53 -> f_display (S754_finite s (int_m p) (int_e p)) = with_sign s (N_to_str (Npos p)).
Proof.
  intros s p Hp. destruct (digits_of_int p Hp) as (ds & j & D & [Nd Dd] & E). unfold f_display. rewrite D. unfold place_point.
  assert (0 < length ds)%nat by (destruct ds; [congruence|cbn; lia]).
  replace (Z.of_nat (length ds) + Z.of_nat j <=? 0) with false by (symmetry; apply Z.leb_gt; lia).
  replace (Z.of_nat (length ds) <=? Z.of_nat (length ds) + Z.of_nat j) with true by (symmetry; apply Z.leb_le; lia).
  replace (Z.to_nat (Z.of_nat (length ds) + Z.of_nat j - Z.of_nat (length ds))) with j by lia. now rewrite E.
Qed.
Lemma display_int : forall z, Z.abs z < 2 ^ 53 -> f_display (f_of_Z z) = Z_to_str z.
Proof.
  intros [|p|p] H; [reflexivity| |]; cbn [Z.abs] in H.
  - rewrite f_of_Z_pos, display_pos by assumption. reflexivity.
  - rewrite f_of_Z_neg, display_pos by assumption. reflexivity.
Qed.
