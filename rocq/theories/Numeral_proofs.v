(** JSON numbers with few digits are read as exactly what they say. *)
From Coq Require Import String List ZArith NArith QArith Bool Lia.
From Coq Require Import Floats.SpecFloat.
From Verif Require Import Base F64 F64Text Syntax Ext Json Struct Spec Spec_numbers Spec_syntax Spec_text Spec_json Spec_struct Spec_means
  Base_proofs Float_proofs Exact_proofs Text_proofs Round_proofs Display_proofs Rounding_proofs Number_proofs Written_proofs Json_proofs Layout_proofs Struct_proofs JsonShape_proofs Special_proofs Means_proofs.
Import ListNotations.
Local Open Scope N_scope.

Lemma some_digits_all : forall ds, some_digits ds -> digits ds.
Proof. intros ds [Ne F]. split; [assumption|]. apply forallb_forall. rewrite Forall_forall in F. intros c Ic. apply is_digit_range. now apply F. Qed.
Lemma whole_text : forall a, whole_shape a -> decimal_text_of (digits_value a) a.
Proof. intros a [->|[D Hd]]; [repeat split; discriminate|]. split; [now apply some_digits_all|]. split; [reflexivity|]. intros K. contradiction. Qed.

(** ** Whole numbers *)
Lemma whole_read : forall p a, whole_shape a -> digits_value a < 2 ^ 64 -> parse_integer p a = Some (whole_result p (digits_value a), []).
Proof.
  intros p a W V. pose proof (parse_integer_read p (digits_value a) a [] (whole_text a W) V Logic.I) as P. rewrite app_nil_r in P. rewrite P, tail_eq. reflexivity.
Qed.
Lemma whole_number_shape : forall sg a, In sg [[]; lit "-"] -> whole_shape a -> number_shape (sg ++ a).
Proof. intros sg a Sg W. exists sg, a, [], []. split; [assumption|]. split; [assumption|]. split; [now left|]. split; [now left|]. now rewrite !app_nil_r. Qed.
Lemma plus_result : forall a r, whole_shape a -> number_result (a ++ r) = parse_integer true (a ++ r).
Proof. intros a r W. destruct (whole_start a r W) as (c & q & -> & D). cbn [number_result]. now rewrite (proj2 (N.eqb_neq c 45)) by lia. Qed.

(** ** Powers of ten *)
Lemma ten_exact : forall j, (0 <= j <= 22)%Z -> is_finite (f_of_dec false 1 j) = true /\ representable (f_of_dec false 1 j) /\ (exact (f_of_dec false 1 j) == inject_Z (10 ^ j))%Q.
Proof.
  intros j J. assert (C : In j [0;1;2;3;4;5;6;7;8;9;10;11;12;13;14;15;16;17;18;19;20;21;22]%Z) by (cbn; lia). clear J. cbn in C.
  repeat (destruct C as [<-|C]; [vm_compute; repeat split; reflexivity|]). contradiction.
Qed.
Lemma product_read : forall n j, (Z.of_N n < 2 ^ 53)%Z -> (0 <= j <= 22)%Z -> f_mul (f_of_Z (Z.of_N n)) (f_of_dec false 1 j) = f_of_dec false n j.
Proof.
  intros n j L J. destruct (of_Z_exact (Z.of_N n) ltac:(lia)) as (F1 & R1 & E1). destruct (ten_exact j J) as (F2 & R2 & E2). apply denotes_iff. split.
  - pose proof (mul_rounded _ _ R1 R2 F1 F2) as M. pose proof (dec_has_sign false n 0) as S1. rewrite f_of_dec_int in S1. pose proof (dec_has_sign false 1 j) as S2. destruct (f_of_Z (Z.of_N n)) as [s1|s1| |s1 m1 e1]; try discriminate; destruct (f_of_dec false 1 j) as [s2|s2| |s2 m2 e2]; try discriminate; cbn [has_sign] in S1, S2; subst s1 s2; try reflexivity.
    unfold f_mul, SFmul in *. cbn [xorb] in *. destruct (round_aux_sign_bit false (Zpos (m1 * m2)) (e1 + e2) loc_Exact) as [K|K]; [exact K|]. rewrite K in M. destruct M as [_ [M _]]. discriminate.
  - refine (rounded_eq _ _ _ _ (mul_rounded _ _ R1 R2 F1 F2)). rewrite E1, E2. unfold decimal. replace (Z.max j 0) with j by lia. replace (Z.max (- j) 0) with 0%Z by lia. unfold Qeq. cbn. lia.
Qed.
Lemma decimal_small : forall n j, (Z.of_N n < 2 ^ 53)%Z -> (0 <= j <= 22)%Z -> is_infinite (f_of_dec false n j) = false.
Proof.
  intros n j L J. pose proof (dec_rounded false n j) as R. cbv iota in R. destruct (f_of_dec false n j) as [s|s| |s m e]; try reflexivity. exfalso. destruct R as [O _]. unfold overflows, decimal in O. replace (Z.max j 0) with j in O by lia. replace (Z.max (- j) 0) with 0%Z in O by lia. change (Z.to_pos (10 ^ 0)) with 1%positive in O.
  assert (P : (10 ^ j <= 10 ^ 22)%Z) by (apply Z.pow_le_mono_r; lia). assert (P0 : (0 < 10 ^ j)%Z) by (apply Z.pow_pos_nonneg; lia). unfold Qle in O. cbn [Qabs.Qabs Qnum Qden inject_Z] in O. rewrite !Z.mul_1_r in O. rewrite Z.abs_eq in O by (apply Z.mul_nonneg_nonneg; lia).
  assert (B : (Z.of_N n * 10 ^ j < 2 ^ 1024 - 2 ^ 970)%Z); [|lia]. apply Z.lt_le_trans with (2 ^ 53 * 10 ^ 22)%Z; [|vm_compute; discriminate]. apply Z.lt_le_trans with (2 ^ 53 * 10 ^ j)%Z; [apply Z.mul_lt_mono_pos_r; assumption|]. apply Z.mul_le_mono_nonneg_l; [|assumption]. discriminate.
Qed.
Lemma parts_exact : forall (p : bool) n j, (Z.of_N n < 2 ^ 53)%Z -> (Z.abs j <= 22)%Z -> f64_from_parts p n j = Some (f_of_dec (negb p) n j).
Proof.
  intros p n j L J. unfold f64_from_parts. assert (E : from_parts_loop 4 (f_of_Z (Z.of_N n)) j = Some (f_of_dec false n j)).
  { destruct (Z.le_gt_cases 0 j) as [Nj|Nj].
    - cbn [from_parts_loop]. replace (Z.abs j) with j by lia. replace (j <=? 308)%Z with true by (symmetry; apply Z.leb_le; lia). replace (0 <=? j)%Z with true by (symmetry; apply Z.leb_le; lia). rewrite product_read by (assumption || lia). now rewrite decimal_small by (assumption || lia).
    - replace j with (- - j)%Z by lia. apply parts_read; [assumption|lia]. }
  rewrite E. destruct p; [reflexivity|]. now rewrite dec_sign.
Qed.

(** ** The power of ten *)
Lemma exp_value : forall ds acc, forallb is_digit ds = true -> acc * 10 ^ N.of_nat (length ds) + digits_value ds < 2 ^ 31 -> exp_digits acc ds = (Some (acc * 10 ^ N.of_nat (length ds) + digits_value ds), []).
Proof.
  induction ds as [|c ds IH]; intros acc D V.
  - cbn. f_equal. f_equal. lia.
  - cbn [forallb] in D. apply andb_true_iff in D as [D1 D2]. assert (E : acc * 10 ^ N.of_nat (length (c :: ds)) + digits_value (c :: ds) = (acc * 10 + (c - 48)) * 10 ^ N.of_nat (length ds) + digits_value ds).
    { unfold digits_value. cbn [fold_left]. rewrite !fold_value. cbn [length]. rewrite Nat2N.inj_succ, N.pow_succ_r'. unfold digits_value. cbn [fold_left]. lia. }
    rewrite E in *. cbn [exp_digits]. rewrite D1. cbv zeta.
    assert (B : acc * 10 + (c - 48) < 2 ^ 31). { pose proof (N.pow_nonzero 10 (N.of_nat (length ds)) ltac:(discriminate)) as P. nia. }
    assert (O : i32_overflow acc (c - 48) = false).
    { unfold i32_overflow. change (i32_max / 10) with 214748364. change (i32_max mod 10) with 7. change (2 ^ 31) with 2147483648 in B. destruct (214748364 <=? acc) eqn:A; [|reflexivity]. apply N.leb_le in A. cbn [andb]. apply orb_false_iff. split; apply N.ltb_ge; lia. }
    rewrite O. now apply IH.
Qed.
Lemma exponent_value : forall p m j e x, exponent_of e x -> e <> [] -> (Z.of_N m < 2 ^ 53)%Z -> (Z.abs x < 2 ^ 31)%Z -> (Z.abs (j + x) <= 22)%Z ->
  finish_float p m j e = Some (JFlt (f_of_dec (negb p) m (j + x)), []) /\ exists c r, e = c :: r /\ ((c =? 101) || (c =? 69)) = true /\ (c =? 46) = false /\ is_digit c = false /\ parse_exponent p m j r = Some (JFlt (f_of_dec (negb p) m (j + x)), []).
Proof.
  intros p m j e x [[-> _]|(l & ds & L & D & S)] Ne Lm Lx B; [congruence|].
  assert (G : exists sg, In sg [[]; lit "+"; lit "-"] /\ e = l ++ sg ++ ds /\ x = (if str_eqb sg (lit "-") then - Z.of_N (digits_value ds) else Z.of_N (digits_value ds))%Z).
  { destruct S as [[[->| ->] ->]|[-> ->]]; [exists []|exists (lit "+")|exists (lit "-")]; (split; [cbn; tauto|]); split; reflexivity. }
  destruct G as (sg & Sg & -> & Ex). assert (P : parse_exponent p m j (sg ++ ds) = Some (JFlt (f_of_dec (negb p) m (j + x)), [])).
  { pose proof (some_digits_all ds D) as [Nd Dd]. destruct ds as [|c ds]; [congruence|]. pose proof Dd as Dd'. cbn [forallb] in Dd'. apply andb_true_iff in Dd' as [Dc Ds].
    assert (V : exp_digits (c - 48) ds = (Some (digits_value (c :: ds)), [])).
    { assert (E : digits_value (c :: ds) = (c - 48) * 10 ^ N.of_nat (length ds) + digits_value ds). { unfold digits_value at 1. cbn [fold_left]. rewrite fold_value. f_equal. }
      rewrite E. apply exp_value; [assumption|]. rewrite <- E. destruct (str_eqb sg (lit "-")); lia. }
    assert (C : clamp_i32 (j + x) = (j + x)%Z) by (unfold clamp_i32; lia).
    pose proof (proj1 (is_digit_range c) Dc) as Rc.
    clear S Ne. rewrite exponent_eq. destruct Sg as [<-|[<-|[<-|[]]]].
    - cbn [app]. replace (c =? 43) with false by (symmetry; apply N.eqb_neq; lia). replace (c =? 45) with false by (symmetry; apply N.eqb_neq; lia). rewrite Dc, V. cbn [negb]. change (str_eqb [] (lit "-")) with false in Ex. cbv iota in Ex. rewrite <- Ex, C, parts_exact by assumption. reflexivity.
    - change (lit "+" ++ c :: ds) with (43 :: c :: ds). cbv beta iota. change (43 =? 43) with true. change (43 =? 45) with false. cbv beta iota. rewrite Dc, V. cbn [negb]. change (str_eqb (lit "+") (lit "-")) with false in Ex. cbv iota in Ex. rewrite <- Ex, C, parts_exact by assumption. reflexivity.
    - change (lit "-" ++ c :: ds) with (45 :: c :: ds). cbv beta iota. change (45 =? 43) with false. change (45 =? 45) with true. cbv beta iota. rewrite Dc, V. cbn [negb]. change (str_eqb (lit "-") (lit "-")) with true in Ex. cbv iota in Ex. replace (j - Z.of_N (digits_value (c :: ds)))%Z with (j + x)%Z by lia. rewrite C, parts_exact by assumption. reflexivity. }
  destruct L as [<-|[<-|[]]]; (split; [rewrite finish_eq; exact P|]); eexists; eexists; (split; [reflexivity|]); repeat (split; [reflexivity|]); exact P.
Qed.

(** ** Numbers with a point or a power of ten *)
Lemma finish_value : forall p m j e x, exponent_of e x -> (Z.of_N m < 2 ^ 53)%Z -> (Z.abs x < 2 ^ 31)%Z -> (Z.abs (j + x) <= 22)%Z -> finish_float p m j e = Some (JFlt (f_of_dec (negb p) m (j + x)), []).
Proof.
  intros p m j e x E Lm Lx B. destruct e as [|c e]; [|now apply exponent_value].
  destruct E as [[_ ->]|(l & ds & L & _ & [[[K|K] _]|[K _]])]; try (destruct L as [<-|[<-|[]]]; discriminate K). rewrite finish_eq, Z.add_0_r in *. now rewrite parts_exact.
Qed.
Lemma no_digit : forall e x, exponent_of e x -> match e with c :: _ => is_digit c = false | [] => True end.
Proof. intros e x [[-> _]|(l & ds & L & _ & [[[->| ->] _]|[-> _]])]; [exact Logic.I| | |]; destruct L as [<-|[<-|[]]]; reflexivity. Qed.
Lemma point_read : forall p a f ds e x, whole_shape a -> fraction_of f ds -> exponent_of e x -> f ++ e <> [] -> digits_value (a ++ ds) < 2 ^ 53 ->
  (Z.abs x < 2 ^ 31)%Z -> (Z.abs (x - Z.of_nat (length ds)) <= 22)%Z ->
  parse_integer p (a ++ f ++ e) = Some (JFlt (f_of_dec (negb p) (digits_value (a ++ ds)) (x - Z.of_nat (length ds))), []).
Proof.
  intros p a f ds e x W F E Ne V Lx B. assert (B53 : 2 ^ 53 < 2 ^ 64) by reflexivity. assert (Z53 : (2 ^ 53)%Z = Z.of_N (2 ^ 53)) by reflexivity. destruct F as [[-> ->]|[D ->]].
  - rewrite app_nil_r in *. cbn [app length] in *. change (Z.of_nat 0) with 0%Z in *. rewrite Z.sub_0_r in *. rewrite (parse_integer_read p (digits_value a) a e (whole_text a W)); [|lia|now apply (no_digit e x)].
    destruct (exponent_value p (digits_value a) 0 e x E Ne ltac:(rewrite Z53; lia) Lx ltac:(lia)) as (_ & c & r & -> & C1 & C2 & _ & P). rewrite tail_eq, C2, C1. rewrite P. reflexivity.
  - pose proof (some_digits_all ds D) as [Nd Dd]. pose proof V as V'. rewrite digits_value_app in V'.
    rewrite (parse_integer_read p (digits_value a) a _ (whole_text a W)); [|pose proof (grow ds (digits_value a)); lia|reflexivity].
    rewrite <- app_assoc. change (lit "." ++ ds ++ e) with (46 :: ds ++ e). rewrite tail_eq. change (46 =? 46) with true. cbv iota. unfold parse_decimal.
    destruct (ds ++ e) as [|c r] eqn:Ed; [destruct ds; [congruence|discriminate]|].
    assert (Dc : is_digit c = true). { destruct ds as [|c' b']; [congruence|]. cbn [app] in Ed. injection Ed as <- _. cbn [forallb] in Dd. now apply andb_true_iff in Dd as [Dd _]. }
    rewrite Dc, <- Ed. rewrite decimal_digits_read; [|assumption|lia|now apply (no_digit e x)]. rewrite <- digits_value_app. rewrite (finish_value p _ _ e x E); [|rewrite Z53; lia|assumption|lia]. replace (0 + (0 - Z.of_nat (length ds)) + x)%Z with (x - Z.of_nat (length ds))%Z by lia. reflexivity.
Qed.
Lemma value_shape : forall s n, number_value s n -> number_shape s.
Proof.
  assert (E0 : forall e x, exponent_of e x -> exponent_shape e).
  { intros e x [[-> _]|(l & ds & L & D & S)]; [now left|]. right. destruct S as [[[->| ->] _]|[-> _]]; [exists l, [], ds|exists l, (lit "+"), ds|exists l, (lit "-"), ds]; (split; [assumption|]); (split; [cbn; tauto|]); split; [assumption|reflexivity|assumption|reflexivity|assumption|reflexivity]. }
  intros s n [a W V|a W V|a y W V D|neg a f ds e x y W F E Ne V Lx B D].
  - apply (whole_number_shape [] a); [now left|assumption].
  - apply (whole_number_shape (lit "-") a); [right; now left|assumption].
  - apply (whole_number_shape (lit "-") a); [right; now left|assumption].
  - exists (if neg then lit "-" else []), a, f, e. split; [destruct neg; cbn; tauto|]. split; [assumption|]. split; [|split; [exact (E0 e x E)|reflexivity]]. destruct F as [[-> _]|[Sd ->]]; [now left|right; now exists ds].
Qed.
Lemma value_result : forall s n, number_value s n -> number_result s = Some (n, []).
Proof.
  intros s n [a W V|a W V|a y W V D|neg a f ds e x y W F E Ne V Lx B D].
  - rewrite <- (app_nil_r a) at 1. rewrite (plus_result a [] W), app_nil_r. now apply (whole_read true).
  - change (number_result (lit "-" ++ a)) with (parse_integer false a). rewrite whole_read; [|assumption|apply (N.le_lt_trans _ (2 ^ 63)); [tauto|reflexivity]]. unfold whole_result. rewrite (proj2 (N.eqb_neq _ 0)) by lia. rewrite (proj2 (N.ltb_ge _ _)); [reflexivity|]. change 9223372036854775808 with (2 ^ 63). tauto.
  - change (number_result (lit "-" ++ a)) with (parse_integer false a). apply denotes_iff in D. rewrite whole_read by (assumption || (destruct V as [->|V]; [reflexivity|tauto])). unfold whole_result. assert (O : (digits_value a =? 0) || (9223372036854775808 <? digits_value a) = true).
    { apply orb_true_iff. destruct V as [->|[V _]]; [now left|right]. apply N.ltb_lt. exact V. }
    rewrite O, D. now rewrite dec_sign, f_of_dec_int.
  - apply denotes_iff in D. subst y. destruct neg; cbn [app].
    + change (number_result (lit "-" ++ a ++ f ++ e)) with (parse_integer false (a ++ f ++ e)). now rewrite (point_read false a f ds e x).
    + rewrite (plus_result a _ W). now rewrite (point_read true a f ds e x).
Qed.
Lemma number_read : forall s n, number_value s n -> json_parse s = Some (JNum n).
Proof. intros s n V. apply parsed_number; [now apply (value_shape s n)|now apply value_result]. Qed.

Section Depth.
  Context {X : Ext}.
  Lemma meant_depth : forall d t j, means d t j -> (nesting j <= d)%nat.
  Proof.
    induction d as [|d IH]; intros t j M; inversion M as [|?|?|? ? ? ? ?|? ? ? ?|? w B|? ts js Ne F|? w B|? ts ms kvs' Ne F O L]; subst; cbn [nesting map list_max fold_right]; try lia.
    - apply le_n_S. apply list_max_le. rewrite Forall_forall. intros n I. apply in_map_iff in I as (j & <- & I). clear - F IH I. induction F as [|t v ts js (w1 & s & w2 & _ & _ & _ & T) F IHF]; [contradiction|]. destruct I as [->|I]; [exact (IH s j T)|now apply IHF].
    - apply le_n_S. apply list_max_le. rewrite Forall_forall. intros n I. apply in_map_iff in I as ((k & j) & <- & I). apply L in I. assert (Im : In (k, j) ms) by (destruct I as (b & a & -> & _); apply in_or_app; right; now left). clear - F IH Im. cbn [snd].
      induction F as [|t m ts ms (w1 & q & w2 & v & _ & _ & _ & _ & w3 & s & w4 & _ & _ & _ & T) F IHF]; [contradiction|]. destruct Im as [->|Im]; [exact (IH s j T)|now apply IHF].
  Qed.
  Lemma read_depth : forall s j, json_parse s = Some j -> (nesting j <= 127)%nat.
  Proof. intros s j K. apply json_meant in K as (w1 & t & w2 & _ & _ & _ & M). exact (meant_depth 127 t j M). Qed.
End Depth.
Section Unique.
  Context {X : Ext}.
  Lemma meant_once : forall d s j j', means d s j -> means d s j' -> j = j'.
  Proof. intros d s j j' M M'. pose proof (meant_read d s j M [] Logic.I) as R. rewrite (meant_read d s j' M' [] Logic.I) in R. now injection R. Qed.
  Lemma whole_or_none : forall s, (exists j, around (fun t => means 127 t j) s) \/ json_parse s = None /\ forall j, ~ around (fun t => means 127 t j) s.
  Proof.
    intros s. destruct (json_parse s) as [j|] eqn:E; [left; exists j; now apply json_meant|]. right. split; [reflexivity|]. intros j M. apply json_meant in M. congruence.
  Qed.
End Unique.
