(** Conversions of values and number methods. *)
From Coq Require Import String List ZArith NArith Bool Lia QArith Qabs Qround Lqa.
From Coq Require Import Floats.SpecFloat.
From Verif Require Import Base Base_proofs F64 F64Text Syntax Ext Json Utils Arrays Arith Utf8 Strings Dispatch Methods Core Evaluator Api Spec Spec_syntax Spec_text Spec_numbers Spec_json Spec_http Spec_methods Spec_stats.
From Verif Require Import Float_proofs Text_proofs Display_proofs Cast_proofs Array_proofs String_proofs Logic_proofs Value_proofs DateFn_proofs HttpRead_proofs Round_proofs Nearest_proofs Rounding_proofs Number_proofs Json_proofs Object_proofs Debug_proofs Eval_proofs Compare_proofs Stats_proofs Sqrt_proofs Method_proofs Method_array_proofs.
Import ListNotations.
Local Open Scope Z_scope.

(** ** Whole parts *)
Lemma trunc_truncated : forall x, is_finite x = true -> trunc_Z x = truncated (exact x).
Proof.
  intros [s|s| |s m e] F; try discriminate.
  - unfold truncated, exact. destruct (Qlt_le_dec 0 0) as [L|L]; [|reflexivity]. exfalso. revert L. unfold Qlt. cbn. lia.
  - unfold trunc_Z. destruct (Z.leb_spec 0 e) as [L|L].
    + symmetry. unfold truncated. rewrite (Qfloor_comp _ _ (exact_int s m e L)), (Qceiling_comp _ _ (exact_int s m e L)), Qfloor_Z, Qceiling_Z. unfold signed. destruct (Qlt_le_dec _ _), s; lia.
    + rewrite exact_frac by assumption. assert (D : 0 < 2 ^ (- e)) by (apply Z.pow_pos_nonneg; lia). unfold truncated. destruct s; unfold signed.
      * destruct (Qlt_le_dec _ _) as [K|K]; [|exfalso; revert K; unfold Qle; cbn; lia]. unfold Qceiling, Qopp, Qfloor. cbn [Qnum Qden Z.opp]. rewrite Z2Pos.id by assumption. lia.
      * destruct (Qlt_le_dec _ _) as [K|K]; [exfalso; revert K; unfold Qlt; cbn; lia|]. unfold Qfloor. rewrite Z2Pos.id by assumption. reflexivity.
Qed.
Lemma trunc_exactly : forall x, representable x -> is_finite x = true -> is_exactly (f_trunc x) (inject_Z (truncated (exact x))).
Proof.
  intros x R F. rewrite <- trunc_truncated by assumption. destruct x as [s|s| |s m e]; try discriminate.
  - split; [reflexivity|]. split; [exact R|]. reflexivity.
  - unfold f_trunc. destruct (Z.leb_spec 0 e) as [L|L].
    + split; [assumption|]. split; [assumption|]. rewrite exact_int by assumption. unfold trunc_Z, signed. replace (0 <=? e) with true by (symmetry; apply Z.leb_le; lia). destruct s; [|reflexivity]. apply inject_Z_injective. lia.
    + destruct (representable_digits s m e R) as (D1 & D2 & D3). assert (D : 0 < 2 ^ (- e)) by (apply Z.pow_pos_nonneg; lia).
      assert (B : Z.abs (trunc_Z (S754_finite s m e)) <= 2 ^ 53).
      { unfold trunc_Z. replace (0 <=? e) with false by (symmetry; apply Z.leb_gt; lia). assert (0 <= Zpos m / 2 ^ (- e) <= Zpos m). { split; [apply Z.div_pos; lia|]. apply Z.div_le_upper_bound; nia. } destruct s; lia. }
      destruct (of_Z_signed_exact s _ B) as (A1 & A2 & A3). split; [assumption|]. split; assumption.
Qed.
Lemma fract_zero : forall x, representable x -> f_eqb (f_fract x) f_zero = true <-> is_finite x = true /\ exists z, (exact x == inject_Z z)%Q.
Proof.
  intros x R. destruct (is_finite x) eqn:F.
  2: { destruct x as [s|s| |s m e]; try discriminate; (split; [|intros [K _]; discriminate]); try destruct s; vm_compute; discriminate. }
  destruct (trunc_exactly x R F) as (F1 & R1 & E1). rewrite <- trunc_truncated in E1 by assumption. pose proof (sub_rounded x (f_trunc x) R R1 F F1) as Q.
  assert (D : is_double (exact x - exact (f_trunc x))).
  { destruct x as [s|s| |s m e]; try discriminate.
    - exists f_zero. split; [reflexivity|]. split; [reflexivity|]. cbn [f_trunc]. unfold exact. reflexivity.
    - destruct (Z.leb_spec 0 e) as [L|L].
      + unfold f_trunc. replace (0 <=? e) with true by (symmetry; apply Z.leb_le; lia). exists f_zero. split; [reflexivity|]. split; [reflexivity|]. change (exact f_zero) with 0%Q. ring.
      + destruct (representable_digits s m e R) as (D1 & D2 & D3). assert (D : 0 < 2 ^ (- e)) by (apply Z.pow_pos_nonneg; lia).
        assert (G : is_double (units (Z.rem (signed s m) (2 ^ (- e))) e)). { apply grid_double; [|lia]. unfold signed. destruct s; [change (Zneg m) with (- Zpos m); rewrite Z.rem_opp_l by lia|]; rewrite Z.rem_mod_nonneg by lia; pose proof (Z.mod_pos_bound (Zpos m) _ D); pose proof (Z.mod_le (Zpos m) (2 ^ - e)); lia. }
        destruct G as (y & A & B & C). exists y. split; [assumption|]. split; [assumption|]. rewrite C, E1, exact_frac by assumption. unfold units, pw.
        replace (Z.max e 0) with 0 by lia. replace (Z.max (- e) 0) with (- e) by lia. change (2 ^ 0) with 1. rewrite Z.mul_1_r. unfold Qeq, Qminus, Qplus, Qopp, inject_Z. cbn [Qnum Qden]. rewrite Pos.mul_1_r, Z.mul_1_r. rewrite Z2Pos.id by assumption.
        unfold trunc_Z. replace (0 <=? e) with false by (symmetry; apply Z.leb_gt; lia). unfold signed. destruct s.
        * change (Zneg m) with (- Zpos m). rewrite Z.rem_opp_l, Z.rem_mod_nonneg by lia. rewrite Z.mod_eq by lia. nia.
        * rewrite Z.rem_mod_nonneg by lia. rewrite Z.mod_eq by lia. nia. }
  destruct (rounded_exact _ _ Q D) as (F2 & R2 & E2). fold (f_fract x) in F2, R2, E2. change (f_sub x (f_trunc x)) with (f_fract x) in *. rewrite (eqb_exact _ f_zero R2 eq_refl F2 eq_refl), E2, E1. change (exact f_zero) with 0%Q. split.
  - intros H. split; [reflexivity|]. exists (trunc_Z x). lra.
  - intros [_ (z & Hz)]. rewrite (trunc_exact x z F Hz), Hz. ring.
Qed.
(** ** Texts of numbers *)
Lemma fixed_whole : forall x z, is_finite x = true -> (exact x == inject_Z z)%Q -> z <> 0 -> f_fixed 0 x = Z_to_str z.
Proof.
  intros [s|s| |s m e] z F E N0; try discriminate.
  - exfalso. apply N0. unfold exact, Qeq in E. cbn in E. lia.
  - assert (K : scaled m e 0 = (Z.abs z, 0, if e <? 0 then 2 ^ (- e) else 1) /\ s = (z <? 0)).
    { unfold scaled. change (0 <=? 0) with true. change (0 <? 0) with false. cbv iota. change (10 ^ 0) with 1. rewrite !Z.mul_1_r. destruct (Z.leb_spec 0 e) as [L|L].
      - replace (e <? 0) with false by (symmetry; apply Z.ltb_ge; lia). rewrite Z.div_1_r, Z.mod_1_r. rewrite exact_int in E by assumption. apply (proj1 (inject_Z_injective _ _)) in E. subst z. assert (0 < 2 ^ e) by (apply Z.pow_pos_nonneg; lia). unfold signed. destruct s.
        + split; [rewrite Z.abs_mul, (Z.abs_eq (2 ^ e)) by lia; reflexivity|]. symmetry. apply Z.ltb_lt. nia.
        + split; [rewrite Z.abs_mul, (Z.abs_eq (2 ^ e)) by lia; reflexivity|]. symmetry. apply Z.ltb_ge. nia.
      - replace (e <? 0) with true by (symmetry; apply Z.ltb_lt; lia). rewrite Z.mul_1_r. rewrite exact_frac in E by assumption. assert (D : 0 < 2 ^ (- e)) by (apply Z.pow_pos_nonneg; lia). unfold Qeq in E. cbn [Qnum Qden inject_Z] in E. rewrite Z2Pos.id in E by assumption. rewrite Z.mul_1_r in E.
        assert (M : Zpos m = Z.abs z * 2 ^ (- e)). { rewrite <- (Z.abs_eq (2 ^ (- e))) by lia. rewrite <- Z.abs_mul, <- E. destruct s; reflexivity. } rewrite M, Z.div_mul, Z.mod_mul by lia. split; [reflexivity|]. unfold signed in E. destruct s; symmetry; [apply Z.ltb_lt|apply Z.ltb_ge]; nia. }
    destruct K as [K ->]. unfold f_fixed. change (Z.of_nat 0) with 0. rewrite K. unfold round_half_even. replace (2 * 0 <? (if e <? 0 then 2 ^ (- e) else 1)) with true.
    2: { symmetry. apply Z.ltb_lt. destruct (Z.ltb_spec e 0); [apply Z.pow_pos_nonneg; lia|lia]. }
    cbv iota beta. destruct (N_to_str_spec (Z.to_N (Z.abs z))) as ((Nn & _) & _). replace (1 - length (N_to_str (Z.to_N (Z.abs z))))%nat with 0%nat by (destruct (N_to_str _); [congruence|cbn; lia]).
    cbn [zeros app]. destruct z as [|p|p]; [congruence|reflexivity|reflexivity].
Qed.
Lemma half_even_nearest : forall n d, 0 < d -> nearest_whole (n # Z.to_pos d) (round_half_even (n / d) (n mod d) d).
Proof.
  intros n d D. unfold nearest_whole. assert (E : forall z, ((n # Z.to_pos d) - inject_Z z == (n - z * d # Z.to_pos d))%Q).
  { intros z. unfold Qeq, Qminus, Qplus, Qopp, inject_Z. cbn [Qnum Qden]. rewrite Z2Pos.id, Pos.mul_1_r, Z2Pos.id by assumption. ring. }
  assert (A : forall z, (Qabs ((n # Z.to_pos d) - inject_Z z) <= 1 # 2)%Q <-> 2 * Z.abs (n - z * d) <= d).
  { intros z. rewrite E. unfold Qle, Qabs. cbn [Qnum Qden]. rewrite Z2Pos.id by assumption. lia. }
  assert (B : forall z, (Qabs ((n # Z.to_pos d) - inject_Z z) == 1 # 2)%Q <-> 2 * Z.abs (n - z * d) = d).
  { intros z. rewrite E. unfold Qeq, Qabs. cbn [Qnum Qden]. rewrite Z2Pos.id by assumption. lia. }
  rewrite A, B. pose proof (Z.div_mod n d ltac:(lia)) as DM. pose proof (Z.mod_pos_bound n d D) as MB. set (q := n / d) in *. set (r := n mod d) in *. unfold round_half_even.
  destruct (Z.ltb_spec (2 * r) d); [split; [|intros]; nia|]. destruct (Z.ltb_spec d (2 * r)); [split; [|intros]; nia|]. destruct (Z.even q) eqn:Ev; (split; [nia|]); intros _.
  - now apply Z.even_spec.
  - rewrite <- Z.even_spec, Z.add_1_r, Z.even_succ, <- Z.negb_even, Ev. reflexivity.
Qed.
Lemma scaled_value : forall s m e t, 0 <= t -> exists n d, 0 < d /\ 0 <= n /\ scaled m e t = (n / d, n mod d, d) /\ (Qabs (exact (S754_finite s m e)) * inject_Z (10 ^ t) == n # Z.to_pos d)%Q.
Proof.
  intros s m e t T. unfold scaled. replace (0 <=? t) with true by (symmetry; apply Z.leb_le; lia). replace (t <? 0) with false by (symmetry; apply Z.ltb_ge; lia). assert (P : 0 < 10 ^ t) by (apply Z.pow_pos_nonneg; lia).
  destruct (Z.leb_spec 0 e) as [L|L].
  - replace (e <? 0) with false by (symmetry; apply Z.ltb_ge; lia). assert (0 < 2 ^ e) by (apply Z.pow_pos_nonneg; lia). exists (Zpos m * 2 ^ e * 10 ^ t), 1. split; [lia|]. split; [nia|]. split; [reflexivity|]. rewrite exact_int by assumption.
    assert (A : Z.abs (signed s m * 2 ^ e) = Zpos m * 2 ^ e) by (rewrite Z.abs_mul, (Z.abs_eq (2 ^ e)) by lia; destruct s; reflexivity).
    unfold Qeq, Qmult, Qabs, inject_Z. cbn [Qnum Qden]. rewrite A. change (Zpos (Z.to_pos 1)) with 1. change (Zpos (1 * 1)) with 1. ring.
  - replace (e <? 0) with true by (symmetry; apply Z.ltb_lt; lia). assert (D : 0 < 2 ^ (- e)) by (apply Z.pow_pos_nonneg; lia). exists (Zpos m * 1 * 10 ^ t), (2 ^ (- e) * 1). split; [lia|]. split; [nia|]. split; [reflexivity|]. rewrite exact_frac by assumption.
    assert (A : Z.abs (signed s m) = Zpos m) by (destruct s; reflexivity). unfold Qeq, Qmult, Qabs, inject_Z. cbn [Qnum Qden]. rewrite A, !Z.mul_1_r, Pos.mul_1_r, Z2Pos.id by lia. ring.
Qed.
Lemma digits_value_bound : forall b, forallb is_digit b = true -> (digits_value b < 10 ^ N.of_nat (length b))%N.
Proof.
  induction b as [|d b IH]; intros H; [reflexivity|]. cbn [forallb] in H. apply andb_true_iff in H as [Hd H]. apply is_digit_range in Hd. specialize (IH H). change (d :: b) with ([d] ++ b). rewrite digits_value_app, app_length.
  rewrite Nat2N.inj_add, N.pow_add_r. change (10 ^ N.of_nat (length [d]))%N with 10%N. change (digits_value [d]) with (d - 48)%N. nia.
Qed.
Lemma cents_text : forall z, 0 <= z -> let ds := N_to_str (Z.to_N z) in let ds' := zeros (3 - length ds) ++ ds in let n := (length ds' - 2)%nat in
  decimal_text_of (Z.to_N (z / 100)) (firstn n ds') /\ length (skipn n ds') = 2%nat /\ all_digits (skipn n ds') /\ Z.of_N (digits_value (skipn n ds')) = z mod 100.
Proof.
  intros z Hz ds ds' n. destruct (N_to_str_spec (Z.to_N z)) as ((C0 & C1) & C2 & C3). fold ds in C0, C1, C2, C3. assert (Dg : forallb is_digit ds' = true) by (unfold ds'; rewrite forallb_app, zeros_digits; assumption).
  assert (V : digits_value ds' = Z.to_N z) by (unfold ds'; rewrite digits_value_app, zeros_value; lia). assert (Ln : (3 <= length ds')%nat) by (unfold ds'; rewrite app_length, zeros_length; lia).
  assert (Lb : length (skipn n ds') = 2%nat) by (rewrite skipn_length; unfold n; lia). assert (La : (1 <= length (firstn n ds'))%nat) by (rewrite firstn_length; unfold n; lia).
  assert (Cut : ds' = firstn n ds' ++ skipn n ds') by (symmetry; apply firstn_skipn). set (a := firstn n ds') in *. set (b := skipn n ds') in *. rewrite Cut in V, Dg. rewrite forallb_app in Dg. apply andb_true_iff in Dg as [Da Db]. rewrite digits_value_app, Lb in V. change (10 ^ N.of_nat 2)%N with 100%N in V.
  assert (Bb : (digits_value b < 100)%N). { pose proof (digits_value_bound b Db) as K. rewrite Lb in K. exact K. }
  assert (Z1 : z / 100 = Z.of_N (digits_value a)) by (symmetry; apply Z.div_unique with (Z.of_N (digits_value b)); lia). assert (Z2 : z mod 100 = Z.of_N (digits_value b)) by (symmetry; apply Z.mod_unique with (Z.of_N (digits_value a)); lia).
  split; [|split; [assumption|split; [exact Db|now symmetry]]]. split; [split; [intros K; rewrite K in La; cbn in La; lia|assumption]|]. split; [rewrite Z1; lia|].
  intros H. destruct (Nat.leb_spec 3 (length ds)) as [L|L].
  - exfalso. assert (E : ds' = ds) by (unfold ds'; replace (3 - length ds)%nat with 0%nat by lia; reflexivity). assert (H2 : hd 0%N ds = 48%N). { rewrite <- E, Cut. destruct a; [cbn in La; lia|exact H]. } apply C3 in H2. rewrite H2 in L. cbn in L. lia.
  - assert (E : length ds' = 3%nat) by (unfold ds'; rewrite app_length, zeros_length; lia). assert (La' : length a = 1%nat) by (unfold a; rewrite firstn_length; unfold n; lia). destruct a as [|y [|? ?]]; cbn in La'; try lia. cbn [hd] in H. now rewrite H.
Qed.
Lemma fixed_cents : forall x, is_finite x = true -> exists z units cents, nearest_whole (Qabs (exact x) * 100) z /\
    decimal_text_of (Z.to_N (z / 100)) units /\ length cents = 2%nat /\ all_digits cents /\ Z.of_N (digits_value cents) = z mod 100 /\ f_fixed 2 x = minus x ++ units ++ lit "." ++ cents.
Proof.
  intros x F. assert (K : exists z, 0 <= z /\ nearest_whole (Qabs (exact x) * 100) z /\ f_fixed 2 x = (let ds := N_to_str (Z.to_N z) in let ds' := zeros (3 - length ds) ++ ds in let n := (length ds' - 2)%nat in minus x ++ firstn n ds' ++ lit "." ++ skipn n ds')).
  { destruct x as [s|s| |s m e]; try discriminate.
    - exists 0. split; [lia|]. split; [|destruct s; reflexivity]. unfold nearest_whole. assert (E : (Qabs (exact (S754_zero s)) * 100 - inject_Z 0 == 0)%Q) by (cbn; reflexivity). rewrite E. split; [discriminate|]. intros K. discriminate.
    - destruct (scaled_value s m e 2 ltac:(lia)) as (n & d & D & N0 & S0 & V). exists (round_half_even (n / d) (n mod d) d). assert (0 <= n / d) by (apply Z.div_pos; lia). split.
      + unfold round_half_even. destruct (2 * (n mod d) <? d), (d <? 2 * (n mod d)), (Z.even (n / d)); lia.
      + split.
        * pose proof (half_even_nearest n d D) as (A & B). change (inject_Z (10 ^ 2)) with 100%Q in V. split; [now rewrite V|]. intros K. apply B. now rewrite <- V.
        * unfold f_fixed. change (Z.of_nat 2) with 2. rewrite S0. destruct s; reflexivity. }
  destruct K as (z & Hz & Hn & E). destruct (cents_text z Hz) as (A1 & A2 & A3 & A4). eexists z, _, _. split; [assumption|]. split; [exact A1|]. split; [exact A2|]. split; [exact A3|]. split; [exact A4|]. exact E.
Qed.

Section ValueMethods.
  Context {X : Ext}.
  (** ** Conversions *)
  Lemma conversion_run : forall c t v n args names, In names [["to_s"; "to_string"]; ["to_i"; "to_int"]; ["to_f"; "to_float"]; ["to_a"; "to_array"]; ["to_json"]; ["to_bool"; "to_boolean"]]%string ->
    any_of names n -> eval t c = Ok v -> eval (method t n args) c = exec_conversion n v.
  Proof.
    intros c t v n args names J (name & I & S0) Hv. rewrite (method_run _ _ _ _ _ Hv). unfold exec_method. assert (K : one_of conversion_names (to_lowercase n) = true).
    { rewrite (spelled_lower _ _ S0); repeat (destruct J as [<-|J]; [repeat (destruct I as [<-|I]; [reflexivity|]); contradiction|]); contradiction. }
    rewrite K. reflexivity.
  Qed.
  Ltac conversion_step Hv I S0 names := let E := fresh in
    match goal with |- context [eval (method ?t ?n ?args) ?c] => match type of Hv with _ = Ok ?v =>
      assert (E : eval (method t n args) c = exec_conversion n v) by (apply (conversion_run c t v n args names); [cbn; tauto|eexists; split; [exact I|exact S0]|exact Hv]); rewrite E; clear E end end; unfold exec_conversion.
  Ltac conversion Hv I S0 names := conversion_step Hv I S0 names;
    repeat (destruct I as [<-|I]; [rewrite !(spelled_lower _ _ S0) by reflexivity; name_tests|]); [..|contradiction I].
  Lemma not_finite_not_whole : forall x, is_finite x = false -> f_eqb (f_fract x) f_zero = false.
  Proof. intros [s|[]| |s m e] H; try discriminate; reflexivity. Qed.
  Lemma to_s_shown : forall v, doubles v -> shown v (to_s v).
  Proof.
    induction v as [x|xs IH|b|s| |x|t|s] using value_ind'; intros D; cbn [to_s].
    - destruct (f_eqb (f_fract x) f_zero) eqn:E.
      + apply fract_zero in E as (F & z & Ez); [|exact D]. destruct (Z.eq_dec z 0) as [->|N0].
        * destruct x as [[]|s| |s m e]; try discriminate; try (now apply (shown_zero true)); try (now apply (shown_zero false)). exfalso. destruct (Z.leb_spec 0 e) as [L|L].
          -- rewrite exact_int in Ez by assumption. apply (proj1 (inject_Z_injective _ _)) in Ez. assert (0 < 2 ^ e) by (apply Z.pow_pos_nonneg; lia). destruct s; cbn [signed] in Ez; nia.
          -- rewrite exact_frac in Ez by assumption. unfold Qeq in Ez. destruct s; cbn in Ez; lia.
        * rewrite (fixed_whole x z F Ez N0). apply (shown_whole x z); [split; [assumption|split; assumption]|assumption|]. now apply written_unique.
      + destruct (is_finite x) eqn:F.
        * apply shown_fraction; [assumption| |now apply display_text]. intros z Ez. assert (f_eqb (f_fract x) f_zero = true) by (apply fract_zero; [exact D|eauto]). congruence.
        * apply shown_other; [assumption|now apply display_text].
    - apply doubles_array in D. apply (shown_array xs (map to_s xs)); [|apply join_joined]. induction IH as [|v xs Hv IH IH2]; [constructor|]. inversion D; subst. constructor; auto.
    - apply shown_truth.
    - constructor.
    - constructor.
    - destruct (is_finite x) eqn:F.
      + destruct (fixed_cents x F) as (z & units & cents & A1 & A2 & A3 & A4 & A5 & ->). now apply (shown_amount x z).
      + apply shown_other_amount; [assumption|]. replace (f_fixed 2 x) with (f_display x); [now apply display_text|]. destruct x as [?|[]| |? ? ?]; try discriminate; reflexivity.
    - constructor. now apply written_unique.
    - constructor.
  Qed.
  Lemma to_s_call : forall c t v n args, any_of ["to_s"; "to_string"]%string n -> eval t c = Ok v -> doubles v -> exists s, eval (method t n args) c = Ok (VString s) /\ shown v s.
  Proof. intros c t v n args (name & I & S0) Hv D. exists (to_s v). split; [|now apply to_s_shown]. conversion Hv I S0 ["to_s"; "to_string"]%string; reflexivity. Qed.
  Lemma to_f_number : forall v x, number_of v x -> to_f v = x.
  Proof.
    intros v x H. destruct H; try reflexivity; cbn [to_f].
    - apply trimmed_iff in H. subst core. apply float_text_iff in H0. now rewrite H0.
    - apply trimmed_iff in H. subst core. destruct (f_from_str (trim s)) as [x|] eqn:E; [|reflexivity]. apply float_text_iff in E. now apply H0 in E.
  Qed.
  Lemma number_exists : forall v, exists x, number_of v x.
  Proof.
    intros [x|xs|b|s| |x|t|s]; try (eexists; constructor). destruct (f_from_str (trim s)) as [x|] eqn:E.
    - exists x. eapply number_text; [apply trim_trimmed|now apply float_text_iff].
    - exists f_zero. eapply number_words; [apply trim_trimmed|]. intros x K. apply float_text_iff in K. congruence.
  Qed.
  Lemma to_f_call : forall c t v x n args, any_of ["to_f"; "to_float"]%string n -> eval t c = Ok v -> number_of v x -> eval (method t n args) c = Ok (VNumber x).
  Proof. intros c t v x n args (name & I & S0) Hv H. apply to_f_number in H. subst x. conversion Hv I S0 ["to_f"; "to_float"]%string; reflexivity. Qed.
  Lemma to_i_call : forall c t v x n args, any_of ["to_i"; "to_int"]%string n -> eval t c = Ok v -> number_of v x -> representable x -> (forall xs, v = VArray xs -> Z.of_nat (length xs) <= 2 ^ 53) ->
    exists y, eval (method t n args) c = Ok (VNumber y) /\ (is_finite x = true -> is_exactly y (inject_Z (truncated (exact x)))) /\ (is_finite x = false -> y = x).
  Proof.
    intros c t v x n args (name & I & S0) Hv H R L. exists (to_i v). split; [conversion Hv I S0 ["to_i"; "to_int"]%string; reflexivity|]. apply to_f_number in H.
    assert (W : (exists z, x = f_of_Z z /\ Z.abs z <= 2 ^ 53) \/ to_i v = f_trunc x).
    { subst x. destruct v as [x|xs|b|s| |x|tt|s]; cbn [to_i]; auto; left.
      - exists (zlen xs). split; [reflexivity|]. specialize (L xs eq_refl). unfold zlen. lia.
      - exists (if b then 1 else 0). split; destruct b; try reflexivity; lia.
    }
    assert (T : to_i v = f_trunc x \/ to_i v = x) by (subst x; destruct v; auto). split.
    - intros F. destruct W as [(z & E & B)|E].
      + destruct T as [->| ->]; [now apply trunc_exactly|]. destruct (of_Z_exact z B) as (F1 & R1 & E1). rewrite E in *. split; [assumption|]. split; [assumption|]. rewrite <- trunc_truncated, (trunc_exact _ z F1 E1) by assumption. exact E1.
      + rewrite E. now apply trunc_exactly.
    - intros F. destruct T as [->| ->]; [|reflexivity]. destruct x; try discriminate; reflexivity.
  Qed.
  Lemma to_a_call : forall c t v n args, any_of ["to_a"; "to_array"]%string n -> eval t c = Ok v -> eval (method t n args) c = Ok (VArray (elements v)).
  Proof. intros c t v n args (name & I & S0) Hv. conversion Hv I S0 ["to_a"; "to_array"]%string; reflexivity. Qed.
  Lemma to_bool_call : forall c t v n args, any_of ["to_bool"; "to_boolean"]%string n -> eval t c = Ok v -> decides (eval (method t n args) c) (~ empty_value v).
  Proof.
    intros c t v n args (name & I & S0) Hv. assert (K : to_bool v = true <-> ~ empty_value v).
    { assert (Q : to_bool v = false <-> empty_value v).
      { unfold empty_value. destruct v as [x|xs|b|s| |x|tt|s]; cbn [to_bool].
        - rewrite negb_false_iff, compare_eq. split; [intros E; do 4 right; exists x; auto|]. intros [H|[H|[H|[H|(y & [H|H] & E)]]]]; try discriminate. now injection H as <-.
        - destruct xs; split; auto; try discriminate. intros [H|[H|[H|[H|(y & [H|H] & E)]]]]; discriminate.
        - destruct b; split; auto; try discriminate. intros [H|[H|[H|[H|(y & [H|H] & E)]]]]; discriminate.
        - destruct s; split; auto; try discriminate. intros [H|[H|[H|[H|(y & [H|H] & E)]]]]; discriminate.
        - split; auto.
        - rewrite negb_false_iff, compare_eq. split; [intros E; do 4 right; exists x; auto|]. intros [H|[H|[H|[H|(y & [H|H] & E)]]]]; try discriminate. now injection H as <-.
        - split; [discriminate|]. intros [H|[H|[H|[H|(y & [H|H] & E)]]]]; discriminate.
        - split; [discriminate|]. intros [H|[H|[H|[H|(y & [H|H] & E)]]]]; discriminate. }
      rewrite <- Q. destruct (to_bool v); split; congruence. }
    conversion Hv I S0 ["to_bool"; "to_boolean"]%string; now apply decides_reflect.
  Qed.
  Lemma storable_same : forall v, storable v -> value_to_json_value v = value_to_json v.
  Proof.
    induction v as [x|xs IH|b|s| |x|t|s] using value_ind'; intros H; inversion H as [| | |z Hz|? Hv]; subst; try reflexivity.
    - cbn [value_to_json value_to_json_value]. destruct (of_Z_exact z ltac:(lia)) as (F & _). unfold json_of_f64, jnum_of_f64. rewrite F. reflexivity.
    - cbn [value_to_json value_to_json_value]. replace (mapM value_to_json_value xs) with (mapM value_to_json xs); [reflexivity|]. clear H. induction IH as [|v xs H1 H2 IH]; [reflexivity|]. inversion Hv; subst. cbn [mapM]. rewrite H1, IH by assumption. reflexivity.
  Qed.
  Lemma to_json_call : forall c t v n args, spelled "to_json" n -> eval t c = Ok v -> storable v -> (depth v <= 127)%nat -> v <> VNull ->
    exists s j, eval (method t n args) c = Ok (VJson s) /\ json_parse s = Some j /\ stands_for j v.
  Proof.
    intros c t v n args S0 Hv St Dp N0. destruct (storable_stored v St) as (j & K1 & K2 & K3 & K4). exists (json_print j), j. split; [|split; [apply round_trip; [assumption|lia]|assumption]].
    assert (I : In "to_json"%string ["to_json"%string]) by now left. conversion_step Hv I S0 ["to_json"%string]. rewrite !(spelled_lower _ _ S0) by reflexivity. name_tests.
    apply stored_iff in K1. pose proof (storable_same v St) as Q. rewrite K1 in Q. destruct v as [x|xs|b|s| |x|tt|s]; try congruence; inversion St; subst; cbn [to_json_text].
    - cbn [value_to_json_value] in Q. rewrite Q. reflexivity.
    - cbn [value_to_json_value] in Q. destruct (mapM value_to_json_value xs) as [js| |]; try discriminate. cbn [bind] in Q. injection Q as <-. reflexivity.
    - cbn in Q. injection Q as <-. reflexivity.
    - cbn in Q. injection Q as <-. reflexivity.
  Qed.
  Lemma to_json_null : forall c t n args, spelled "to_json" n -> eval t c = Ok VNull -> eval (method t n args) c = Ok (VJson (lit "{}")).
  Proof.
    intros c t n args S0 Hv. assert (I : In "to_json"%string ["to_json"%string]) by now left. conversion_step Hv I S0 ["to_json"%string]. rewrite !(spelled_lower _ _ S0) by reflexivity. name_tests. reflexivity.
  Qed.
  Lemma to_json_infinite : forall c t x n args, spelled "to_json" n -> eval t c = Ok (VNumber x) -> is_finite x = false -> fails (eval (method t n args) c).
  Proof.
    intros c t x n args S0 Hv F. assert (I : In "to_json"%string ["to_json"%string]) by now left. conversion_step Hv I S0 ["to_json"%string]. rewrite !(spelled_lower _ _ S0) by reflexivity. name_tests.
    cbn [to_json_text]. unfold jnum_of_f64. rewrite F. eexists. reflexivity.
  Qed.
End ValueMethods.
