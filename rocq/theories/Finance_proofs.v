(** Financial functions. *)
From Coq Require Import String List ZArith NArith Bool Lia QArith.
From Coq Require Import Floats.SpecFloat.
From Verif Require Import Base Base_proofs F64 F64Text Syntax Ext Json Utils Arith Logic Financial Dispatch Core Evaluator Api Spec Spec_syntax Spec_text Spec_numbers Spec_functions.
From Verif Require Import Float_proofs Logic_proofs Value_proofs Rounding_proofs Number_proofs Eval_proofs Compare_proofs Stats_proofs Method_proofs Method_value_proofs.
Import ListNotations.
Local Open Scope Z_scope.

Section Finance.
  Context {X : Ext}.
  Lemma optional_num : forall vs i d x, optional vs i d x -> opt_num vs i d = x.
  Proof. intros vs i d x [H|[-> H]]; unfold opt_num; [now rewrite H|]. destruct (nth_error vs i) as [[]|]; try reflexivity. now destruct (H n). Qed.
  Lemma leb_relation : forall x y, f_leb x y = true <-> number_relation BLe x y.
  Proof. intros x y. unfold f_leb, SFleb, number_relation. destruct (SFcompare x y) as [[]|]; intuition congruence. Qed.
  Lemma ltb_relation : forall x y, f_ltb x y = true <-> number_relation BLt x y.
  Proof. intros x y. unfold f_ltb, SFltb, number_relation. destruct (SFcompare x y) as [[]|]; intuition congruence. Qed.
  Lemma eqb_relation : forall x y, f_eqb x y = true <-> number_relation BEq x y.
  Proof. intros x y. unfold f_eqb, SFeqb, number_relation. destruct (SFcompare x y) as [[]|]; intuition congruence. Qed.
  Lemma leb_not : forall x y, ~ number_relation BLe x y -> f_leb x y = false.
  Proof. intros x y H. destruct (f_leb x y) eqn:E; [|reflexivity]. now apply leb_relation in E. Qed.
  Lemma ltb_not : forall x y, ~ number_relation BLt x y -> f_ltb x y = false.
  Proof. intros x y H. destruct (f_ltb x y) eqn:E; [|reflexivity]. now apply ltb_relation in E. Qed.
  Lemma eqb_not : forall x y, ~ number_relation BEq x y -> f_eqb x y = false.
  Proof. intros x y H. destruct (f_eqb x y) eqn:E; [|reflexivity]. now apply eqb_relation in E. Qed.

  Lemma pmt_call : forall c es rate nper pv more fv ty, uncustomised c "PMT" ->
    evaluate_to c es (VNumber rate :: VNumber nper :: VNumber pv :: more) -> (length more <= 2)%nat ->
    optional more 0 f_zero fv -> optional more 1 f_zero ty ->
    (number_relation BLe nper f_zero -> fails (eval (call "PMT" es) c)) /\
    (~ number_relation BLe nper f_zero -> number_relation BEq rate f_zero ->
       eval (call "PMT" es) c = Ok (VNumber (f_div (f_neg (f_add pv fv)) nper))) /\
    (~ number_relation BLe nper f_zero -> ~ number_relation BEq rate f_zero ->
       eval (call "PMT" es) c = Ok (VNumber (f_div (f_neg (f_add (f_mul pv (growth rate nper)) fv)) (annuity rate nper (at_start ty))))).
  Proof.
    intros c es rate nper pv more fv ty Hu He L O1 O2.
    assert (K : eval (call "PMT" es) c = (if f_leb nper f_zero then Err (err "PMT nper must be positive") else Ok (VNumber (if f_eqb rate f_zero then f_div (f_neg (f_add pv fv)) nper else annuity_payment rate nper pv fv (at_start ty))))).
    { run_builtin. change (exec_builtin_fast (lit "PMT") (VNumber rate :: VNumber nper :: VNumber pv :: more)) with (fn_pmt (VNumber rate :: VNumber nper :: VNumber pv :: more)). unfold fn_pmt.
      replace (arity_between _ 3 5) with true. 2: { symmetry. unfold arity_between. cbn [length]. apply andb_true_iff. split; apply Nat.leb_le; lia. }
      cbn [negb req_num nth_error bind]. change (opt_num (VNumber rate :: VNumber nper :: VNumber pv :: more) 3 f_zero) with (opt_num more 0 f_zero). change (opt_num (VNumber rate :: VNumber nper :: VNumber pv :: more) 4 f_zero) with (opt_num more 1 f_zero).
      rewrite (optional_num _ _ _ _ O1), (optional_num _ _ _ _ O2). reflexivity. }
    rewrite K. split; [|split].
    - intros H. apply leb_relation in H. rewrite H. eexists. reflexivity.
    - intros H1 H2. rewrite (leb_not _ _ H1). apply eqb_relation in H2. now rewrite H2.
    - intros H1 H2. rewrite (leb_not _ _ H1), (eqb_not _ _ H2). reflexivity.
  Qed.
  Lemma fv_call : forall c es rate nper pmt more pv ty, uncustomised c "FV" ->
    evaluate_to c es (VNumber rate :: VNumber nper :: VNumber pmt :: more) -> (length more <= 2)%nat ->
    optional more 0 f_zero pv -> optional more 1 f_zero ty ->
    (number_relation BLt nper f_zero -> fails (eval (call "FV" es) c)) /\
    (~ number_relation BLt nper f_zero -> number_relation BEq rate f_zero ->
       eval (call "FV" es) c = Ok (VNumber (f_sub (f_neg pv) (f_mul pmt nper)))) /\
    (~ number_relation BLt nper f_zero -> ~ number_relation BEq rate f_zero ->
       eval (call "FV" es) c = Ok (VNumber (f_sub (f_mul (f_neg pv) (growth rate nper)) (f_mul pmt (annuity rate nper (at_start ty)))))).
  Proof.
    intros c es rate nper pmt more pv ty Hu He L O1 O2.
    assert (K : eval (call "FV" es) c = (if f_ltb nper f_zero then Err (err "FV nper must be non-negative") else if f_eqb rate f_zero then Ok (VNumber (f_sub (f_neg pv) (f_mul pmt nper))) else Ok (VNumber (f_sub (f_mul (f_neg pv) (growth rate nper)) (f_mul pmt (annuity rate nper (at_start ty))))))).
    { run_builtin. change (exec_builtin_fast (lit "FV") (VNumber rate :: VNumber nper :: VNumber pmt :: more)) with (fn_fv (VNumber rate :: VNumber nper :: VNumber pmt :: more)). unfold fn_fv.
      replace (arity_between _ 3 5) with true. 2: { symmetry. unfold arity_between. cbn [length]. apply andb_true_iff. split; apply Nat.leb_le; lia. }
      cbn [negb req_num nth_error bind]. change (opt_num (VNumber rate :: VNumber nper :: VNumber pmt :: more) 3 f_zero) with (opt_num more 0 f_zero). change (opt_num (VNumber rate :: VNumber nper :: VNumber pmt :: more) 4 f_zero) with (opt_num more 1 f_zero).
      rewrite (optional_num _ _ _ _ O1), (optional_num _ _ _ _ O2). reflexivity. }
    rewrite K. split; [|split].
    - intros H. apply ltb_relation in H. rewrite H. eexists. reflexivity.
    - intros H1 H2. rewrite (ltb_not _ _ H1). apply eqb_relation in H2. now rewrite H2.
    - intros H1 H2. rewrite (ltb_not _ _ H1), (eqb_not _ _ H2). reflexivity.
  Qed.
  Lemma tallied_iter : forall pv pmt rate start k, tallied pv pmt rate start (S k)
    (Nat.iter k (fun b => f_add b (if start then f_sub pmt (f_div (f_mul b rate) (f_add f_one rate)) else f_sub pmt (f_mul b rate))) pv).
  Proof. induction k as [|k IH]; [constructor|]. cbn [Nat.iter nat_rect]. pose proof (tallied_next _ _ _ _ _ _ IH) as H. destruct start; exact H. Qed.
  Lemma tallied_unique : forall pv pmt rate start k b b', tallied pv pmt rate start k b -> tallied pv pmt rate start k b' -> b = b'.
  Proof.
    intros pv pmt rate start k b b' H. revert b'. induction H as [|k b H IH]; intros b' H'; inversion H'; subst; try reflexivity.
    - inversion H0.
    - inversion H.
    - rewrite (IH _ H1). reflexivity.
  Qed.
  Lemma ipmt_call : forall c es es' rate per nper pv more fv ty, uncustomised c "IPMT" -> uncustomised c "PMT" ->
    evaluate_to c es (VNumber rate :: VNumber per :: VNumber nper :: VNumber pv :: more) -> (length more <= 2)%nat ->
    evaluate_to c es' (VNumber rate :: VNumber nper :: VNumber pv :: more) ->
    optional more 0 f_zero fv -> optional more 1 f_zero ty ->
    (number_relation BLt per f_one \/ number_relation BLt nper per \/ number_relation BLe nper f_zero -> fails (eval (call "IPMT" es) c)) /\
    (~ (number_relation BLt per f_one \/ number_relation BLt nper per \/ number_relation BLe nper f_zero) ->
       (number_relation BEq rate f_zero -> eval (call "IPMT" es) c = Ok (num 0)) /\
       (~ number_relation BEq rate f_zero -> forall k, per = f_of_Z (Z.of_nat k) -> Z.of_nat k < 2 ^ 31 ->
          exists pmt b, eval (call "PMT" es') c = Ok (VNumber pmt) /\ tallied pv pmt rate (at_start ty) k b
            /\ eval (call "IPMT" es) c = Ok (VNumber (if at_start ty && (k =? 1)%nat then f_zero else f_mul b rate)))).
  Proof.
    intros c es es' rate per nper pv more fv ty Hu Hu' He L He' O1 O2.
    assert (K : eval (call "IPMT" es) c = (if f_ltb per f_one || f_ltb nper per || f_leb nper f_zero then Err (err "IPMT period must be between 1 and nper") else if f_eqb rate f_zero then Ok (VNumber f_zero) else
      Ok (VNumber (if at_start ty && f_eqb per f_one then f_zero else f_mul (iterZ (f_to_i32 per - 1) (fun b => f_add b (if at_start ty then f_sub (annuity_payment rate nper pv fv (at_start ty)) (f_div (f_mul b rate) (f_add f_one rate)) else f_sub (annuity_payment rate nper pv fv (at_start ty)) (f_mul b rate))) pv) rate)))).
    { run_builtin. change (exec_builtin_fast (lit "IPMT") (VNumber rate :: VNumber per :: VNumber nper :: VNumber pv :: more)) with (fn_ipmt (VNumber rate :: VNumber per :: VNumber nper :: VNumber pv :: more)). unfold fn_ipmt.
      replace (arity_between _ 4 6) with true. 2: { symmetry. unfold arity_between. cbn [length]. apply andb_true_iff. split; apply Nat.leb_le; lia. }
      cbn [negb req_num nth_error bind]. change (opt_num (VNumber rate :: VNumber per :: VNumber nper :: VNumber pv :: more) 4 f_zero) with (opt_num more 0 f_zero). change (opt_num (VNumber rate :: VNumber per :: VNumber nper :: VNumber pv :: more) 5 f_zero) with (opt_num more 1 f_zero).
      rewrite (optional_num _ _ _ _ O1), (optional_num _ _ _ _ O2). reflexivity. }
    rewrite K. split.
    - intros H. assert (B : f_ltb per f_one || f_ltb nper per || f_leb nper f_zero = true) by (rewrite !orb_true_iff, !ltb_relation, leb_relation; tauto). rewrite B. eexists. reflexivity.
    - intros H. assert (H1 : ~ number_relation BLt per f_one) by tauto. assert (H2 : ~ number_relation BLt nper per) by tauto. assert (H3 : ~ number_relation BLe nper f_zero) by tauto.
      rewrite (ltb_not _ _ H1), (ltb_not _ _ H2), (leb_not _ _ H3). cbn [orb]. split.
      + intros Z0. apply eqb_relation in Z0. rewrite Z0. reflexivity.
      + intros Z0 k -> Bk. rewrite (eqb_not _ _ Z0). destruct (pmt_call c es' rate nper pv more fv ty Hu' He' L O1 O2) as (_ & _ & P). specialize (P H3 Z0).
        change (f_div (f_neg (f_add (f_mul pv (growth rate nper)) fv)) (annuity rate nper (at_start ty))) with (annuity_payment rate nper pv fv (at_start ty)) in P. rewrite P. destruct k as [|k]; [exfalso; apply H1; vm_compute; reflexivity|]. eexists. eexists. split; [reflexivity|].
        destruct (of_Z_exact (Z.of_nat (S k)) ltac:(lia)) as (F1 & R1 & E1). destruct (of_Z_exact 1 ltac:(lia)) as (F2 & R2 & E2).
        assert (T : f_to_i32 (f_of_Z (Z.of_nat (S k))) = Z.of_nat (S k)). { unfold f_to_i32. apply to_int_exact; [assumption|assumption|lia]. }
        split; [apply tallied_iter|]. rewrite T. unfold iterZ. replace (Z.to_nat (Z.of_nat (S k) - 1)) with k by lia.
        replace (f_eqb (f_of_Z (Z.of_nat (S k))) f_one) with (S k =? 1)%nat; [reflexivity|].
        apply eq_true_iff_eq. change f_one with (f_of_Z 1). rewrite eqb_exact by assumption. rewrite E1, E2, Nat.eqb_eq. unfold Qeq. cbn [inject_Z Qnum Qden]. lia.
  Qed.
  Lemma booked_iter : forall cost rate month k, booked cost rate month (S k) (Nat.iter k (fun b => f_sub b (f_mul b rate)) (f_sub cost (first_year cost rate month))).
  Proof. induction k as [|k IH]; [constructor|]. cbn [Nat.iter nat_rect]. now constructor. Qed.
  Lemma db_call : forall c es cost salvage life period more month, uncustomised c "DB" ->
    evaluate_to c es (VNumber cost :: VNumber salvage :: VNumber life :: VNumber period :: more) -> (length more <= 1)%nat -> optional more 0 (f_of_Z 12) month ->
    let rate := decline cost salvage life in
    let wrong := number_relation BLt cost f_zero \/ number_relation BLt salvage f_zero \/ number_relation BLe life f_zero \/ number_relation BLt period f_zero in
    (wrong -> fails (eval (call "DB" es) c)) /\
    (~ wrong -> number_relation BLt life period -> eval (call "DB" es) c = Ok (num 0)) /\
    (~ wrong -> ~ number_relation BLt life period -> forall k l, period = f_of_Z (Z.of_nat k) -> Z.of_nat k < 2 ^ 31 -> is_finite life = true -> truncated (exact life) = l -> l < 2 ^ 31 ->
       (k = 1%nat -> eval (call "DB" es) c = Ok (VNumber (first_year cost rate month))) /\
       (forall j, k = S (S j) -> exists b, booked cost rate month (S j) b /\
          eval (call "DB" es) c = Ok (VNumber (f_max (if (Z.of_nat k =? l) && f_ltb month (f_of_Z 12)
                                                     then f_div (f_mul (f_mul b rate) (f_sub (f_of_Z 12) month)) (f_of_Z 12)
                                                     else f_mul b rate) f_zero)))).
  Proof.
    intros c es cost salvage life period more month Hu He L O1 rate wrong.
    assert (K : eval (call "DB" es) c = (if f_ltb cost f_zero || f_ltb salvage f_zero || f_leb life f_zero || f_ltb period f_zero then Err (err "DB arguments must be non-negative (life must be positive)")
      else if f_ltb life period then Ok (VNumber f_zero) else
        if f_eqb period f_one then Ok (VNumber (first_year cost rate month)) else
        let book := iterZ (f_to_i32 period - 2) (fun b => f_sub b (f_mul b rate)) (f_sub cost (first_year cost rate month)) in
        Ok (VNumber (f_max (if (f_to_i32 period =? f_to_i32 life) && f_ltb month f_12 then f_div (f_mul (f_mul book rate) (f_sub f_12 month)) f_12 else f_mul book rate) f_zero)))).
    { run_builtin. change (exec_builtin_fast (lit "DB") (VNumber cost :: VNumber salvage :: VNumber life :: VNumber period :: more)) with (fn_db (VNumber cost :: VNumber salvage :: VNumber life :: VNumber period :: more)). unfold fn_db.
      replace (arity_between _ 4 5) with true. 2: { symmetry. unfold arity_between. cbn [length]. apply andb_true_iff. split; apply Nat.leb_le; lia. }
      cbn [negb req_num nth_error bind]. change (opt_num (VNumber cost :: VNumber salvage :: VNumber life :: VNumber period :: more) 4 f_12) with (opt_num more 0 (f_of_Z 12)).
      rewrite (optional_num _ _ _ _ O1). reflexivity. }
    rewrite K. split; [|split].
    - intros H. assert (B : f_ltb cost f_zero || f_ltb salvage f_zero || f_leb life f_zero || f_ltb period f_zero = true) by (rewrite !orb_true_iff, !ltb_relation, leb_relation; unfold wrong in H; tauto). rewrite B. eexists. reflexivity.
    - intros H H5. unfold wrong in H. rewrite (ltb_not cost), (ltb_not salvage), (leb_not life), (ltb_not period) by tauto. cbn [orb]. apply ltb_relation in H5. rewrite H5. reflexivity.
    - intros H H5 k l -> Bk Fl El Bl. unfold wrong in H. rewrite (ltb_not cost), (ltb_not salvage), (leb_not life), (ltb_not _ f_zero), (ltb_not life) by tauto. cbn [orb].
      destruct (of_Z_exact (Z.of_nat k) ltac:(lia)) as (F1 & R1 & E1). destruct (of_Z_exact 1 ltac:(lia)) as (F2 & R2 & E2).
      assert (T : f_to_i32 (f_of_Z (Z.of_nat k)) = Z.of_nat k). { unfold f_to_i32. apply to_int_exact; [assumption|assumption|lia]. }
      assert (Q : f_eqb (f_of_Z (Z.of_nat k)) f_one = (k =? 1)%nat). { apply eq_true_iff_eq. change f_one with (f_of_Z 1). rewrite eqb_exact by assumption. rewrite E1, E2, Nat.eqb_eq. unfold Qeq. cbn [inject_Z Qnum Qden]. lia. }
      rewrite Q, T. split.
      + intros ->. reflexivity.
      + intros j ->. eexists. split; [apply booked_iter|]. cbn [Nat.eqb]. cbv zeta. unfold iterZ. replace (Z.to_nat (Z.of_nat (S (S j)) - 2)) with j by lia.
        assert (Tl : (Z.of_nat (S (S j)) =? f_to_i32 life) = (Z.of_nat (S (S j)) =? l)).
        { unfold f_to_i32, f_to_int. rewrite (trunc_truncated life Fl), El. destruct life as [s|s| |s m e]; try discriminate; apply eq_true_iff_eq; rewrite !Z.eqb_eq; lia. }
        rewrite Tl. reflexivity.
  Qed.
  Lemma finance_arity : forall c es vs name lo hi, In (name, (lo, hi)) financial_arity -> uncustomised c name -> evaluate_to c es vs ->
    (length vs < lo)%nat \/ (hi < length vs)%nat -> fails (eval (call name es) c).
  Proof.
    intros c es vs name lo hi I Hu He B. assert (A : arity_between vs lo hi = false).
    { unfold arity_between. apply andb_false_iff. rewrite !Nat.leb_gt. lia. }
    repeat (destruct I as [I|I]; [injection I as <- <- <-; run_builtin|]); [..|contradiction].
    - change (exec_builtin_fast (lit "PMT") vs) with (fn_pmt vs). unfold fn_pmt. rewrite A. eexists. reflexivity.
    - change (exec_builtin_fast (lit "FV") vs) with (fn_fv vs). unfold fn_fv. rewrite A. eexists. reflexivity.
    - change (exec_builtin_fast (lit "IPMT") vs) with (fn_ipmt vs). unfold fn_ipmt. rewrite A. eexists. reflexivity.
    - change (exec_builtin_fast (lit "DB") vs) with (fn_db vs). unfold fn_db. rewrite A. eexists. reflexivity.
  Qed.
  Lemma req_cases : forall vs i m, (exists x, req_num vs i m = Ok x /\ nth_error vs i = Some (VNumber x)) \/ exists e, req_num vs i m = Err e.
  Proof. intros vs i m. unfold req_num. destruct (nth_error vs i) as [[]|]; eauto. Qed.
  Lemma finance_numbers : forall c es vs name lo hi i v, In (name, (lo, hi)) financial_arity -> uncustomised c name -> evaluate_to c es vs ->
    (i < lo)%nat -> nth_error vs i = Some v -> (forall x, v <> VNumber x) -> fails (eval (call name es) c).
  Proof.
    intros c es vs name lo hi i v I Hu He B Hi N0.
    assert (W : forall k m x, req_num vs k m = Ok x -> i <> k).
    { intros k m x E ->. unfold req_num in E. rewrite Hi in E. destruct v; try discriminate. now destruct (N0 n). }
    assert (F : forall r : res value, (exists e, r = Err e) -> fails r) by (intros r (e & ->); eexists; reflexivity).
    repeat (destruct I as [I|I]; [injection I as <- <- <-; run_builtin|]); [..|contradiction]; apply F.
    - change (exec_builtin_fast (lit "PMT") vs) with (fn_pmt vs). unfold fn_pmt. destruct (negb _); [eauto|].
      destruct (req_cases vs 0 "PMT rate must be a number") as [(x & E & _)|(e & E)]; rewrite E; cbn [bind]; [|eauto]. apply W in E.
      destruct (req_cases vs 1 "PMT nper must be a number") as [(y & E1 & _)|(e & E1)]; rewrite E1; cbn [bind]; [|eauto]. apply W in E1.
      destruct (req_cases vs 2 "PMT pv must be a number") as [(z & E2 & _)|(e & E2)]; rewrite E2; cbn [bind]; [|eauto]. apply W in E2. lia.
    - change (exec_builtin_fast (lit "FV") vs) with (fn_fv vs). unfold fn_fv. destruct (negb _); [eauto|].
      destruct (req_cases vs 0 "FV rate must be a number") as [(x & E & _)|(e & E)]; rewrite E; cbn [bind]; [|eauto]. apply W in E.
      destruct (req_cases vs 1 "FV nper must be a number") as [(y & E1 & _)|(e & E1)]; rewrite E1; cbn [bind]; [|eauto]. apply W in E1.
      destruct (req_cases vs 2 "FV pmt must be a number") as [(z & E2 & _)|(e & E2)]; rewrite E2; cbn [bind]; [|eauto]. apply W in E2. lia.
    - change (exec_builtin_fast (lit "IPMT") vs) with (fn_ipmt vs). unfold fn_ipmt. destruct (negb _); [eauto|].
      destruct (req_cases vs 0 "IPMT rate must be a number") as [(x & E & _)|(e & E)]; rewrite E; cbn [bind]; [|eauto]. apply W in E.
      destruct (req_cases vs 1 "IPMT per must be a number") as [(y & E1 & _)|(e & E1)]; rewrite E1; cbn [bind]; [|eauto]. apply W in E1.
      destruct (req_cases vs 2 "IPMT nper must be a number") as [(z & E2 & _)|(e & E2)]; rewrite E2; cbn [bind]; [|eauto]. apply W in E2.
      destruct (req_cases vs 3 "IPMT pv must be a number") as [(w & E3 & _)|(e & E3)]; rewrite E3; cbn [bind]; [|eauto]. apply W in E3. lia.
    - change (exec_builtin_fast (lit "DB") vs) with (fn_db vs). unfold fn_db. destruct (negb _); [eauto|].
      destruct (req_cases vs 0 "DB cost must be a number") as [(x & E & _)|(e & E)]; rewrite E; cbn [bind]; [|eauto]. apply W in E.
      destruct (req_cases vs 1 "DB salvage must be a number") as [(y & E1 & _)|(e & E1)]; rewrite E1; cbn [bind]; [|eauto]. apply W in E1.
      destruct (req_cases vs 2 "DB life must be a number") as [(z & E2 & _)|(e & E2)]; rewrite E2; cbn [bind]; [|eauto]. apply W in E2.
      destruct (req_cases vs 3 "DB period must be a number") as [(w & E3 & _)|(e & E3)]; rewrite E3; cbn [bind]; [|eauto]. apply W in E3. lia.
  Qed.
  Lemma double_whole : forall z, Z.abs z <= 2 ^ 53 -> is_double (inject_Z z).
  Proof. intros z B. destruct (of_Z_exact z B) as (F & R & E). exists (f_of_Z z). auto. Qed.
  Lemma zero_rate : forall c er en ep ef epay n pv fv q pay, uncustomised c "PMT" -> uncustomised c "FV" ->
    eval er c = Ok (num 0) -> eval en c = Ok (num n) -> eval ep c = Ok (num pv) -> eval ef c = Ok (num fv) ->
    0 < n <= 2 ^ 53 -> Z.abs pv <= 2 ^ 53 -> Z.abs fv <= 2 ^ 53 -> Z.abs (pv + fv) <= 2 ^ 53 -> pv + fv = n * q ->
    (eval (call "PMT" [er; en; ep; ef]) c = Ok (VNumber pay) -> is_exactly pay (inject_Z (- q))) /\
    (exists p, eval (call "PMT" [er; en; ep; ef]) c = Ok (VNumber p)) /\
    (eval epay c = Ok (VNumber pay) -> is_exactly pay (inject_Z (- q)) ->
       exists v, eval (call "FV" [er; en; epay; ep]) c = Ok (VNumber v) /\ is_exactly v (inject_Z fv)).
  Proof.
    intros c er en ep ef epay n pv fv q pay Hu Hu' Hr Hn Hp Hf Bn Bp Bf Bs E.
    destruct (of_Z_exact n ltac:(lia)) as (F1 & R1 & E1). destruct (of_Z_exact pv Bp) as (F2 & R2 & E2). destruct (of_Z_exact fv Bf) as (F3 & R3 & E3).
    assert (N1 : ~ number_relation BLe (f_of_Z n) f_zero). { rewrite <- leb_relation. rewrite leb_exact by (assumption || reflexivity). change (exact f_zero) with (inject_Z 0). rewrite E1, <- Zle_Qle. lia. }
    assert (N2 : ~ number_relation BLt (f_of_Z n) f_zero). { rewrite <- ltb_relation. rewrite ltb_exact by (assumption || reflexivity). change (exact f_zero) with (inject_Z 0). rewrite E1, <- Zlt_Qlt. lia. }
    assert (He : evaluate_to c [er; en; ep; ef] [VNumber f_zero; VNumber (f_of_Z n); VNumber (f_of_Z pv); VNumber (f_of_Z fv)]) by (repeat constructor; assumption).
    destruct (pmt_call c _ _ _ _ _ (f_of_Z fv) f_zero Hu He ltac:(cbn; lia)) as (_ & P & _); [left; reflexivity|right; split; [reflexivity|intros y Y; discriminate]|].
    specialize (P N1 eq_refl).
    assert (V : is_exactly (f_div (f_neg (f_add (f_of_Z pv) (f_of_Z fv))) (f_of_Z n)) (inject_Z (- q))).
    { destruct (rounded_exact _ _ (add_rounded _ _ R2 R3 F2 F3)) as (F4 & R4 & E4).
      { destruct (double_whole _ Bs) as (y & A1 & A2 & A3). exists y. split; [assumption|]. split; [assumption|]. now rewrite A3, E2, E3, inject_Z_plus. }
      pose proof (exact_neg (f_add (f_of_Z pv) (f_of_Z fv))) as E5.
      assert (Qz : (exact (f_neg (f_add (f_of_Z pv) (f_of_Z fv))) / exact (f_of_Z n) == inject_Z (- q))%Q).
      { rewrite E5, E4, E2, E3, E1, <- inject_Z_plus, E, inject_Z_mult, inject_Z_opp. field. change 0%Q with (inject_Z 0). rewrite inject_Z_injective. lia. }
      destruct (rounded_exact (f_div (f_neg (f_add (f_of_Z pv) (f_of_Z fv))) (f_of_Z n)) (exact (f_neg (f_add (f_of_Z pv) (f_of_Z fv))) / exact (f_of_Z n))) as (F6 & R6 & E6).
      - apply div_rounded; [|assumption|]. { destruct (f_add (f_of_Z pv) (f_of_Z fv)) as [s|s| |s m e]; try discriminate; reflexivity. } rewrite E1. change 0%Q with (inject_Z 0). rewrite inject_Z_injective. lia.
      - destruct (double_whole (- q)) as (y & A1 & A2 & A3); [nia|]. exists y. split; [assumption|]. split; [assumption|]. now rewrite A3, Qz.
      - split; [assumption|]. split; [assumption|]. now rewrite E6. }
    split; [|split].
    - intros H. rewrite P in H. injection H as <-. exact V.
    - eexists. exact P.
    - intros Hy (F7 & R7 & E7).
      assert (He' : evaluate_to c [er; en; epay; ep] [VNumber f_zero; VNumber (f_of_Z n); VNumber pay; VNumber (f_of_Z pv)]) by (repeat constructor; assumption).
      destruct (fv_call c _ _ _ _ _ (f_of_Z pv) f_zero Hu' He' ltac:(cbn; lia)) as (_ & P' & _); [left; reflexivity|right; split; [reflexivity|intros y Y; discriminate]|].
      specialize (P' N2 eq_refl). eexists. split; [exact P'|].
      destruct (rounded_exact _ _ (mul_rounded pay (f_of_Z n) R7 R1 F7 F1)) as (F8 & R8 & E8).
      { destruct (double_whole (- (pv + fv)) ltac:(lia)) as (y & A1 & A2 & A3). exists y. split; [assumption|]. split; [assumption|]. rewrite A3, E7, E1, <- inject_Z_mult. apply inject_Z_injective. lia. }
      pose proof (exact_neg (f_of_Z pv)) as E9. assert (F9 : is_finite (f_neg (f_of_Z pv)) = true) by (destruct (f_of_Z pv) as [s|s| |s m e]; try discriminate; reflexivity).
      assert (R9 : representable (f_neg (f_of_Z pv))) by (apply representable_neg; assumption).
      assert (Qz : (exact (f_neg (f_of_Z pv)) - exact (f_mul pay (f_of_Z n)) == inject_Z fv)%Q).
      { rewrite E9, E8, E7, E1, E2, <- inject_Z_mult. unfold Qminus. rewrite <- !inject_Z_opp, <- inject_Z_plus. apply inject_Z_injective. lia. }
      destruct (rounded_exact _ _ (sub_rounded _ _ R9 R8 F9 F8)) as (F6 & R6 & E6).
      { destruct (double_whole fv Bf) as (y & A1 & A2 & A3). exists y. split; [assumption|]. split; [assumption|]. now rewrite A3, Qz. }
      split; [assumption|]. split; [assumption|]. now rewrite E6.
  Qed.
End Finance.
