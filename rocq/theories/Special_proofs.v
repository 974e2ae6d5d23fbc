(** Operators on infinities, NaN and zeros. *)
From Coq Require Import String List ZArith NArith QArith Qabs Bool Lia Lqa.
From Coq Require Import Floats.SpecFloat.
From Verif Require Import Base F64 F64Text Syntax Ext Arith Cast Dispatch Registry Core Evaluator Api Spec Spec_numbers
  Float_proofs Exact_proofs Value_proofs Round_proofs Nearest_proofs Rounding_proofs Number_proofs.
Import ListNotations.
Local Open Scope Q_scope.

(** a nonzero multiple of the smallest double does not round to zero *)
Lemma grid_nonzero : forall z e s, (-1074 <= e)%Z -> z <> 0%Z -> ~ rounded (S754_zero s) (units z e).
Proof.
  intros z e s He Hz (_ & _ & _ & K & _).
  assert (U1 : units 1 (-1074) <= units 1 e).
  { rewrite <- (units_shift 1 (-1074) e He). apply units_le. pose proof (Z.pow_pos_nonneg 2 (e - -1074)). lia. }
  assert (U0 : 0 < units 1 (-1074)) by reflexivity.
  destruct (Z.lt_ge_cases z 0) as [L|L].
  - specialize (K (S754_finite true 1 (-1074)) eq_refl eq_refl). change (exact (S754_zero s)) with 0 in K. rewrite exact_units in K. change (units (Zneg 1) (-1074)) with (- units 1 (-1074)) in K.
    assert (V : units z e <= - units 1 e). { apply Qle_trans with (units (-1) e); [apply units_le; lia|]. change (-1)%Z with (- (1))%Z. unfold units. rewrite qneg. apply Qle_refl. }
    rewrite !Qabs_pos in K by lra. lra.
  - specialize (K (S754_finite false 1 (-1074)) eq_refl eq_refl). change (exact (S754_zero s)) with 0 in K. rewrite exact_units in K.
    assert (V : units 1 e <= units z e) by (apply units_le; lia).
    rewrite !Qabs_neg in K by lra. lra.
Qed.
Lemma add_zero : forall x y s, representable x -> representable y -> is_finite x = true -> is_finite y = true -> f_add x y = S754_zero s -> (s = true <-> x = S754_zero true /\ y = S754_zero true).
Proof.
  intros [a|a| |a m e] [b|b| |b m' e'] s Rx Ry Fx Fy H; try discriminate.
  - destruct a, b; cbn in H; injection H as <-; split; try tauto; try discriminate; intros [? ?]; discriminate.
  - cbn [f_add SFadd] in H. unfold f_add, SFadd in H. set (ez := Z.min e e') in *. pose proof (normalize_rounded (cond_Zopp a (Zpos (fst (shl_align m e ez))) + cond_Zopp b (Zpos (fst (shl_align m' e' ez)))) ez false) as R.
    destruct (Z.eq_dec (cond_Zopp a (Zpos (fst (shl_align m e ez))) + cond_Zopp b (Zpos (fst (shl_align m' e' ez)))) 0) as [K|K].
    + rewrite K in H. cbn in H. injection H as <-. split; [discriminate|]. intros [? _]; discriminate.
    + exfalso. rewrite H in R. revert R. apply grid_nonzero; [|assumption].
      destruct (representable_digits _ _ _ Rx) as (_ & _ & ?), (representable_digits _ _ _ Ry) as (_ & _ & ?). lia.
Qed.
Lemma sub_add : forall x y, is_finite x = true -> is_finite y = true -> f_sub x y = f_add x (f_neg y).
Proof.
  intros [a|a| |a m e] [b|b| |b m' e'] Fx Fy; try discriminate; try reflexivity. unfold f_sub, f_add, SFsub, SFadd, f_neg. cbn [SFopp]. f_equal. destruct b; cbn [cond_Zopp negb]; lia.
Qed.
Lemma round_aux_sign_bit : forall s m e l, has_sign s (binary_round_aux prec emax s m e l) \/ binary_round_aux prec emax s m e l = S754_nan.
Proof.
  intros s m e l. unfold binary_round_aux. destruct (shr_fexp prec emax m e l) as [r e']. destruct (shr_fexp prec emax _ e' loc_Exact) as [r'' e'']. destruct (shr_m r''); try (now left); [destruct (Zle_bool e'' (emax - prec)); now left|now right].
Qed.
Section Special.
  Context {X : Ext}.
  Lemma eval_operator : forall op a b c x y, In op operators -> eval a c = Ok (VNumber x) -> eval b c = Ok (VNumber y) -> eval (EBinary a op b) c = Ok (VNumber (arith op x y)).
  Proof. intros op a b c x y I0 Ha Hb. cbn [eval]. rewrite Ha, Hb. cbn in I0. destruct I0 as [<-|[<-|[<-|[<-|[<-|[]]]]]]; reflexivity. Qed.
  Lemma operators_exceptional : forall op a b c x y r, eval a c = Ok (VNumber x) -> eval b c = Ok (VNumber y) -> exceptional op x y r -> eval (EBinary a op b) c = Ok (VNumber r).
  Proof.
    intros op a b c x y r Ha Hb H.
    assert (In op operators /\ arith op x y = r) as [I0 <-]; [|now apply eval_operator].
    assert (L : forall o, In o operators <-> o = BAdd \/ o = BSub \/ o = BMul \/ o = BDiv \/ o = BMod) by (intros o; cbn; intuition congruence).
    destruct H; (split; [auto; cbn; tauto|]); cbn [arith].
    - apply L in H. destruct H as [-> |[-> |[-> |[-> | ->]]]]; reflexivity.
    - apply L in H. destruct H as [-> |[-> |[-> |[-> | ->]]]]; destruct x; reflexivity.
    - destruct H as [H| ->]; [destruct y; try discriminate; reflexivity|destruct s; reflexivity].
    - destruct x; try discriminate; reflexivity.
    - destruct s; reflexivity.
    - destruct H as [H| ->]; [destruct y; try discriminate; reflexivity|destruct s; reflexivity].
    - destruct x; try discriminate; reflexivity.
    - destruct s; reflexivity.
    - destruct x as [p|p| |p m e], y as [q|q| |q m' e']; try congruence; try reflexivity; exfalso; try (apply H2; eexists; reflexivity); try (apply H3; eexists; reflexivity).
      destruct H1 as [[? ?]|[? ?]]; discriminate.
    - destruct H as [[[p ->] [q ->]]|[[p ->] [q ->]]]; reflexivity.
    - destruct H1 as [[[p ->] N]|[[q ->] N]].
      + destruct y as [q|q| |q m' e']; try congruence; try reflexivity. exfalso. apply N. eexists; reflexivity.
      + destruct x as [p|p| |p m e]; try congruence; try reflexivity. exfalso. apply N. eexists; reflexivity.
    - destruct H0 as [q ->]. destruct x; try discriminate; reflexivity.
    - destruct H as [[[p ->] [q ->]]|[[p ->] [q ->]]]; reflexivity.
    - destruct H as [[p ->]|[q ->]]; [destruct y; reflexivity|destruct x; reflexivity].
    - destruct H0 as [q ->]. destruct x; try discriminate; reflexivity.
  Qed.
  (** every other pair of operands is a pair of finite numbers with an exact result *)
  Lemma operators_covered : forall op x y, In op operators ->
    (is_finite x = true /\ is_finite y = true /\ ((op = BDiv \/ op = BMod) -> ~ exact y == 0)) \/ exists r, exceptional op x y r.
  Proof.
    assert (L : forall o, In o operators <-> o = BAdd \/ o = BSub \/ o = BMul \/ o = BDiv \/ o = BMod) by (intros o; cbn; intuition congruence).
    assert (Nz : forall s m e, ~ exact (S754_finite s m e) == 0).
    { intros s m e H. rewrite exact_units in H. unfold units, Qeq in H. cbn [Qnum Qden] in H. pose proof (pw_pos e). destruct s; nia. }
    assert (Ns : forall s m e, ~ is_zero (S754_finite s m e)) by (intros s m e [? ?]; discriminate).
    assert (Ni : forall s m e, ~ is_infinity (S754_finite s m e)) by (intros s m e [? ?]; discriminate).
    assert (Nzi : forall s, ~ is_zero (S754_infinity s)) by (intros s [? ?]; discriminate). assert (Niz : forall s, ~ is_infinity (S754_zero s)) by (intros s [? ?]; discriminate).
    assert (Zz : forall s, is_zero (S754_zero s)) by (intros s; now exists s). assert (Ii : forall s, is_infinity (S754_infinity s)) by (intros s; now exists s).
    intros op x y I0. pose proof I0 as I1. apply L in I0.
    destruct (is_finite x && is_finite y) eqn:F.
    - apply andb_true_iff in F as [Fx Fy]. destruct I0 as [-> |[-> |[-> |I0]]]; try (left; split; [assumption|split; [assumption|intros [?|?]; discriminate]]).
      destruct y as [q|q| |q m' e']; try discriminate; [right|left; split; [assumption|split; [assumption|intros _; apply Nz]]].
      destruct I0 as [-> | ->]; [|eexists; apply remainder_undefined; auto].
      destruct x as [p|p| |p m e]; try discriminate; eexists; [apply quotient_undefined; auto|apply quotient_infinite; auto; discriminate].
    - right. destruct x as [p|p| |p m e], y as [q|q| |q m' e']; try discriminate; try (eexists; apply nan_left; assumption); try (eexists; apply nan_right; assumption).
      all: destruct I0 as [-> |[-> |[-> |[-> | ->]]]]; try (eexists; first [apply sum_right; reflexivity|apply difference_right; reflexivity|apply sum_left; left; reflexivity|apply difference_left; left; reflexivity]);
        try (eexists; first [apply quotient_vanishes; [reflexivity|auto]|apply quotient_undefined; solve [auto]|apply quotient_infinite; solve [discriminate|auto]|apply product_undefined; solve [auto]|apply product_infinite; solve [discriminate|auto]
                            |apply remainder_itself; [reflexivity|auto]|apply remainder_undefined; solve [auto]]).
      + destruct (Bool.bool_dec p q) as [-> |N]; [eexists; apply sum_left; auto|]. replace q with (negb p) by (destruct p, q; reflexivity || congruence). eexists; apply sum_cancels.
      + destruct (Bool.bool_dec p q) as [-> |N]; [eexists; apply difference_cancels|]. eexists; apply difference_left; right. f_equal. destruct p, q; reflexivity || congruence.
  Qed.
  Lemma operators_zero : forall op a b c x y s, In op operators -> eval a c = Ok (VNumber x) -> eval b c = Ok (VNumber y) ->
    representable x -> representable y -> is_finite x = true -> is_finite y = true -> eval (EBinary a op b) c = Ok (VNumber (S754_zero s)) -> zero_sign op x y s.
  Proof.
    intros op a b c x y s I0 Ha Hb Rx Ry Fx Fy H. rewrite (eval_operator op a b c x y I0 Ha Hb) in H. injection H as H.
    cbn in I0. destruct I0 as [<-|[<-|[<-|[<-|[<-|[]]]]]]; cbn [arith zero_sign] in *.
    - now apply add_zero.
    - rewrite sub_add in H by assumption. apply add_zero in H; try assumption; [|now apply representable_neg|now rewrite finite_neg]. rewrite H.
      destruct y as [[]|[]| |[]]; cbn; intuition congruence.
    - destruct x as [p|p| |p m e], y as [q|q| |q m' e']; try discriminate; try (cbn in H; now injection H as <-).
      unfold f_mul, SFmul in H. cbn [sign_bit]. destruct (round_aux_sign_bit (xorb p q) (Zpos (m * m')) (e + e') loc_Exact) as [K|K]; rewrite H in K; [exact K|discriminate].
    - destruct x as [p|p| |p m e], y as [q|q| |q m' e']; try discriminate; try (cbn in H; now injection H as <-).
      unfold f_div, SFdiv in H. destruct (SFdiv_core_binary prec emax (Zpos m) e (Zpos m') e') as [[mz ez] lz]. cbn [sign_bit]. destruct (round_aux_sign_bit (xorb p q) mz ez lz) as [K|K]; rewrite H in K; [exact K|discriminate].
    - destruct x as [p|p| |p m e], y as [q|q| |q m' e']; try discriminate; try (cbn in H; now injection H as <-).
      cbn [f_rem] in H. cbn [sign_bit]. set (ez := Z.min e e') in *. set (r := (Z.rem _ _)) in *. pose proof (normalize_rounded (if p then - r else r)%Z ez p) as R.
      destruct (Z.eq_dec r 0) as [K|K].
      + rewrite K in H. destruct p; cbn in H; now injection H as <-.
      + exfalso. rewrite H in R. revert R. apply grid_nonzero; [|destruct p; lia]. destruct (representable_digits _ _ _ Rx) as (_ & _ & ?), (representable_digits _ _ _ Ry) as (_ & _ & ?). lia.
  Qed.
End Special.
