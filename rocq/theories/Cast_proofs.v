(** Type casts. *)
From Coq Require Import String List ZArith NArith Bool Lia.
From Coq Require Import Floats.SpecFloat.
From Verif Require Import Base F64 F64Text Syntax Ext Json Cast Registry Dispatch Core Evaluator Api Spec Spec_syntax Spec_text
  Base_proofs Float_proofs Exact_proofs Value_proofs Text_proofs Round_proofs.
Import ListNotations.
Local Open Scope Z_scope.

Lemma f_of_Z_trunc : forall x, representable x -> 2 ^ 53 <= Z.abs (trunc_Z x) -> f_of_Z (trunc_Z x) = x.
Proof.
  intros x R H. destruct x as [b|b| |s m e]; cbn [trunc_Z] in H; try (cbn in H; lia). destruct (representable_digits s m e R) as (D1 & D2 & D3).
  destruct (Z.leb_spec 0 e) as [L|L].
  - unfold trunc_Z, f_of_Z, binary_normalize. apply Z.leb_le in L as L'. rewrite L'.
    assert (P : exists M, Zpos M = Zpos m * 2 ^ e). { exists (Z.to_pos (Zpos m * 2 ^ e)). rewrite Z2Pos.id; [reflexivity|]. apply Z.mul_pos_pos; [lia|]. apply Z.pow_pos_nonneg; lia. }
    destruct P as (M & P). rewrite <- P. destruct s; cbn [Z.opp]; (apply round_canonical; [assumption|lia|now rewrite Z.sub_0_r]).
  - exfalso. assert (Q : 0 <= Zpos m / 2 ^ (- e) <= Zpos m). { split; [apply Z.div_pos; [lia|apply Z.pow_pos_nonneg; lia]|]. apply Z.div_le_upper_bound; [apply Z.pow_pos_nonneg; lia|].
      assert (1 <= 2 ^ (- e)) by (apply (Z.pow_le_mono_r 2 0); lia). nia. }
    destruct s; lia.
Qed.
Lemma to_i64_shape : forall x, f_to_i64 x = match x with S754_nan => 0 | S754_infinity s => if s then i64_min else i64_max | _ => Z.max i64_min (Z.min i64_max (trunc_Z x)) end.
Proof. intros [|[]| |]; reflexivity. Qed.
(** [(n as i64) as f64], done twice *)
Lemma to_i64_twice : forall x, representable x -> f_of_Z (f_to_i64 (f_of_Z (f_to_i64 x))) = f_of_Z (f_to_i64 x).
Proof.
  intros x R. assert (Small : forall z, Z.abs z < 2 ^ 53 -> f_of_Z (f_to_i64 (f_of_Z z)) = f_of_Z z).
  { intros z Hz. unfold f_to_i64. rewrite f_to_int_of_Z; [reflexivity|assumption|unfold i64_min, i64_max; lia]. }
  assert (Hi : f_of_Z (f_to_i64 (f_of_Z i64_max)) = f_of_Z i64_max) by (vm_compute; reflexivity).
  assert (Lo : f_of_Z (f_to_i64 (f_of_Z i64_min)) = f_of_Z i64_min) by (vm_compute; reflexivity).
  assert (G : match x with S754_nan | S754_infinity _ => True | _ => f_of_Z (f_to_i64 (f_of_Z (Z.max i64_min (Z.min i64_max (trunc_Z x))))) = f_of_Z (Z.max i64_min (Z.min i64_max (trunc_Z x))) end -> 
    f_of_Z (f_to_i64 (f_of_Z (f_to_i64 x))) = f_of_Z (f_to_i64 x)).
  { rewrite (to_i64_shape x). destruct x as [b|[]| |s m e]; intros K; try assumption. apply (Small 0). lia. }
  apply G. clear G. assert (K : f_of_Z (f_to_i64 (f_of_Z (Z.max i64_min (Z.min i64_max (trunc_Z x))))) = f_of_Z (Z.max i64_min (Z.min i64_max (trunc_Z x)))).
  { destruct (Z.le_gt_cases i64_max (trunc_Z x)) as [H1|H1]; [rewrite Z.min_l by lia; rewrite Z.max_r by (unfold i64_min, i64_max; lia); exact Hi|].
    rewrite Z.min_r by lia. destruct (Z.le_gt_cases (trunc_Z x) i64_min) as [H2|H2]; [rewrite Z.max_l by lia; exact Lo|]. rewrite Z.max_r by lia.
    destruct (Z.lt_ge_cases (Z.abs (trunc_Z x)) (2 ^ 53)) as [H3|H3]; [now apply Small|].
    rewrite (f_of_Z_trunc x R H3) at 1. f_equal. rewrite to_i64_shape. destruct x as [b|b| |s m e]; try (exfalso; cbn in H3; lia). rewrite Z.min_r by lia. lia. }
  destruct x; try exact I; exact K.
Qed.

(** the leading sign and digits of a text *)
Lemma clean_digits : forall ds rest, forallb is_digit ds = true -> match rest with c :: _ => is_digit c = false /\ c <> 46%N | [] => True end ->
  clean_number false false (ds ++ rest) = ds.
Proof.
  induction ds as [|d ds IH]; intros rest H R; cbn [app].
  - destruct rest as [|c r]; [reflexivity|]. destruct R as [R1 R2]. cbn [clean_number andb]. rewrite R1. apply N.eqb_neq in R2. now rewrite R2.
  - cbn [forallb] in H. apply andb_true_iff in H as [H1 H2]. cbn [clean_number andb]. rewrite H1. now rewrite IH.
Qed.
Lemma clean_signed : forall sg neg ds rest, sign_text sg neg -> digits ds -> match rest with c :: _ => is_digit c = false /\ c <> 46%N | [] => True end ->
  clean_number true false (sg ++ ds ++ rest) = sg ++ ds.
Proof.
  intros sg neg ds rest Hs [N H] R. destruct ds as [|d ds]; [congruence|]. assert (H' := H). cbn [forallb] in H'. apply andb_true_iff in H' as [H1 H2].
  pose proof (clean_digits (d :: ds) rest H R) as C.
  destruct Hs; [|exact (f_equal (cons 43%N) C)|exact (f_equal (cons 45%N) C)]. cbn [app].
  cbn [clean_number]. rewrite H1. unfold is_digit in H1. apply andb_true_iff in H1 as [A B]. apply N.leb_le in A, B.
  replace (d =? 45)%N with false by (symmetry; apply N.eqb_neq; lia). replace (d =? 43)%N with false by (symmetry; apply N.eqb_neq; lia). cbn [orb andb]. now rewrite clean_digits.
Qed.
Lemma trunc_dec : forall neg n, Z.of_N n < 2 ^ 53 -> (neg = true -> n <> 0%N) -> f_trunc (f_of_dec neg n 0) = f_of_Z (signed_value neg n).
Proof.
  intros neg [|p] H N; [destruct neg; [now destruct N|reflexivity]|]. unfold f_of_dec. change (0 <=? 0) with true. change (Z.to_pos (10 ^ 0)) with 1%positive. rewrite Pos.mul_1_r.
  cbn [Z.of_N] in H. rewrite round_int by assumption. unfold f_trunc, signed_value. rewrite trunc_int by assumption. cbn [Z.of_N Z.opp].
  destruct (Z.leb_spec 0 (int_e p)) as [L|L].
  - destruct neg; [now rewrite f_of_Z_neg|now rewrite f_of_Z_pos].
  - destruct neg; reflexivity.
Qed.

Lemma trim_start_nil : forall s, trim_start s = [] <-> Forall (fun ch => is_whitespace ch = true) s.
Proof.
  induction s as [|c r IH]; [split; [constructor|reflexivity]|]. cbn [trim_start]. destruct (is_whitespace c) eqn:W.
  - rewrite IH. split; [now constructor|intros K; now inversion K].
  - split; [discriminate|intros K; inversion K; congruence].
Qed.
Lemma nonblank_iff : forall s, nonblank s = false <-> Forall (fun ch => is_whitespace ch = true) s.
Proof.
  intros s. rewrite <- trim_start_nil. unfold nonblank, trim, trim_end.
  destruct (trim_start s) as [|c r] eqn:E; [split; reflexivity|]. split; [|discriminate].
  destruct (rev (trim_start (rev (c :: r)))) eqn:K; [|discriminate]. intros _.
  apply (f_equal (@rev N)) in K. rewrite rev_involutive in K. cbn [rev] in K. apply trim_start_nil in K. apply Forall_app in K as [_ K]. inversion K as [|? ? W _]; subst.
  exfalso. assert (H : forall s, match trim_start s with ch :: _ => is_whitespace ch = false | [] => True end).
  { clear. induction s as [|c r IH]; cbn; [exact I|]. destruct (is_whitespace c) eqn:E; [exact IH|exact E]. }
  specialize (H s). rewrite E in H. congruence.
Qed.
Ltac back K := destruct K as [K|[K|[K|[K|[(x' & [K|K] & Q)|(x' & [K|K] & Q)]]]]]; try discriminate K; try (injection K as K); subst.

Section Casts.
  Context {X : Ext}.
  Lemma eval_cast : forall e ty c, eval (ETypeCast e ty) c = bind (eval e c) (fun v => cast_value v ty).
  Proof. reflexivity. Qed.
  Lemma cast_type : forall e ty c w, eval (ETypeCast e ty) c = Ok w -> of_type ty w.
  Proof.
    intros e ty c w. rewrite eval_cast. destruct (eval e c) as [v|er|p]; cbn [bind]; try discriminate.
    destruct ty; cbn [cast_value of_type]; destruct v; cbn [cast_float cast_integer cast_currency cast_datetime bind];
      try discriminate; try (intros [= <-]; eauto; fail);
      try (destruct (f_from_str s); cbn [ok_or bind]; intros [= <-]; eauto; fail);
      try (destruct (i64_from_str s); cbn [ok_or bind]; intros [= <-]; eauto; fail).
  Qed.
  Lemma cast_fails : forall e ty c v, eval e c = Ok v ->
    ((exists er, eval (ETypeCast e ty) c = Err er) <-> uncastable v ty) /\ (forall p, eval (ETypeCast e ty) c <> Panic p).
  Proof.
    intros e ty c v Hv. rewrite eval_cast, Hv. cbn [bind].
    assert (FT : forall s o, f_from_str s = o -> match o with Some x => float_text s x | None => forall x, ~ float_text s x end).
    { intros s [x|] H; [now apply float_text_iff|]. intros x K. apply float_text_iff in K. congruence. }
    assert (IT : forall s o, i64_from_str s = o -> match o with Some x => integer_text s x | None => forall x, ~ integer_text s x end).
    { intros s [x|] H; [now apply i64_iff|]. intros x K. apply i64_iff in K. congruence. }
    destruct ty; cbn [cast_value uncastable]; destruct v; cbn [cast_float cast_integer cast_currency cast_datetime bind];
      try (split; [split; [eauto|intros _; exact I] || (split; [intros (er & ?); discriminate|contradiction]) || (split; [intros _; exact I|eauto])|discriminate]; fail).
    - pose proof (FT s _ eq_refl) as K. destruct (f_from_str s); cbn [ok_or bind] in *; (split; [|discriminate]); split; try discriminate; eauto; [intros (er & ?); discriminate|].
      intros N. exfalso. exact (N _ K).
    - pose proof (FT s _ eq_refl) as K. destruct (f_from_str s); cbn [ok_or bind] in *; (split; [|discriminate]); split; try discriminate; eauto; [intros (er & ?); discriminate|].
      intros N. exfalso. exact (N _ K).
    - pose proof (IT s _ eq_refl) as K. destruct (i64_from_str s); cbn [ok_or bind] in *; (split; [|discriminate]); split; try discriminate; eauto; [intros (er & ?); discriminate|].
      intros N. exfalso. exact (N _ K).
  Qed.
  Lemma cast_twice : forall e ty c w, ty <> TyInteger -> eval (ETypeCast e ty) c = Ok w -> eval (ETypeCast (ETypeCast e ty) ty) c = Ok w.
  Proof.
    intros e ty c w N H. rewrite eval_cast, H. cbn [bind]. apply cast_type in H. destruct ty; try congruence; destruct H as [x ->]; reflexivity.
  Qed.
  Lemma cast_integer_twice : forall e c v w, eval e c = Ok v -> (forall s, v <> VString s) -> (forall n, v = VNumber n \/ v = VCurrency n -> representable n) ->
    eval (ETypeCast e TyInteger) c = Ok w -> eval (ETypeCast (ETypeCast e TyInteger) TyInteger) c = Ok w.
  Proof.
    intros e c v w Hv Ns R H. rewrite eval_cast, H. rewrite eval_cast, Hv in H. cbn [bind cast_value] in *.
    destruct v; cbn [cast_integer] in H; try discriminate; injection H as <-; cbn [cast_integer].
    - now rewrite to_i64_twice by auto.
    - destruct b; vm_compute; reflexivity.
    - now destruct (Ns s).
    - vm_compute; reflexivity.
    - now rewrite to_i64_twice by auto.
  Qed.
  Lemma cast_string_float : forall e c s x, eval e c = Ok (VString s) ->
    (eval (ETypeCast e TyFloat) c = Ok (VNumber x) <-> float_text s x) /\ (eval (ETypeCast e TyCurrency) c = Ok (VCurrency x) <-> float_text s x).
  Proof.
    intros e c s x H. rewrite !eval_cast, H. cbn [bind cast_value cast_float cast_currency]. rewrite <- float_text_iff.
    destruct (f_from_str s); cbn [ok_or bind]; split; split; intros K; try discriminate; congruence.
  Qed.
  Lemma cast_string_datetime : forall e c s t, eval e c = Ok (VString s) -> (eval (ETypeCast e TyDateTime) c = Ok (VDateTime t) <-> integer_text s t).
  Proof.
    intros e c s t H. rewrite !eval_cast, H. cbn [bind cast_value cast_datetime]. rewrite <- i64_iff.
    destruct (i64_from_str s); cbn [ok_or bind]; split; intros K; try discriminate; congruence.
  Qed.
  Lemma cast_string_integer : forall e c sg neg ds rest, sign_text sg neg -> digits ds -> match rest with ch :: _ => is_digit ch = false /\ ch <> 46%N | [] => True end ->
    eval e c = Ok (VString (sg ++ ds ++ rest)) -> Z.of_N (digits_value ds) < 2 ^ 53 -> (neg = true -> digits_value ds <> 0%N) ->
    eval (ETypeCast e TyInteger) c = Ok (num (signed_value neg (digits_value ds))).
  Proof.
    intros e c sg neg ds rest Hs D R H B Nz. rewrite eval_cast, H. cbn [bind cast_value cast_integer]. rewrite (clean_signed sg neg) by assumption.
    assert (F : float_text (sg ++ ds ++ []) (f_of_dec neg (digits_value (ds ++ [])) (0 - Z.of_nat (@length N [])))) by (apply decimal_text; [assumption|now constructor|constructor]).
    rewrite !app_nil_r in F. apply float_text_iff in F. rewrite F. change (0 - Z.of_nat (@length N [])) with 0. now rewrite trunc_dec.
  Qed.
  Lemma cast_string_nonnumeric : forall e c s, match s with ch :: _ => is_digit ch = false /\ ch <> 46%N /\ ch <> 43%N /\ ch <> 45%N | [] => True end ->
    eval e c = Ok (VString s) -> eval (ETypeCast e TyInteger) c = Ok (num 0).
  Proof.
    intros e c s H E. rewrite eval_cast, E. cbn [bind cast_value cast_integer]. replace (clean_number true false s) with (@nil N); [reflexivity|].
    destruct s as [|ch r]; [reflexivity|]. destruct H as (H1 & H2 & H3 & H4). cbn [clean_number]. apply N.eqb_neq in H2, H3, H4. now rewrite H1, H2, H3, H4.
  Qed.
  Lemma cast_number_integer : forall e c z v, Z.abs z < 2 ^ 53 -> v = num z \/ v = VCurrency (f_of_Z z) -> eval e c = Ok v ->
    eval (ETypeCast e TyInteger) c = Ok (num z).
  Proof. intros e c z v B [->| ->] H; rewrite eval_cast, H; cbn [bind cast_value cast_integer num]; unfold num, f_to_i64; (rewrite f_to_int_of_Z; [reflexivity|assumption|unfold i64_min, i64_max; lia]). Qed.
  Lemma cast_fraction_integer : forall e c x v, representable x -> v = VNumber x \/ v = VCurrency x -> - 2 ^ 63 <= trunc_Z x < 2 ^ 63 -> is_finite x = true -> eval e c = Ok v ->
    eval (ETypeCast e TyInteger) c = Ok (num (trunc_Z x)).
  Proof.
    intros e c x v R Hv B F H. rewrite eval_cast, H. assert (K : f_to_i64 x = trunc_Z x). { rewrite to_i64_shape. unfold i64_min, i64_max. destruct x; try discriminate; lia. }
    destruct Hv as [-> | ->]; cbn [bind cast_value cast_integer]; now rewrite K.
  Qed.
  Lemma cast_booleans : forall e c v, eval e c = Ok v ->
    eval (ETypeCast e TyBoolean) c = Ok (VBoolean false) <->
    v = VBoolean false \/ v = VNull \/ v = VArray [] \/ v = VDateTime 0 \/ (exists n, (v = VNumber n \/ v = VCurrency n) /\ f_eqb n (f_of_Z 0) = true)
    \/ (exists s, (v = VString s \/ v = VJson s) /\ Forall (fun ch => is_whitespace ch = true) s).
  Proof.
    intros e c v H. rewrite eval_cast, H. cbn [bind cast_value].
    pose proof nonblank_iff as NB.
    destruct v; cbn [cast_boolean]; (split; intros K; [try (injection K as K)|]).
    - right; right; right; right; left. exists n. split; [auto|]. change (f_of_Z 0) with f_zero. now destruct (f_eqb n f_zero).
    - back K. change f_zero with (f_of_Z 0). now rewrite Q.
    - right; right; left. destruct xs; congruence.
    - back K. reflexivity.
    - left. now rewrite K.
    - back K. reflexivity.
    - right; right; right; right; right. exists s. split; [auto|now apply NB].
    - back K. do 2 f_equal. now apply NB.
    - auto.
    - reflexivity.
    - right; right; right; right; left. exists n. split; [auto|]. change (f_of_Z 0) with f_zero. now destruct (f_eqb n f_zero).
    - back K. change f_zero with (f_of_Z 0). now rewrite Q.
    - right; right; right; left. apply negb_false_iff, Z.eqb_eq in K. now subst.
    - back K. reflexivity.
    - right; right; right; right; right. exists s. split; [auto|now apply NB].
    - back K. do 2 f_equal. now apply NB.
  Qed.
  Lemma integer_twice_refuted : ~ (forall e c w, eval (ETypeCast e TyInteger) c = Ok w -> eval (ETypeCast (ETypeCast e TyInteger) TyInteger) c = Ok w).
  Proof.
    intros H. specialize (H (EStringLit (lit "99999999999999999999")) empty_ctx _ eq_refl). vm_compute in H. discriminate.
  Qed.
End Casts.
