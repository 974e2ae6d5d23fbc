(** Arithmetic on doubles gives doubles; the numbers of a JSON text are doubles. *)
From Coq Require Import String List ZArith NArith QArith Bool Lia.
From Coq Require Import Floats.SpecFloat.
From Verif Require Import Base F64 F64Text Syntax Ext Json Api Host HttpServer Spec Spec_syntax Spec_text Spec_numbers Spec_json Spec_http
  Base_proofs Value_proofs Text_proofs Rounding_proofs Number_proofs Json_proofs Object_proofs.
Import ListNotations.
Local Open Scope N_scope.

Lemma rounded_representable : forall x v, rounded x v -> representable x.
Proof. intros [| | |] v K; cbn in K; try reflexivity; apply K. Qed.
Lemma representable_of_Z : forall z, representable (f_of_Z z).
Proof. intros z. unfold f_of_Z. eapply rounded_representable. apply normalize_rounded. Qed.
Lemma representable_of_dec : forall s n e, representable (f_of_dec s n e).
Proof. intros s n e. eapply rounded_representable. apply dec_rounded. Qed.
Lemma representable_mul : forall x y, representable x -> representable y -> representable (f_mul x y).
Proof.
  intros x y Rx Ry. destruct (is_finite x) eqn:Fx, (is_finite y) eqn:Fy; [eapply rounded_representable; now apply mul_rounded|..]; destruct x, y; try discriminate; reflexivity.
Qed.
Lemma exact_nonzero : forall s m e, ~ (exact (S754_finite s m e) == 0)%Q.
Proof. intros s m e K. unfold exact, Qeq in K. cbn [Qnum Qden] in K. assert (0 < 2 ^ Z.max e 0)%Z by (apply Z.pow_pos_nonneg; lia). destruct s; lia. Qed.
Lemma representable_div : forall x y, representable x -> representable y -> representable (f_div x y).
Proof.
  intros x y Rx Ry. destruct (is_finite x) eqn:Fx, y as [b|b| |b m e]; try (destruct x; try discriminate; reflexivity).
  eapply rounded_representable. apply div_rounded; [assumption|reflexivity|apply exact_nonzero].
Qed.
Lemma float_text_representable : forall s x, f_from_str s = Some x -> representable x.
Proof.
  intros s x K. apply float_text_iff in K. destruct K as [| |sg neg m a b ex e x _ _ _ D]; try reflexivity. eapply rounded_representable, D.
Qed.

(** ** JSON *)
Definition num_ok (n : jnum) : Prop := representable (f_of_jnum n).
Inductive json_ok : json -> Prop :=
| ok_null : json_ok JNull
| ok_bool b : json_ok (JBool b)
| ok_num n : num_ok n -> json_ok (JNum n)
| ok_str s : json_ok (JStr s)
| ok_arr xs : Forall json_ok xs -> json_ok (JArr xs)
| ok_obj kvs : Forall (fun kv => json_ok (snd kv)) kvs -> json_ok (JObj kvs).
Lemma parts_loop_ok : forall fuel f e x, representable f -> from_parts_loop fuel f e = Some x -> representable x.
Proof.
  induction fuel as [|k IH]; intros f e x R K; [discriminate|]. cbn [from_parts_loop] in K. destruct (Z.abs e <=? 308)%Z.
  - cbv zeta in K. pose proof (representable_of_dec false 1 (Z.abs e)) as P. destruct (0 <=? e)%Z.
    + destruct (is_infinite _); [discriminate|]. injection K as <-. now apply representable_mul.
    + injection K as <-. now apply representable_div.
  - destruct (f_eqb f f_zero); [injection K as <-; assumption|]. destruct (0 <=? e)%Z; [discriminate|]. apply IH in K; [assumption|]. apply representable_div; [assumption|apply representable_of_dec].
Qed.
Lemma parts_ok : forall p sig e x, f64_from_parts p sig e = Some x -> representable x.
Proof.
  intros p sig e x. unfold f64_from_parts. destruct (from_parts_loop _ _ _) as [f|] eqn:K; [|discriminate]. apply parts_loop_ok in K; [|apply representable_of_Z]. intros [= <-]. destruct p; [assumption|now apply representable_neg].
Qed.
Lemma exponent_ok : forall p sig st s n r, parse_exponent p sig st s = Some (n, r) -> num_ok n.
Proof.
  intros p sig st s n r. unfold parse_exponent. destruct (match s with 43 :: r => (true, r) | 45 :: r => (false, r) | _ => (true, s) end) as [pe [|c r1]]; [discriminate|]. destruct (is_digit c); [|discriminate].
  destruct (exp_digits _ r1) as [[e|] r2].
  - cbv zeta. destruct (f64_from_parts _ _ _) as [f|] eqn:K; [|discriminate]. intros [= <- _]. now apply parts_ok in K.
  - destruct (_ && pe); [discriminate|]. intros [= <- _]. now destruct p.
Qed.
Lemma at_e : forall A (g : str -> option A) (h : option A) s o, match s with 101 :: r => g r | 69 :: r => g r | _ => h end = Some o -> (exists r, g r = Some o) \/ h = Some o.
Proof. intros A g h [|c r] o K; [now right|]. destruct c as [|c]; [now right|]. repeat (destruct c as [c|c|]; try (right; assumption); try (left; exists r; assumption)). Qed.
Lemma finish_ok : forall p sig e s n r, finish_float p sig e s = Some (n, r) -> num_ok n.
Proof.
  intros p sig e s n r K. unfold finish_float in K. apply (at_e _ (parse_exponent p sig e) (match f64_from_parts p sig e with Some f => Some (JFlt f, s) | None => None end)) in K as [(t & K)|K]; [now apply exponent_ok in K|].
  destruct (f64_from_parts _ _ _) as [f|] eqn:E; [|discriminate]. injection K as <- _. now apply parts_ok in E.
Qed.
Lemma decimal_ok : forall p sig b s n r, parse_decimal p sig b s = Some (n, r) -> num_ok n.
Proof.
  intros p sig b [|c s] n r; [discriminate|]. unfold parse_decimal. destruct (is_digit c); [|discriminate]. destruct (decimal_digits _ _ _) as [[sig' after] r']. apply finish_ok.
Qed.
Lemma tail_ok : forall p sig s n r, parse_number_tail p sig s = Some (n, r) -> num_ok n.
Proof.
  intros p sig s n r. unfold parse_number_tail.
  assert (L : (if p then Some (JPos sig, s) else if (sig =? 0) || (9223372036854775808 <? sig) then Some (JFlt (f_neg (f_of_Z (Z.of_N sig))), s) else Some (JNeg (- Z.of_N sig), s)) = Some (n, r) -> num_ok n).
  { destruct p; [|destruct (_ || _)]; intros [= <- _]; unfold num_ok; cbn [f_of_jnum]; rewrite ?representable_neg; apply representable_of_Z. }
  destruct s as [|c s]; [exact L|]. destruct c as [|c]; [exact L|].
  repeat (destruct c as [c|c|]; try exact L; try (apply decimal_ok); try (apply exponent_ok)).
Qed.
Lemma long_ok : forall p sig s n r, parse_long_integer p sig s = Some (n, r) -> num_ok n.
Proof.
  intros p sig s n r. unfold parse_long_integer. destruct (long_digits 0 s) as [e t]. pose proof (finish_ok p sig e t n r) as F.
  destruct t as [|c t]; [exact F|]. destruct c as [|c]; [exact F|]. repeat (destruct c as [c|c|]; try exact F; try (apply decimal_ok)).
Qed.
Lemma integer_ok : forall p s n r, parse_integer p s = Some (n, r) -> num_ok n.
Proof.
  intros p [|c s] n r; [discriminate|].
  assert (G : (if is_digit c then match int_digits (c - 48) s with inl (sig, r') => parse_number_tail p sig r' | inr (sig, r') => parse_long_integer p sig r' end else None) = Some (n, r) -> num_ok n).
  { destruct (is_digit c); [|discriminate]. destruct (int_digits _ s) as [[sig t]|[sig t]]; [apply tail_ok|apply long_ok]. }
  assert (Z0 : match s with d :: _ => if is_digit d then None else parse_number_tail p 0 s | [] => parse_number_tail p 0 s end = Some (n, r) -> num_ok n).
  { destruct s as [|d s]; [apply tail_ok|]. destruct (is_digit d); [discriminate|apply tail_ok]. }
  unfold parse_integer. destruct c as [|c]; [exact G|]. repeat (destruct c as [c|c|]; try exact G; try exact Z0).
Qed.
Lemma read_ok : forall d s j r, read_value d s = Some (j, r) -> json_ok j.
Proof.
  induction d as [|d IH]; intros s j r H; [discriminate|]. cbn [read_value] in H. destruct (skip_ws s) as [|c t]; [discriminate|].
  assert (Nm : forall p t', num_result (parse_integer p t') = Some (j, r) -> json_ok j). { intros p t' E. destruct (parse_integer p t') as [[n r']|] eqn:K; [|discriminate]. injection E as <- <-. apply ok_num. now apply integer_ok in K. }
  destruct (c =? 34). { destruct (read_string _ t) as [[u r']|]; [|discriminate]. injection H as <- <-. constructor. }
  destruct (c =? 91). { destruct d; [discriminate|]. destruct (read_elems _ _ _ t) as [[vs r']|] eqn:E; [|discriminate]. injection H as <- <-. apply ok_arr. revert E. apply elems_from. exact IH. }
  destruct (c =? 123). { destruct d; [discriminate|]. destruct (read_members _ _ _ _ t) as [[vs r']|] eqn:E; [|discriminate]. injection H as <- <-. apply (members_from json_ok) in E as [E1 E2]; [now apply ok_obj|exact IH|constructor|constructor]. }
  destruct (c =? 45); [now apply Nm in H|]. destruct (is_digit c); [now apply Nm in H|].
  destruct (strip_prefix (lit "true") (c :: t)); [injection H as <- <-; constructor|]. destruct (strip_prefix (lit "false") (c :: t)); [injection H as <- <-; constructor|].
  destruct (strip_prefix (lit "null") (c :: t)); [injection H as <- <-; constructor|discriminate].
Qed.
Lemma parse_with_ok : forall d s j, match read_value d s with Some (v, r) => match skip_ws r with [] => Some v | _ => None end | None => None end = Some j -> json_ok j.
Proof. intros d s j H. destruct (read_value d s) as [[v r]|] eqn:E; [|discriminate]. destruct (skip_ws r); [|discriminate]. injection H as <-. exact (read_ok d s v r E). Qed.
Lemma parse_ok : forall s j, json_parse s = Some j -> json_ok j.
Proof. intros s j. exact (parse_with_ok json_depth s j). Qed.

Lemma doubles_all : forall xs, Forall doubles xs -> doubles (VArray xs).
Proof. intros xs F. cbn. induction F; [exact I|now split]. Qed.
Section Values.
  Context {X : Ext} {H : Host}.
  Lemma to_value_ok : forall j, json_ok j -> doubles (json_to_value j).
  Proof.
    intros j. induction j as [|b|n|s|xs IH|kvs IH] using json_ind'; intros K; try exact I.
    - now inversion K.
    - cbn [json_to_value]. apply doubles_all. inversion K as [| | | |? F|]; subst. clear K. induction IH as [|x xs Hx IH IH2]; [constructor|]. inversion F; subst. constructor; auto.
  Qed.
  Lemma of_f64_ok : forall x, representable x -> json_ok (json_of_f64 x).
  Proof. intros x R. unfold json_of_f64, jnum_of_f64. destruct (is_finite x); constructor. exact R. Qed.
End Values.
