(** What is read as JSON has the form of JSON. *)
From Coq Require Import String List ZArith NArith Bool Lia.
From Verif Require Import Base F64 F64Text Syntax Ext Json Struct Spec Spec_syntax Spec_text Spec_json Spec_struct
  Base_proofs Float_proofs Exact_proofs Text_proofs Round_proofs Display_proofs Json_proofs Object_proofs Layout_proofs Struct_proofs.
Import ListNotations.
Local Open Scope N_scope.

(** ** Strings *)
Lemma hex4_part : forall s u r, read_hex4 s = Some (u, r) -> exists p, quoted_part (92 :: 117 :: p) /\ s = p ++ r.
Proof.
  intros s u r K. unfold read_hex4 in K. destruct s as [|a [|b [|c [|d s]]]]; try discriminate. destruct (hex_val a) eqn:A; [|discriminate]. destruct (hex_val b) eqn:B; [|discriminate]. destruct (hex_val c) eqn:C; [|discriminate]. destruct (hex_val d) eqn:D; [|discriminate].
  injection K as _ <-. exists [a; b; c; d]. split; [|reflexivity]. apply hex_part; apply hex_iff; congruence.
Qed.
Lemma unicode_parts : forall s u r, read_unicode s = Some (u, r) -> exists p ps, quoted_part (92 :: 117 :: p) /\ Forall quoted_part ps /\ s = p ++ concat ps ++ r.
Proof.
  intros s u r K. unfold read_unicode in K. destruct (read_hex4 s) as [[v q]|] eqn:E; [|discriminate]. apply hex4_part in E as (p & P & ->). exists p. destruct ((55296 <=? v) && (v <=? 56319)).
  - assert (G : forall A (g : str -> option A) (o : A), match q with 92 :: 117 :: r1 => g r1 | _ => None end = Some o -> exists r1, q = 92 :: 117 :: r1 /\ g r1 = Some o).
    { clear. intros A g o K. destruct q as [|c q]; [discriminate|]. destruct (N.eq_dec c 92) as [->|Nc]; [|exfalso; destruct c as [|c]; [discriminate|]; repeat (destruct c as [c|c|]; try discriminate); congruence].
      destruct q as [|d q]; [discriminate|]. destruct (N.eq_dec d 117) as [->|Nd]; [|exfalso; destruct d as [|d]; [discriminate|]; repeat (destruct d as [d|d|]; try discriminate); congruence]. now exists q. }
    apply G in K as (r1 & -> & K). destruct (read_hex4 r1) as [[v2 r2]|] eqn:E2; [|discriminate]. apply hex4_part in E2 as (p2 & P2 & ->). destruct ((56320 <=? v2) && (v2 <=? 57343)); [|discriminate]. injection K as _ <-. exists [92 :: 117 :: p2]. repeat split; try assumption; [now constructor|]. cbn. now rewrite app_nil_r.
  - destruct ((56320 <=? v) && (v <=? 57343)); [discriminate|]. injection K as _ <-. exists []. repeat split; try assumption. constructor.
Qed.
Lemma read_escape_eq : forall s, read_escape s = match s with
  | [] => None
  | c :: r => if c =? 34 then Some (34, r) else if c =? 92 then Some (92, r) else if c =? 47 then Some (47, r) else if c =? 98 then Some (8, r) else if c =? 102 then Some (12, r)
              else if c =? 110 then Some (10, r) else if c =? 114 then Some (13, r) else if c =? 116 then Some (9, r) else if c =? 117 then read_unicode r else None
  end.
Proof. intros [|c r]; [reflexivity|]. destruct c as [|c]; [reflexivity|]. do 7 (try (destruct c as [c|c|]; try reflexivity)). Qed.
Lemma escape_parts : forall s u r, read_escape s = Some (u, r) -> exists p ps, quoted_part (92 :: p) /\ Forall quoted_part ps /\ s = p ++ concat ps ++ r.
Proof.
  intros s u r K. rewrite read_escape_eq in K. destruct s as [|c s]; [discriminate|]. cbv iota in K.
  assert (G : In c (lit """\/bfnrt") -> s = r -> exists p ps, quoted_part (92 :: p) /\ Forall quoted_part ps /\ c :: s = p ++ concat ps ++ r). { intros I ->. exists [c], []. split; [now apply short_part|]. split; [constructor|reflexivity]. }
  repeat (match type of K with (if ?c =? ?n then Some _ else _) = _ => let E := fresh in destruct (c =? n) eqn:E; [apply N.eqb_eq in E; subst c; injection K as _ <-; apply G; [cbn; tauto|reflexivity]|] end).
  destruct (c =? 117) eqn:E'; [|discriminate]. apply N.eqb_eq in E'. subst. apply unicode_parts in K as (p & ps & P & F & ->). exists (117 :: p), ps. repeat split; assumption.
Qed.
Lemma string_parts : forall f s t r, read_string f s = Some (t, r) -> exists ps, Forall quoted_part ps /\ s = concat ps ++ 34 :: r.
Proof.
  induction f as [|f IH]; intros [|c s] t r K; try discriminate. cbn [read_string] in K. destruct (c =? 34) eqn:Q; [|destruct (c =? 92) eqn:B].
  - injection K as _ <-. apply N.eqb_eq in Q. subst. exists []. split; [constructor|reflexivity].
  - destruct (read_escape s) as [[u s']|] eqn:E; [|discriminate]. apply escape_parts in E as (p & ps & P & F & ->). destruct (read_string f s') as [[t' r']|] eqn:R; [|discriminate]. injection K as _ <-. apply IH in R as (qs & Fq & ->). apply N.eqb_eq in B. subst. exists (((92 :: p) :: ps) ++ qs). split; [apply Forall_app; split; [now constructor|assumption]|]. rewrite concat_app. cbn [concat app]. now rewrite <- !app_assoc.
  - destruct (c <? 32) eqn:L; [discriminate|]. destruct (read_string f s) as [[t' r']|] eqn:R; [|discriminate]. injection K as _ <-. apply IH in R as (ps & F & ->). exists ([c] :: ps). split; [|reflexivity]. constructor; [|assumption]. apply N.eqb_neq in Q, B. apply N.ltb_ge in L. now apply plain_part.
Qed.

(** ** Numbers *)
Lemma exp_rest : forall s e, match exp_digits e s with (Some _, r) => r = skip_digits s | (None, r) => skip_digits r = skip_digits s end.
Proof.
  induction s as [|c s IH]; intros e; [reflexivity|]. cbn [exp_digits skip_digits]. destruct (is_digit c) eqn:D; [|reflexivity]. destruct (i32_overflow e (c - 48)); [cbn [skip_digits]; now rewrite D|apply IH].
Qed.
Lemma exponent_rest : forall p sig st s n r, parse_exponent p sig st s = Some (n, r) -> skip_some_digits (match s with d :: r' => if (d =? 43) || (d =? 45) then r' else s | [] => s end) = Some r.
Proof.
  intros p sig st s n r K. unfold parse_exponent in K.
  assert (G : exists pe, (let '(pexp, r) := match s with 43 :: r => (true, r) | 45 :: r => (false, r) | _ => (true, s) end in (pexp, r)) = (pe, match s with d :: r' => if (d =? 43) || (d =? 45) then r' else s | [] => s end)).
  { clear. destruct s as [|d s]; [now exists true|]. destruct (N.eq_dec d 43) as [->|N1]; [now exists true|]. destruct (N.eq_dec d 45) as [->|N2]; [now exists false|]. rewrite (proj2 (N.eqb_neq d 43) N1), (proj2 (N.eqb_neq d 45) N2). exists true. destruct d as [|d]; [reflexivity|]. do 6 (try (destruct d as [d|d|]; try reflexivity; try congruence)). }
  destruct G as (pe & G). destruct (match s with 43 :: r => (true, r) | 45 :: r => (false, r) | _ => (true, s) end) as [pe' q]. injection G as -> ->.
  destruct (match s with d :: r' => if (d =? 43) || (d =? 45) then r' else s | [] => s end) as [|c r1]; [discriminate|]. cbn [skip_some_digits]. destruct (is_digit c); [|discriminate]. pose proof (exp_rest r1 (c - 48)) as R. destruct (exp_digits (c - 48) r1) as [[e|] r2].
  - destruct (f64_from_parts _ _ _); [|discriminate]. injection K as _ <-. now rewrite R.
  - destruct (negb (sig =? 0) && pe); [discriminate|]. injection K as _ <-. now rewrite R.
Qed.
Lemma finish_rest : forall p sig e s n r, finish_float p sig e s = Some (n, r) -> skip_exponent s = Some r.
Proof.
  intros p sig e s n r K. destruct s as [|c s]; [cbn in K; destruct (f64_from_parts p sig e); [|discriminate]; injection K as _ <-; reflexivity|]. cbn [skip_exponent].
  destruct (N.eq_dec c 101) as [->|N1]; [exact (exponent_rest _ _ _ _ _ _ K)|]. destruct (N.eq_dec c 69) as [->|N2]; [exact (exponent_rest _ _ _ _ _ _ K)|]. rewrite (proj2 (N.eqb_neq c 101) N1), (proj2 (N.eqb_neq c 69) N2).
  assert (K' : match f64_from_parts p sig e with Some f => Some (JFlt f, c :: s) | None => None end = Some (n, r)). { clear - K N1 N2. unfold finish_float in K. destruct c as [|c]; [exact K|]. do 7 (try (destruct c as [c|c|]; try exact K; try congruence)). }
  destruct (f64_from_parts p sig e); [|discriminate]. injection K' as _ <-. reflexivity.
Qed.
Lemma decimal_rest : forall s sig a, snd (decimal_digits sig a s) = skip_digits s.
Proof. induction s as [|c s IH]; intros sig a; [reflexivity|]. cbn [decimal_digits skip_digits]. destruct (is_digit c) eqn:D; [|reflexivity]. destruct (u64_overflow sig (c - 48)); [reflexivity|apply IH]. Qed.
Lemma decimal_skipped : forall p sig b s n r, parse_decimal p sig b s = Some (n, r) -> skip_fraction (46 :: s) = Some r.
Proof.
  intros p sig b s n r K. cbn [skip_fraction]. change (46 =? 46) with true. cbv iota. destruct s as [|c s]; [discriminate|]. unfold parse_decimal in K. pose proof (decimal_rest (c :: s) sig 0%Z) as R. cbn [skip_some_digits]. cbn [skip_digits] in R. destruct (is_digit c); [|discriminate].
  destruct (decimal_digits sig 0 (c :: s)) as [[sg a] q]. cbn [snd] in R. subst q. exact (finish_rest _ _ _ _ _ _ K).
Qed.
Lemma tail_rest : forall p sig s n r, parse_number_tail p sig s = Some (n, r) -> skip_fraction s = Some r.
Proof.
  intros p sig s n r K. destruct s as [|c s]. { cbn in K. destruct p; [injection K as _ <-; reflexivity|]. destruct ((sig =? 0) || _); injection K as _ <-; reflexivity. }
  destruct (N.eq_dec c 46) as [->|N0]; [exact (decimal_skipped _ _ _ _ _ _ K)|]. cbn [skip_fraction skip_exponent]. rewrite (proj2 (N.eqb_neq c 46) N0).
  destruct (N.eq_dec c 101) as [->|N1]; [exact (exponent_rest _ _ _ _ _ _ K)|]. destruct (N.eq_dec c 69) as [->|N2]; [exact (exponent_rest _ _ _ _ _ _ K)|]. rewrite (proj2 (N.eqb_neq c 101) N1), (proj2 (N.eqb_neq c 69) N2). cbn [orb].
  assert (K' : (if p then Some (JPos sig, c :: s) else if (sig =? 0) || (9223372036854775808 <? sig) then Some (JFlt (f_neg (f_of_Z (Z.of_N sig))), c :: s) else Some (JNeg (- Z.of_N sig), c :: s)) = Some (n, r)).
  { clear - K N0 N1 N2. unfold parse_number_tail in K. destruct c as [|c]; [exact K|]. do 7 (try (destruct c as [c|c|]; try exact K; try congruence)). }
  destruct p; [injection K' as _ <-; reflexivity|]. destruct ((sig =? 0) || _); injection K' as _ <-; reflexivity.
Qed.
Lemma long_rest : forall s e, snd (long_digits e s) = skip_digits s.
Proof. induction s as [|c s IH]; intros e; [reflexivity|]. cbn [long_digits skip_digits]. destruct (is_digit c); [apply IH|reflexivity]. Qed.
Lemma long_skipped : forall p sig s n r, parse_long_integer p sig s = Some (n, r) -> skip_fraction (skip_digits s) = Some r.
Proof.
  intros p sig s n r K. unfold parse_long_integer in K. pose proof (long_rest s 0%Z) as R. destruct (long_digits 0 s) as [e q]. cbn [snd] in R. rewrite <- R. clear R. destruct q as [|c q]; [cbn in K; destruct (f64_from_parts p sig e); [|discriminate]; injection K as _ <-; reflexivity|].
  destruct (N.eq_dec c 46) as [->|N0]; [exact (decimal_skipped _ _ _ _ _ _ K)|]. cbn [skip_fraction]. rewrite (proj2 (N.eqb_neq c 46) N0).
  assert (K' : finish_float p sig e (c :: q) = Some (n, r)). { clear - K N0. destruct c as [|c]; [exact K|]. do 6 (try (destruct c as [c|c|]; try exact K; try congruence)). }
  exact (finish_rest _ _ _ _ _ _ K').
Qed.
Lemma int_rest : forall s sig, match int_digits sig s with inl (_, r) => r = skip_digits s | inr (_, r) => skip_digits r = skip_digits s end.
Proof. induction s as [|c s IH]; intros sig; [reflexivity|]. cbn [int_digits skip_digits]. destruct (is_digit c) eqn:D; [|reflexivity]. destruct (u64_overflow sig (c - 48)); [cbn [skip_digits]; now rewrite D|apply IH]. Qed.
Lemma integer_skipped : forall p s n r, parse_integer p s = Some (n, r) -> skip_number s = Some r.
Proof.
  intros p s n r K. destruct s as [|c s]; [discriminate|]. cbn [skip_number]. destruct (N.eq_dec c 48) as [->|N0].
  - change (48 =? 48) with true. cbv iota. destruct s as [|d s].
    + change (parse_number_tail p 0 [] = Some (n, r)) in K. apply tail_rest in K. exact K.
    + change ((if is_digit d then None else parse_number_tail p 0 (d :: s)) = Some (n, r)) in K. destruct (is_digit d); [discriminate|]. exact (tail_rest _ _ _ _ _ K).
  - rewrite (proj2 (N.eqb_neq c 48) N0).
    assert (K' : (if is_digit c then match int_digits (c - 48) s with inl (sig, r') => parse_number_tail p sig r' | inr (sig, r') => parse_long_integer p sig r' end else None) = Some (n, r)).
    { clear - K N0. unfold parse_integer in K. destruct c as [|c]; [exact K|]. do 6 (try (destruct c as [c|c|]; try exact K; try congruence)). }
    destruct (is_digit c); [|discriminate]. pose proof (int_rest s (c - 48)) as R. destruct (int_digits (c - 48) s) as [[sig r']|[sig r']].
    + rewrite <- R. exact (tail_rest _ _ _ _ _ K').
    + rewrite <- R. exact (long_skipped _ _ _ _ _ K').
Qed.

(** ** Values *)
Definition reads (rec : str -> option (json * str)) : Prop := forall s v r, rec s = Some (v, r) -> exists w t, blank w /\ json_shape t /\ s = w ++ t ++ r.
Lemma elems_eq : forall rec f first s, read_elems rec (S f) first s =
  match skip_ws s with
  | c :: r =>
      if c =? 93 then Some ([], r)
      else let elem s1 := match rec s1 with Some (v, r1) => match read_elems rec f false r1 with Some (vs, r2) => Some (v :: vs, r2) | None => None end | None => None end in
      if first then if c =? 44 then None else elem (c :: r)
      else if c =? 44 then match skip_ws r with 93 :: _ => None | s1 => elem s1 end else None
  | [] => if first then match rec [] with Some (v, r1) => match read_elems rec f false r1 with Some (vs, r2) => Some (v :: vs, r2) | None => None end | None => None end else None
  end.
Proof. intros rec f first s. cbn [read_elems]. destruct (skip_ws s) as [|c r]; [reflexivity|]. destruct c as [|c]; [destruct first; reflexivity|]. do 7 (try (destruct c as [c|c|]; try reflexivity; try (destruct first; reflexivity))). Qed.
Lemma read_elems_shape : forall rec, reads rec -> forall fuel s vs r, read_elems rec fuel false s = Some (vs, r) ->
  exists w, blank w /\ (s = w ++ lit "]" ++ r \/ exists t, elements_shape t /\ s = w ++ lit "," ++ t ++ lit "]" ++ r).
Proof.
  intros rec Sh. induction fuel as [|f IH]; intros s vs r K; [discriminate|]. rewrite elems_eq in K. destruct (skip_ws_split s) as (w & B & Es & _). destruct (skip_ws s) as [|c q]; [discriminate|]. destruct (c =? 93) eqn:C.
  - injection K as _ <-. apply N.eqb_eq in C. subst c. exists w. split; [assumption|]. now left.
  - cbv zeta in K. destruct (c =? 44) eqn:C'; [|discriminate]. apply N.eqb_eq in C'. subst c.
    assert (K' : match rec (skip_ws q) with Some (v, r1) => match read_elems rec f false r1 with Some (vs, r2) => Some (v :: vs, r2) | None => None end | None => None end = Some (vs, r)).
    { clear - K. destruct (skip_ws q) as [|d q']; [exact K|]. destruct d as [|d]; [exact K|]. do 7 (try (destruct d as [d|d|]; try exact K; try discriminate)). }
    clear K. destruct (rec (skip_ws q)) as [[v r1]|] eqn:R; [|discriminate]. destruct (read_elems rec f false r1) as [[vs' r2]|] eqn:E; [|discriminate]. injection K' as _ <-.
    apply Sh in R as (w1 & t & B1 & V & Eq). destruct (skip_ws_split q) as (w0 & B0 & E0 & _). rewrite Eq in E0. apply IH in E as (w2 & B2 & [->|(u & U & ->)]).
    + exists w. split; [assumption|]. right. exists ((w0 ++ w1) ++ t ++ w2). split; [apply last_element; try assumption; now apply blank_app|]. rewrite Es, E0. now rewrite <- !app_assoc.
    + exists w. split; [assumption|]. right. exists ((w0 ++ w1) ++ t ++ w2 ++ lit "," ++ u). split; [apply more_elements; try assumption; now apply blank_app|]. rewrite Es, E0. now rewrite <- !app_assoc.
Qed.
Lemma read_elems_first : forall rec, reads rec -> forall fuel s vs r, read_elems rec fuel true s = Some (vs, r) -> exists t, (blank t \/ elements_shape t) /\ s = t ++ lit "]" ++ r.
Proof.
  intros rec Sh [|f] s vs r K; [discriminate|]. rewrite elems_eq in K. destruct (skip_ws_split s) as (w & B & Es & _). destruct (skip_ws s) as [|c q].
  - destruct (rec []) as [[v r1]|] eqn:R; [|discriminate]. apply Sh in R as (w1 & t & _ & V & E). symmetry in E. apply app_eq_nil in E as [_ E]. apply app_eq_nil in E as [-> _]. now apply shape_start in V.
  - destruct (c =? 93) eqn:C.
    + injection K as _ <-. apply N.eqb_eq in C. subst c. exists w. split; [now left|assumption].
    + cbv zeta in K. destruct (c =? 44); [discriminate|]. destruct (rec (c :: q)) as [[v r1]|] eqn:R; [|discriminate]. destruct (read_elems rec f false r1) as [[vs' r2]|] eqn:E; [|discriminate]. injection K as _ <-.
      apply Sh in R as (w1 & t & B1 & V & Eq). apply (read_elems_shape rec Sh) in E as (w2 & B2 & [->|(u & U & ->)]).
      * exists ((w ++ w1) ++ t ++ w2). split; [right; apply last_element; try assumption; now apply blank_app|]. rewrite Es, Eq. now rewrite <- !app_assoc.
      * exists ((w ++ w1) ++ t ++ w2 ++ lit "," ++ u). split; [right; apply more_elements; try assumption; now apply blank_app|]. rewrite Es, Eq. now rewrite <- !app_assoc.
Qed.
Section Members.
  Context {X : Ext}.
  Lemma members_eq : forall rec f first acc s, read_members rec (S f) first acc s =
    match skip_ws s with
    | c :: r =>
        if c =? 125 then Some (acc, r)
        else if first then if c =? 44 then None else next_member rec f acc (c :: r)
        else if c =? 44 then next_member rec f acc (skip_ws r) else None
    | [] => if first then next_member rec f acc [] else None
    end.
  Proof. intros rec f first acc s. rewrite members_step. destruct (skip_ws s) as [|c r]; [reflexivity|]. destruct c as [|c]; [destruct first; reflexivity|]. do 7 (try (destruct c as [c|c|]; try reflexivity; try (destruct first; reflexivity))). Qed.
  Lemma next_member_shape : forall rec, reads rec -> forall f acc s kvs r, next_member rec f acc s = Some (kvs, r) ->
    exists k w2 w3 t r3 acc', quoted_shape k /\ blank w2 /\ blank w3 /\ json_shape t /\ s = k ++ w2 ++ lit ":" ++ w3 ++ t ++ r3 /\ read_members rec f false acc' r3 = Some (kvs, r).
  Proof.
    intros rec Sh f acc s kvs r K. unfold next_member in K.
    assert (G34 : forall A (g : str -> option A) s o, match s with 34 :: r => g r | _ => None end = Some o -> exists r, s = 34 :: r /\ g r = Some o).
    { clear. intros A g [|c s] o K; [discriminate|]. destruct (N.eq_dec c 34) as [->|Nc]; [now exists s|]. exfalso. destruct c as [|c]; [discriminate|]. repeat (destruct c as [c|c|]; try discriminate). congruence. }
    assert (G58 : forall A (g : str -> option A) s o, match s with 58 :: r => g r | _ => None end = Some o -> exists r, s = 58 :: r /\ g r = Some o).
    { clear. intros A g [|c s] o K; [discriminate|]. destruct (N.eq_dec c 58) as [->|Nc]; [now exists s|]. exfalso. destruct c as [|c]; [discriminate|]. repeat (destruct c as [c|c|]; try discriminate). congruence. }
    apply G34 in K as (q & -> & K). destruct (read_string (S (length q)) q) as [[k r1]|] eqn:Q; [|discriminate]. apply string_parts in Q as (ps & F & ->). destruct (skip_ws_split r1) as (w2 & B2 & E2 & _). apply G58 in K as (r2 & E & K). rewrite E in E2.
    destruct (rec r2) as [[v r3]|] eqn:R; [|discriminate]. apply Sh in R as (w3 & t & B3 & V & ->). exists ([34] ++ concat ps ++ [34]), w2, w3, t, r3, (binsert k v acc). repeat split; try assumption; [now exists ps|]. rewrite E2. cbn. now rewrite <- !app_assoc.
  Qed.
  Lemma read_members_shape : forall rec, reads rec -> forall fuel acc s kvs r, read_members rec fuel false acc s = Some (kvs, r) ->
    exists w, blank w /\ (s = w ++ lit "}" ++ r \/ exists t, members_shape t /\ s = w ++ lit "," ++ t ++ lit "}" ++ r).
  Proof.
    intros rec Sh. induction fuel as [|f IH]; intros acc s kvs r K; [discriminate|]. rewrite members_eq in K. destruct (skip_ws_split s) as (w & B & Es & _). destruct (skip_ws s) as [|c q]; [discriminate|]. destruct (c =? 125) eqn:C.
    - injection K as _ <-. apply N.eqb_eq in C. subst c. exists w. split; [assumption|]. now left.
    - destruct (c =? 44) eqn:C'; [|discriminate]. apply N.eqb_eq in C'. subst c. destruct (skip_ws_split q) as (w1 & B1 & E1 & _). apply (next_member_shape rec Sh) in K as (k & w2 & w3 & t & r3 & acc' & Q & B2 & B3 & V & Eq & K). rewrite Eq in E1. apply IH in K as (w4 & B4 & [->|(u & U & ->)]).
      + exists w. split; [assumption|]. right. exists (w1 ++ k ++ w2 ++ lit ":" ++ w3 ++ t ++ w4). split; [now apply last_member|]. rewrite Es, E1. now rewrite <- !app_assoc.
      + exists w. split; [assumption|]. right. exists (w1 ++ k ++ w2 ++ lit ":" ++ w3 ++ t ++ w4 ++ lit "," ++ u). split; [now apply more_members|]. rewrite Es, E1. now rewrite <- !app_assoc.
  Qed.
  Lemma read_members_first : forall rec, reads rec -> forall fuel acc s kvs r, read_members rec fuel true acc s = Some (kvs, r) -> exists t, (blank t \/ members_shape t) /\ s = t ++ lit "}" ++ r.
  Proof.
    intros rec Sh [|f] acc s kvs r K; [discriminate|]. rewrite members_eq in K. destruct (skip_ws_split s) as (w & B & Es & _). destruct (skip_ws s) as [|c q]; [discriminate|]. destruct (c =? 125) eqn:C.
    - injection K as _ <-. apply N.eqb_eq in C. subst c. exists w. split; [now left|assumption].
    - destruct (c =? 44); [discriminate|]. apply (next_member_shape rec Sh) in K as (k & w2 & w3 & t & r3 & acc' & Q & B2 & B3 & V & Eq & K). rewrite Eq in Es. apply (read_members_shape rec Sh) in K as (w4 & B4 & [->|(u & U & ->)]).
      + exists (w ++ k ++ w2 ++ lit ":" ++ w3 ++ t ++ w4). split; [right; now apply last_member|]. rewrite Es. now rewrite <- !app_assoc.
      + exists (w ++ k ++ w2 ++ lit ":" ++ w3 ++ t ++ w4 ++ lit "," ++ u). split; [right; now apply more_members|]. rewrite Es. now rewrite <- !app_assoc.
  Qed.
  Lemma read_shape : forall d, reads (read_value d).
  Proof.
    induction d as [|d IH]; intros s v r K; [discriminate|]. cbn [read_value] in K. destruct (skip_ws_split s) as (w & B & Es & _). destruct (skip_ws s) as [|c q]; [discriminate|]. exists w.
    assert (G : forall t, json_shape t -> c :: q = t ++ r -> exists t, blank w /\ json_shape t /\ s = w ++ t ++ r) by (intros t T E; exists t; rewrite <- E; tauto).
    assert (Gn : forall sg p s', In sg [[]; lit "-"] -> c :: q = sg ++ s' -> num_result (parse_integer p s') = Some (v, r) -> exists t, blank w /\ json_shape t /\ s = w ++ t ++ r).
    { intros sg p s' Sg E N. destruct (parse_integer p s') as [[n r']|] eqn:P; [|discriminate]. cbn in N. injection N as _ <-. apply integer_skipped in P. apply number_form in P as (a & fr & e & A & Fr & Ee & ->). apply (G (sg ++ a ++ fr ++ e)); [apply a_number_shape; exists sg, a, fr, e; tauto|]. rewrite E. now rewrite <- !app_assoc. }
    destruct (c =? 34) eqn:C1; [|destruct (c =? 91) eqn:C2; [|destruct (c =? 123) eqn:C3; [|destruct (c =? 45) eqn:C4; [|destruct (is_digit c) eqn:C5]]]].
    - apply N.eqb_eq in C1. subst. destruct (read_string _ q) as [[t r']|] eqn:R; [|discriminate]. injection K as _ <-. apply string_parts in R as (ps & F & ->). apply (G ([34] ++ concat ps ++ [34])); [apply a_quoted_shape; now exists ps|]. cbn. now rewrite <- app_assoc.
    - apply N.eqb_eq in C2. subst. destruct d; [discriminate|]. destruct (read_elems _ _ _ q) as [[vs r']|] eqn:R; [|discriminate]. injection K as _ <-. apply (read_elems_first _ IH) in R as (t & T & ->). apply (G (lit "[" ++ t ++ lit "]")); [destruct T; [now apply empty_array_shape|now apply array_shape]|]. now rewrite <- !app_assoc.
    - apply N.eqb_eq in C3. subst. destruct d; [discriminate|]. destruct (read_members _ _ _ _ q) as [[vs r']|] eqn:R; [|discriminate]. injection K as _ <-. apply (read_members_first _ IH) in R as (t & T & ->). apply (G (lit "{" ++ t ++ lit "}")); [destruct T; [now apply empty_object_shape|now apply object_shape]|]. now rewrite <- !app_assoc.
    - apply N.eqb_eq in C4. subst. apply (Gn (lit "-") false q); [cbn; tauto|reflexivity|assumption].
    - apply (Gn [] true (c :: q)); [cbn; tauto|reflexivity|assumption].
    - destruct (strip_prefix (lit "true") (c :: q)) as [r'|] eqn:T; [|destruct (strip_prefix (lit "false") (c :: q)) as [r'|] eqn:Fl; [|destruct (strip_prefix (lit "null") (c :: q)) as [r'|] eqn:Nl; [|discriminate]]].
      + injection K as _ <-. apply strip_prefix_spec in T. apply (G (lit "true")); [apply word_shape; cbn; tauto|assumption].
      + injection K as _ <-. apply strip_prefix_spec in Fl. apply (G (lit "false")); [apply word_shape; cbn; tauto|assumption].
      + injection K as _ <-. apply strip_prefix_spec in Nl. apply (G (lit "null")); [apply word_shape; cbn; tauto|assumption].
  Qed.
  Lemma parsed_at : forall d s j, match read_value d s with Some (v, r) => match skip_ws r with [] => Some v | _ => None end | None => None end = Some j -> json_document s.
  Proof.
    intros d s j K. destruct (read_value d s) as [[v r]|] eqn:R; [|discriminate]. apply read_shape in R as (w & t & B & T & ->). destruct (skip_ws_split r) as (w2 & B2 & E & _). destruct (skip_ws r) as [|c q]; [|discriminate]. rewrite app_nil_r in E. subst r. now exists w, t, w2.
  Qed.
  Lemma parsed_shape : forall s j, json_parse s = Some j -> json_document s.
  Proof. intros s j. exact (parsed_at json_depth s j). Qed.
End Members.
