(** Reading JSON gives what the text stands for, and nothing else is read. *)
From Coq Require Import String List ZArith NArith Bool Lia Permutation.
From Verif Require Import Base F64 F64Text Syntax Ext Json Struct Spec Spec_syntax Spec_text Spec_json Spec_struct Spec_means
  Base_proofs Float_proofs Exact_proofs Text_proofs Round_proofs Display_proofs Json_proofs Object_proofs Layout_proofs Struct_proofs JsonShape_proofs.
Import ListNotations.
Local Open Scope N_scope.

(** ** A number is read the same whatever follows it *)
Definition followed {A} (r : str) (o : option (A * str)) : option (A * str) := match o with Some (n, q) => Some (n, q ++ r) | None => None end.
Lemma digits_followed : forall s r, stops r -> skip_digits (s ++ r) = skip_digits s ++ r.
Proof.
  intros s r St. induction s as [|c s IH]; [|cbn [app skip_digits]; destruct (is_digit c); [exact IH|reflexivity]].
  cbn [app]. pose proof (stops_digit r St) as D. destruct r as [|c r]; [reflexivity|]. cbn [skip_digits]. now rewrite D.
Qed.
Lemma exp_followed : forall s e r, stops r -> exp_digits e (s ++ r) = let '(o, q) := exp_digits e s in (o, q ++ r).
Proof.
  intros s. induction s as [|c s IH]; intros e r St.
  - cbn [app]. pose proof (stops_digit r St) as D. destruct r as [|c r]; [reflexivity|]. cbn [exp_digits]. rewrite D. reflexivity.
  - cbn [app exp_digits]. destruct (is_digit c); [|reflexivity]. cbv zeta. destruct (i32_overflow e (c - 48)); [reflexivity|]. now apply IH.
Qed.
Lemma exponent_eq : forall p sig st s, parse_exponent p sig st s =
  match (match s with c :: r => if c =? 43 then r else if c =? 45 then r else s | [] => [] end) with
  | c :: r1 =>
      if is_digit c then
        match exp_digits (c - 48)%N r1 with
        | (Some e, r2) =>
            match f64_from_parts p sig (clamp_i32 (if negb (match s with c :: _ => c =? 45 | [] => false end) then st + Z.of_N e else st - Z.of_N e)) with
            | Some f => Some (JFlt f, r2)
            | None => None
            end
        | (None, r2) => if negb (sig =? 0) && negb (match s with c :: _ => c =? 45 | [] => false end) then None else Some (JFlt (if p then f_zero else f_neg f_zero), skip_digits r2)
        end
      else None
  | [] => None
  end.
Proof. intros p sig st [|c s]; [reflexivity|]. unfold parse_exponent. destruct c as [|c]; [reflexivity|]. do 6 (try (destruct c as [c|c|]; try reflexivity)). Qed.
Lemma exponent_followed : forall p sig st s r, stops r -> parse_exponent p sig st (s ++ r) = followed r (parse_exponent p sig st s).
Proof.
  intros p sig st s r St. rewrite !exponent_eq. destruct s as [|c s].
  - cbn [app]. pose proof (stops_digit r St) as D. destruct r as [|c r]; [reflexivity|]. destruct St as [->|[->|[->|[->|[->|[->| ->]]]]]]; reflexivity.
  - cbn [app]. set (sign := negb (c =? 45)).
    assert (G : forall q, match q ++ r with
      | c :: r1 => if is_digit c then match exp_digits (c - 48)%N r1 with
          | (Some e, r2) => match f64_from_parts p sig (clamp_i32 (if sign then st + Z.of_N e else st - Z.of_N e)) with Some f => Some (JFlt f, r2) | None => None end
          | (None, r2) => if negb (sig =? 0) && sign then None else Some (JFlt (if p then f_zero else f_neg f_zero), skip_digits r2) end else None
      | [] => None end = followed r (match q with
      | c :: r1 => if is_digit c then match exp_digits (c - 48)%N r1 with
          | (Some e, r2) => match f64_from_parts p sig (clamp_i32 (if sign then st + Z.of_N e else st - Z.of_N e)) with Some f => Some (JFlt f, r2) | None => None end
          | (None, r2) => if negb (sig =? 0) && sign then None else Some (JFlt (if p then f_zero else f_neg f_zero), skip_digits r2) end else None
      | [] => None end)).
    { intros [|d q]; cbn [app].
      - pose proof (stops_digit r St) as D. destruct r as [|d r]; [reflexivity|]. now rewrite D.
      - destruct (is_digit d); [|reflexivity]. rewrite exp_followed by assumption. destruct (exp_digits (d - 48) q) as [[e|] q'].
        + destruct (f64_from_parts _ _ _); reflexivity.
        + destruct (negb (sig =? 0) && sign); [reflexivity|]. cbn [followed]. now rewrite digits_followed. }
    destruct (c =? 43); [exact (G s)|]. destruct (c =? 45); [exact (G s)|exact (G (c :: s))].
Qed.
Lemma finish_eq : forall p sig e s, finish_float p sig e s =
  match s with
  | c :: r => if (c =? 101) || (c =? 69) then parse_exponent p sig e r else match f64_from_parts p sig e with Some f => Some (JFlt f, s) | None => None end
  | [] => match f64_from_parts p sig e with Some f => Some (JFlt f, s) | None => None end
  end.
Proof. intros p sig e [|c s]; [reflexivity|]. unfold finish_float. destruct c as [|c]; [reflexivity|]. do 7 (try (destruct c as [c|c|]; try reflexivity)). Qed.
Lemma stops_other : forall c r, stops (c :: r) -> (c =? 101) = false /\ (c =? 69) = false /\ (c =? 46) = false.
Proof. intros c r [->|[->|[->|[->|[->|[->| ->]]]]]]; repeat split; reflexivity. Qed.
Lemma finish_followed : forall p sig e s r, stops r -> finish_float p sig e (s ++ r) = followed r (finish_float p sig e s).
Proof.
  intros p sig e s r St. rewrite !finish_eq. destruct s as [|c s]; cbn [app].
  - destruct r as [|c r]; [|destruct (stops_other c r St) as (-> & -> & _)]; cbn [orb]; destruct (f64_from_parts p sig e); reflexivity.
  - destruct ((c =? 101) || (c =? 69)); [now apply exponent_followed|]. destruct (f64_from_parts p sig e); reflexivity.
Qed.
Lemma decimal_followed : forall s sig a r, stops r -> decimal_digits sig a (s ++ r) = let '(x, q) := decimal_digits sig a s in (x, q ++ r).
Proof.
  intros s. induction s as [|c s IH]; intros sig a r St.
  - cbn [app]. pose proof (stops_digit r St) as D. destruct r as [|c r]; [reflexivity|]. cbn [decimal_digits]. now rewrite D.
  - cbn [app decimal_digits]. destruct (is_digit c) eqn:D; [|reflexivity]. cbv zeta. destruct (u64_overflow sig (c - 48)); [|now apply IH]. change (c :: s ++ r) with ((c :: s) ++ r). now rewrite digits_followed.
Qed.
Lemma parse_decimal_followed : forall p sig b s r, stops r -> parse_decimal p sig b (s ++ r) = followed r (parse_decimal p sig b s).
Proof.
  intros p sig b s r St. unfold parse_decimal. destruct s as [|c s].
  - cbn [app]. pose proof (stops_digit r St) as D. destruct r as [|c r]; [reflexivity|]. now rewrite D.
  - cbn [app]. destruct (is_digit c); [|reflexivity]. change (c :: s ++ r) with ((c :: s) ++ r). rewrite decimal_followed by assumption. destruct (decimal_digits sig 0 (c :: s)) as [[sig' a] q]. now apply finish_followed.
Qed.
Definition whole_result (p : bool) (sig : N) : jnum :=
  if p then JPos sig else if (sig =? 0) || (9223372036854775808 <? sig) then JFlt (f_neg (f_of_Z (Z.of_N sig))) else JNeg (- Z.of_N sig).
Lemma tail_eq : forall p sig s, parse_number_tail p sig s =
  match s with
  | c :: r => if c =? 46 then parse_decimal p sig 0 r else if (c =? 101) || (c =? 69) then parse_exponent p sig 0 r else Some (whole_result p sig, s)
  | [] => Some (whole_result p sig, s)
  end.
Proof.
  intros p sig s. unfold whole_result. assert (G : forall t : str, (if p then Some (JPos sig, t) else if (sig =? 0) || (9223372036854775808 <? sig) then Some (JFlt (f_neg (f_of_Z (Z.of_N sig))), t) else Some (JNeg (- Z.of_N sig), t)) = Some (if p then JPos sig else if (sig =? 0) || (9223372036854775808 <? sig) then JFlt (f_neg (f_of_Z (Z.of_N sig))) else JNeg (- Z.of_N sig), t)).
  { intros t. destruct p; [reflexivity|]. destruct ((sig =? 0) || _); reflexivity. }
  destruct s as [|c s]; [exact (G [])|]. unfold parse_number_tail. destruct c as [|c]; [exact (G (0 :: s))|]. do 7 (try (destruct c as [c|c|]; try reflexivity; try exact (G _))).
Qed.
Lemma tail_followed : forall p sig s r, stops r -> parse_number_tail p sig (s ++ r) = followed r (parse_number_tail p sig s).
Proof.
  intros p sig s r St. rewrite !tail_eq. destruct s as [|c s]; cbn [app].
  - destruct r as [|c r]; [reflexivity|]. destruct (stops_other c r St) as (-> & -> & ->). reflexivity.
  - destruct (c =? 46); [now apply parse_decimal_followed|]. destruct ((c =? 101) || (c =? 69)); [now apply exponent_followed|reflexivity].
Qed.
Lemma long_followed : forall s e r, stops r -> long_digits e (s ++ r) = let '(x, q) := long_digits e s in (x, q ++ r).
Proof.
  intros s. induction s as [|c s IH]; intros e r St.
  - cbn [app]. pose proof (stops_digit r St) as D. destruct r as [|c r]; [reflexivity|]. cbn [long_digits]. now rewrite D.
  - cbn [app long_digits]. destruct (is_digit c); [now apply IH|reflexivity].
Qed.
Lemma long_eq : forall p sig s, parse_long_integer p sig s = let '(e, r) := long_digits 0 s in match r with c :: r1 => if c =? 46 then parse_decimal p sig e r1 else finish_float p sig e r | [] => finish_float p sig e r end.
Proof. intros p sig s. unfold parse_long_integer. destruct (long_digits 0 s) as [e [|c r]]; [reflexivity|]. destruct c as [|c]; [reflexivity|]. do 6 (try (destruct c as [c|c|]; try reflexivity)). Qed.
Lemma long_integer_followed : forall p sig s r, stops r -> parse_long_integer p sig (s ++ r) = followed r (parse_long_integer p sig s).
Proof.
  intros p sig s r St. rewrite !long_eq, long_followed by assumption. destruct (long_digits 0 s) as [e q]. destruct q as [|c q]; cbn [app].
  - destruct r as [|c r]; [now rewrite <- (finish_followed p sig e [] [] Logic.I)|]. destruct (stops_other c r St) as (_ & _ & ->). exact (finish_followed p sig e [] (c :: r) St).
  - destruct (c =? 46); [now apply parse_decimal_followed|]. exact (finish_followed p sig e (c :: q) r St).
Qed.
Lemma int_followed : forall s sig r, stops r -> int_digits sig (s ++ r) = match int_digits sig s with inl (x, q) => inl (x, q ++ r) | inr (x, q) => inr (x, q ++ r) end.
Proof.
  intros s. induction s as [|c s IH]; intros sig r St.
  - cbn [app]. pose proof (stops_digit r St) as D. destruct r as [|c r]; [reflexivity|]. cbn [int_digits]. now rewrite D.
  - cbn [app int_digits]. destruct (is_digit c); [|reflexivity]. cbv zeta. destruct (u64_overflow sig (c - 48)); [reflexivity|now apply IH].
Qed.
Lemma integer_eq : forall p s, parse_integer p s =
  match s with
  | c :: r => if c =? 48 then match r with d :: _ => if is_digit d then None else parse_number_tail p 0 r | [] => parse_number_tail p 0 r end
              else if is_digit c then match int_digits (c - 48) r with inl (sig, r') => parse_number_tail p sig r' | inr (sig, r') => parse_long_integer p sig r' end else None
  | [] => None
  end.
Proof. intros p [|c s]; [reflexivity|]. unfold parse_integer. destruct c as [|c]; [reflexivity|]. do 6 (try (destruct c as [c|c|]; try reflexivity)). Qed.
Lemma integer_followed : forall p s r, stops r -> parse_integer p (s ++ r) = followed r (parse_integer p s).
Proof.
  intros p s r St. rewrite !integer_eq. destruct s as [|c s]; cbn [app].
  - destruct r as [|c r]; [reflexivity|]. destruct St as [->|[->|[->|[->|[->|[->| ->]]]]]]; reflexivity.
  - destruct (c =? 48).
    + destruct s as [|d s]; cbn [app].
      * pose proof (stops_digit r St) as D. pose proof (tail_followed p 0 [] r St) as T. cbn [app] in T. destruct r as [|d r]; [exact T|]. now rewrite D.
      * destruct (is_digit d); [reflexivity|]. exact (tail_followed p 0 (d :: s) r St).
    + destruct (is_digit c); [|reflexivity]. rewrite int_followed by assumption. destruct (int_digits (c - 48) s) as [[sig q]|[sig q]]; [now apply tail_followed|now apply long_integer_followed].
Qed.

(** ** Numbers by themselves *)
Definition number_result (s : str) : option (jnum * str) :=
  match s with c :: r => if c =? 45 then parse_integer false r else parse_integer true s | [] => None end.
Lemma number_followed : forall s r, s <> [] -> stops r -> number_result (s ++ r) = followed r (number_result s).
Proof. intros [|c s] r Ne St; [congruence|]. cbn [app number_result]. destruct (c =? 45); [now apply integer_followed|exact (integer_followed true (c :: s) r St)]. Qed.
Definition number_start (s : str) : Prop := match s with c :: _ => c = 45 \/ is_digit c = true | [] => False end.
Lemma start_read : forall d s, number_start s -> read_value (S d) s = num_result (number_result s).
Proof.
  intros d [|c s] St; [contradiction|]. cbn [number_start] in St. cbn [read_value number_result]. assert (W : skip_ws (c :: s) = c :: s).
  { cbn [skip_ws]. destruct St as [->|D]; [reflexivity|]. apply is_digit_range in D. unfold json_ws. repeat (rewrite (proj2 (N.eqb_neq c _)) by lia). reflexivity. }
  rewrite W. destruct (c =? 45) eqn:C.
  - apply N.eqb_eq in C. subst. reflexivity.
  - destruct St as [->|D]; [discriminate|]. pose proof D as R. apply is_digit_range in R. repeat (rewrite (proj2 (N.eqb_neq c _)) by lia). now rewrite D.
Qed.
Lemma shape_number_start : forall s, number_shape s -> number_start s.
Proof.
  intros s (sg & a & f & e & Sg & W & _ & _ & ->). destruct Sg as [<-|[<-|[]]]; [|now left]. cbn [app]. destruct W as [->|[[Ne F] _]]; [right; reflexivity|]. destruct a as [|c a]; [congruence|]. right. inversion F; subst. apply is_digit_range. lia.
Qed.
Lemma number_left : forall s n q, number_shape s -> number_result s = Some (n, q) -> q = [].
Proof.
  intros s n q Sh K. pose proof Sh as (sg & a & f & e & Sg & W & F & E & ->).
  assert (K' : exists p, parse_integer p (a ++ f ++ e) = Some (n, q)).
  { destruct Sg as [<-|[<-|[]]]; cbn [app] in K.
    - exists true. destruct (whole_start a (f ++ e) W) as (c & r & E1 & D). rewrite E1 in *. cbn [number_result] in K. now rewrite (proj2 (N.eqb_neq c 45)) in K by lia.
    - now exists false. }
  destruct K' as (p & K'). apply integer_skipped in K'. rewrite <- (app_nil_r e) in K'. rewrite (number_skipped a f e [] W F E) in K'; [congruence|]. now apply stops_number.
Qed.
Lemma parsed_number_at : forall d s n, number_start s -> number_shape s ->
  (match read_value (S d) s with Some (v, r) => match skip_ws r with [] => Some v | _ => None end | None => None end = Some (JNum n) <-> number_result s = Some (n, [])).
Proof.
  intros d s n St Sh. rewrite (start_read d s St). destruct (number_result s) as [[m q]|] eqn:R; cbn [num_result]; [|split; discriminate]. rewrite (number_left s m q Sh R). cbn [skip_ws]. split; intros K; injection K as <-; reflexivity.
Qed.
Lemma parsed_number : forall s n, number_shape s -> json_parse s = Some (JNum n) <-> number_result s = Some (n, []).
Proof. intros s n Sh. exact (parsed_number_at (pred json_depth) s n (shape_number_start s Sh) Sh). Qed.
Local Opaque json_parse.

(** ** Strings *)
Lemma val_figure : forall c v, hex_val c = Some v -> hex_figure c v.
Proof.
  intros c v K. unfold hex_val in K. destruct (is_digit c) eqn:D; [injection K as <-; apply digit_iff in D; left; lia|].
  destruct ((97 <=? c) && (c <=? 102)) eqn:L; [injection K as <-; apply andb_true_iff in L as [L1 L2]; apply N.leb_le in L1, L2; right; right; lia|].
  destruct ((65 <=? c) && (c <=? 70)) eqn:U; [injection K as <-; apply andb_true_iff in U as [L1 L2]; apply N.leb_le in L1, L2; right; left; lia|discriminate].
Qed.
Lemma hex4_unit : forall s u r, read_hex4 s = Some (u, r) -> exists t, hex_unit t u /\ s = t ++ r.
Proof.
  intros s u r K. unfold read_hex4 in K. destruct s as [|a [|b [|c [|d s]]]]; try discriminate. destruct (hex_val a) eqn:A; [|discriminate]. destruct (hex_val b) eqn:B; [|discriminate]. destruct (hex_val c) eqn:C; [|discriminate]. destruct (hex_val d) eqn:D; [|discriminate].
  injection K as <- <-. exists [a; b; c; d]. split; [|reflexivity]. exists a, b, c, d. do 4 eexists. split; [reflexivity|]. do 4 (split; [apply val_figure; eassumption|]). lia.
Qed.
Lemma escape_spelling : forall s u r, read_escape s = Some (u, r) -> exists t, spelled_char u (92 :: t) /\ s = t ++ r.
Proof.
  intros s u r K. rewrite read_escape_eq in K. destruct s as [|c s]; [discriminate|]. cbv iota in K.
  repeat (match type of K with (if ?c =? ?n then Some _ else _) = _ => let E := fresh in destruct (c =? n) eqn:E; [apply N.eqb_eq in E; subst c; injection K as <- <-; eexists; split; [apply by_letter; cbn; tauto|reflexivity]|] end).
  destruct (c =? 117) eqn:E'; [|discriminate]. apply N.eqb_eq in E'. subst. unfold read_unicode in K. destruct (read_hex4 s) as [[v q]|] eqn:E; [|discriminate]. apply hex4_unit in E as (t & U & ->). destruct ((55296 <=? v) && (v <=? 56319)) eqn:Hi.
  - assert (G : forall A (g : str -> option A) (o : A), match q with 92 :: 117 :: r1 => g r1 | _ => None end = Some o -> exists r1, q = 92 :: 117 :: r1 /\ g r1 = Some o).
    { clear. intros A g o K. destruct q as [|c q]; [discriminate|]. destruct (N.eq_dec c 92) as [->|Nc]; [|exfalso; destruct c as [|c]; [discriminate|]; repeat (destruct c as [c|c|]; try discriminate); congruence].
      destruct q as [|d q]; [discriminate|]. destruct (N.eq_dec d 117) as [->|Nd]; [|exfalso; destruct d as [|d]; [discriminate|]; repeat (destruct d as [d|d|]; try discriminate); congruence]. now exists q. }
    apply G in K as (r1 & -> & K). destruct (read_hex4 r1) as [[v2 r2]|] eqn:E2; [|discriminate]. apply hex4_unit in E2 as (t2 & U2 & ->). destruct ((56320 <=? v2) && (v2 <=? 57343)) eqn:Lo; [|discriminate]. injection K as <- <-.
    apply andb_true_iff in Hi as [Hi1 Hi2]. apply andb_true_iff in Lo as [Lo1 Lo2]. apply N.leb_le in Hi1, Hi2, Lo1, Lo2. exists (117 :: t ++ 92 :: 117 :: t2). split; [apply (by_pair _ t t2 v v2); [assumption|assumption|clear - Hi1 Hi2; lia|clear - Lo1 Lo2; lia|now rewrite (N.mul_comm 1024)]|]. cbn [app]. now rewrite <- app_assoc.
  - destruct ((56320 <=? v) && (v <=? 57343)) eqn:Lo; [discriminate|]. injection K as <- <-. exists (117 :: t). split; [|reflexivity]. apply by_unit; [assumption|]. intros [A B]. apply andb_false_iff in Hi as [Hi|Hi], Lo as [Lo|Lo]; apply N.leb_gt in Hi, Lo; lia.
Qed.
Lemma string_spelled : forall f s t r, read_string f s = Some (t, r) -> exists ps, Forall2 spelled_char t ps /\ s = concat ps ++ 34 :: r.
Proof.
  induction f as [|f IH]; intros [|c s] t r K; try discriminate. cbn [read_string] in K. destruct (c =? 34) eqn:Q; [|destruct (c =? 92) eqn:B].
  - injection K as <- <-. apply N.eqb_eq in Q. subst. exists []. split; [constructor|reflexivity].
  - destruct (read_escape s) as [[u s']|] eqn:E; [|discriminate]. apply escape_spelling in E as (p & P & ->). destruct (read_string f s') as [[t' r']|] eqn:R; [|discriminate]. injection K as <- <-. apply IH in R as (qs & Fq & ->). apply N.eqb_eq in B. subst. exists ((92 :: p) :: qs). split; [now constructor|]. cbn [concat app]. now rewrite <- !app_assoc.
  - destruct (c <? 32) eqn:L; [discriminate|]. destruct (read_string f s) as [[t' r']|] eqn:R; [|discriminate]. injection K as <- <-. apply IH in R as (ps & F & ->). exists ([c] :: ps). split; [|reflexivity]. constructor; [|assumption]. apply N.eqb_neq in Q, B. apply N.ltb_ge in L. now apply as_itself.
Qed.

Lemma blank_stops : forall w, blank w -> stops w.
Proof. intros w B. rewrite <- (app_nil_r w). now apply stops_blank. Qed.
Section Meaning.
  Context {X : Ext}.
  Lemma means_start : forall d t v, means d t v -> starts_ok t.
  Proof.
    intros d t v M. destruct M as [d|d|d|d s n Sh P|d s t Q|d w B|d ts js Ne F|d w B|d ts ms kvs Ne F O L]; try (cbn; repeat split; discriminate).
    - apply shape_start. now apply a_number_shape.
    - now apply (quoted_starts s).
  Qed.

  (** ** What is read is meant *)
  Definition given_as (d : nat) (rec : str -> option (json * str)) : Prop := forall s v r, rec s = Some (v, r) -> stops r -> exists w t, blank w /\ means d t v /\ s = w ++ t ++ r.
  Lemma after_blank : forall w c r, blank w -> c = 44 \/ c = 93 \/ c = 125 -> stops (w ++ c :: r).
  Proof. intros w c r B C. apply stops_blank; [assumption|]. cbn. tauto. Qed.
  Definition element_of (d : nat) (t : str) (j : json) : Prop := around (fun s => means d s j) t.
  Lemma elems_meant : forall d rec, given_as d rec -> forall fuel s vs r, read_elems rec fuel false s = Some (vs, r) ->
    exists w, blank w /\ (vs = [] /\ s = w ++ lit "]" ++ r \/ exists ts, ts <> [] /\ Forall2 (element_of d) ts vs /\ s = w ++ lit "," ++ join (lit ",") ts ++ lit "]" ++ r).
  Proof.
    intros d rec Sh. induction fuel as [|f IH]; intros s vs r K; [discriminate|]. rewrite elems_eq in K. destruct (skip_ws_split s) as (w & B & Es & _). destruct (skip_ws s) as [|c q]; [discriminate|]. destruct (c =? 93) eqn:C.
    - injection K as <- <-. apply N.eqb_eq in C. subst c. exists w. split; [assumption|]. left. now split.
    - cbv zeta in K. destruct (c =? 44) eqn:C'; [|discriminate]. apply N.eqb_eq in C'. subst c.
      assert (K' : match rec (skip_ws q) with Some (v, r1) => match read_elems rec f false r1 with Some (vs, r2) => Some (v :: vs, r2) | None => None end | None => None end = Some (vs, r)).
      { clear - K. destruct (skip_ws q) as [|c q']; [exact K|]. destruct c as [|c]; [exact K|]. do 7 (try (destruct c as [c|c|]; try exact K; try discriminate)). }
      clear K. destruct (rec (skip_ws q)) as [[v r1]|] eqn:R; [|discriminate]. destruct (read_elems rec f false r1) as [[vs' r2]|] eqn:E; [|discriminate]. injection K' as <- <-.
      exists w. split; [assumption|]. right. destruct (skip_ws_split q) as (w0 & B0 & E0 & _). apply IH in E as (w2 & B2 & [[-> ->]|(ts & Ne & F & ->)]).
      + apply Sh in R as (w1 & t & B1 & M & Eq); [apply after_blank; [assumption|tauto]|]. rewrite Eq in E0. exists [(w0 ++ w1) ++ t ++ w2]. split; [discriminate|]. split; [constructor; [|constructor]; exists (w0 ++ w1), t, w2; split; [reflexivity|]; split; [now apply blank_app|]; now split|].
        rewrite Es, E0. cbn [join]. rewrite <- ?app_assoc. reflexivity.
      + apply Sh in R as (w1 & t & B1 & M & Eq); [apply after_blank; [assumption|tauto]|]. rewrite Eq in E0. exists (((w0 ++ w1) ++ t ++ w2) :: ts). split; [discriminate|]. split; [constructor; [|assumption]; exists (w0 ++ w1), t, w2; split; [reflexivity|]; split; [now apply blank_app|]; now split|].
        rewrite Es, E0. destruct ts as [|t' ts]; [congruence|]. cbn [join]. rewrite <- ?app_assoc. reflexivity.
  Qed.
  Lemma elems_first_meant : forall d rec, given_as d rec -> (forall r, rec [] <> Some r) -> forall fuel s vs r, read_elems rec fuel true s = Some (vs, r) ->
    (vs = [] /\ exists w, blank w /\ s = w ++ lit "]" ++ r) \/ exists ts, ts <> [] /\ Forall2 (element_of d) ts vs /\ s = join (lit ",") ts ++ lit "]" ++ r.
  Proof.
    intros d rec Sh Em [|f] s vs r K; [discriminate|]. rewrite elems_eq in K. destruct (skip_ws_split s) as (w & B & Es & _). destruct (skip_ws s) as [|c q].
    - destruct (rec []) as [x|] eqn:R; [|discriminate]. exfalso. now apply (Em x).
    - destruct (c =? 93) eqn:C.
      + injection K as <- <-. apply N.eqb_eq in C. subst c. left. split; [reflexivity|]. now exists w.
      + cbv zeta in K. destruct (c =? 44); [discriminate|]. destruct (rec (c :: q)) as [[v r1]|] eqn:R; [|discriminate]. destruct (read_elems rec f false r1) as [[vs' r2]|] eqn:E; [|discriminate]. injection K as <- <-. right.
        apply (elems_meant d rec Sh) in E as (w2 & B2 & [[-> ->]|(ts & Ne & F & ->)]).
        * apply Sh in R as (w1 & t & B1 & M & Eq); [apply after_blank; [assumption|tauto]|]. rewrite Eq in Es. exists [(w ++ w1) ++ t ++ w2]. split; [discriminate|]. split; [constructor; [|constructor]; exists (w ++ w1), t, w2; split; [reflexivity|]; split; [now apply blank_app|]; now split|].
          rewrite Es. cbn [join]. rewrite <- ?app_assoc. reflexivity.
        * apply Sh in R as (w1 & t & B1 & M & Eq); [apply after_blank; [assumption|tauto]|]. rewrite Eq in Es. exists (((w ++ w1) ++ t ++ w2) :: ts). split; [discriminate|]. split; [constructor; [|assumption]; exists (w ++ w1), t, w2; split; [reflexivity|]; split; [now apply blank_app|]; now split|].
          rewrite Es. destruct ts as [|t' ts]; [congruence|]. cbn [join]. rewrite <- ?app_assoc. reflexivity.
  Qed.
  Definition member_of (d : nat) (t : str) (m : str * json) : Prop :=
    exists w1 q w2 v, t = w1 ++ q ++ w2 ++ lit ":" ++ v /\ blank w1 /\ quoted_as (fst m) q /\ blank w2 /\ around (fun s => means d s (snd m)) v.
  Lemma next_meant : forall d rec, given_as d rec -> forall f acc s kvs r, next_member rec f acc s = Some (kvs, r) ->
    exists k q w2 r2 v r3, quoted_as k q /\ blank w2 /\ rec r2 = Some (v, r3) /\ s = q ++ w2 ++ lit ":" ++ r2 /\ read_members rec f false (binsert k v acc) r3 = Some (kvs, r).
  Proof.
    intros d rec Sh f acc s kvs r K. unfold next_member in K.
    assert (G34 : forall A (g : str -> option A) s o, match s with 34 :: r => g r | _ => None end = Some o -> exists r, s = 34 :: r /\ g r = Some o).
    { clear. intros A g [|c s] o K; [discriminate|]. destruct (N.eq_dec c 34) as [->|Nc]; [now exists s|]. exfalso. destruct c as [|c]; [discriminate|]. repeat (destruct c as [c|c|]; try discriminate). congruence. }
    assert (G58 : forall A (g : str -> option A) s o, match s with 58 :: r => g r | _ => None end = Some o -> exists r, s = 58 :: r /\ g r = Some o).
    { clear. intros A g [|c s] o K; [discriminate|]. destruct (N.eq_dec c 58) as [->|Nc]; [now exists s|]. exfalso. destruct c as [|c]; [discriminate|]. repeat (destruct c as [c|c|]; try discriminate). congruence. }
    apply G34 in K as (q & -> & K). destruct (read_string (S (length q)) q) as [[k r1]|] eqn:Q; [|discriminate]. apply string_spelled in Q as (ps & F & ->). destruct (skip_ws_split r1) as (w2 & B2 & E2 & _). apply G58 in K as (r2 & E & K). rewrite E in E2.
    destruct (rec r2) as [[v r3]|] eqn:R; [|discriminate]. exists k, ([34] ++ concat ps ++ [34]), w2, r2, v, r3. split; [now exists ps|]. split; [assumption|]. split; [assumption|]. split; [|assumption]. rewrite E2. cbn. now rewrite <- !app_assoc.
  Qed.
  Lemma members_meant : forall d rec, given_as d rec -> forall fuel acc s kvs r, read_members rec fuel false acc s = Some (kvs, r) ->
    exists w, blank w /\ (kvs = acc /\ s = w ++ lit "}" ++ r \/ exists ts ms, ts <> [] /\ Forall2 (member_of d) ts ms /\ kvs = inserted ms acc /\ s = w ++ lit "," ++ join (lit ",") ts ++ lit "}" ++ r).
  Proof.
    intros d rec Sh. induction fuel as [|f IH]; intros acc s kvs r K; [discriminate|]. rewrite members_eq in K. destruct (skip_ws_split s) as (w & B & Es & _). destruct (skip_ws s) as [|c q]; [discriminate|]. destruct (c =? 125) eqn:C.
    - injection K as <- <-. apply N.eqb_eq in C. subst c. exists w. split; [assumption|]. left. now split.
    - destruct (c =? 44) eqn:C'; [|discriminate]. apply N.eqb_eq in C'. subst c. destruct (skip_ws_split q) as (w0 & B0 & E0 & _). apply (next_meant d rec Sh) in K as (k & kq & w2 & r2 & v & r3 & Q & B2 & R & Eq & K). rewrite Eq in E0. exists w. split; [assumption|]. right. apply IH in K as (w4 & B4 & [[-> ->]|(ts & ms & Ne & F & -> & ->)]).
      + apply Sh in R as (w3 & t & B3 & M & ->); [apply after_blank; [assumption|tauto]|]. exists [w0 ++ kq ++ w2 ++ lit ":" ++ w3 ++ t ++ w4], [(k, v)]. split; [discriminate|]. split; [constructor; [|constructor]; exists w0, kq, w2, (w3 ++ t ++ w4); split; [reflexivity|]; do 3 (split; [assumption|]); exists w3, t, w4; now repeat split|]. split; [reflexivity|].
        rewrite Es, E0. cbn [join]. rewrite <- ?app_assoc. reflexivity.
      + apply Sh in R as (w3 & t & B3 & M & ->); [apply after_blank; [assumption|tauto]|]. exists ((w0 ++ kq ++ w2 ++ lit ":" ++ w3 ++ t ++ w4) :: ts), ((k, v) :: ms). split; [discriminate|]. split; [constructor; [|assumption]; exists w0, kq, w2, (w3 ++ t ++ w4); split; [reflexivity|]; do 3 (split; [assumption|]); exists w3, t, w4; now repeat split|]. split; [reflexivity|].
        rewrite Es, E0. destruct ts as [|t' ts]; [congruence|]. cbn [join]. rewrite <- ?app_assoc. reflexivity.
  Qed.
  Lemma members_first_meant : forall d rec, given_as d rec -> forall fuel s kvs r, read_members rec fuel true [] s = Some (kvs, r) ->
    (kvs = [] /\ exists w, blank w /\ s = w ++ lit "}" ++ r) \/ exists ts ms, ts <> [] /\ Forall2 (member_of d) ts ms /\ kvs = inserted ms [] /\ s = join (lit ",") ts ++ lit "}" ++ r.
  Proof.
    intros d rec Sh [|f] s kvs r K; [discriminate|]. rewrite members_eq in K. destruct (skip_ws_split s) as (w & B & Es & _). destruct (skip_ws s) as [|c q]; [discriminate|]. destruct (c =? 125) eqn:C.
    - injection K as <- <-. apply N.eqb_eq in C. subst c. left. split; [reflexivity|]. now exists w.
    - destruct (c =? 44); [discriminate|]. apply (next_meant d rec Sh) in K as (k & kq & w2 & r2 & v & r3 & Q & B2 & R & Eq & K). rewrite Eq in Es. right. apply (members_meant d rec Sh) in K as (w4 & B4 & [[-> ->]|(ts & ms & Ne & F & -> & ->)]).
      + apply Sh in R as (w3 & t & B3 & M & ->); [apply after_blank; [assumption|tauto]|]. exists [w ++ kq ++ w2 ++ lit ":" ++ w3 ++ t ++ w4], [(k, v)]. split; [discriminate|]. split; [constructor; [|constructor]; exists w, kq, w2, (w3 ++ t ++ w4); split; [reflexivity|]; do 3 (split; [assumption|]); exists w3, t, w4; now repeat split|]. split; [reflexivity|].
        rewrite Es. cbn [join]. rewrite <- ?app_assoc. reflexivity.
      + apply Sh in R as (w3 & t & B3 & M & ->); [apply after_blank; [assumption|tauto]|]. exists ((w ++ kq ++ w2 ++ lit ":" ++ w3 ++ t ++ w4) :: ts), ((k, v) :: ms). split; [discriminate|]. split; [constructor; [|assumption]; exists w, kq, w2, (w3 ++ t ++ w4); split; [reflexivity|]; do 3 (split; [assumption|]); exists w3, t, w4; now repeat split|]. split; [reflexivity|].
        rewrite Es. destruct ts as [|t' ts]; [congruence|]. cbn [join]. rewrite <- ?app_assoc. reflexivity.
  Qed.
  Lemma mget_in_iff : forall (m : list (str * json)) k v, NoDup (map fst m) -> mget k m = Some v <-> In (k, v) m.
  Proof.
    induction m as [|[k' v'] m IH]; intros k v D; [split; [discriminate|intros []]|]. cbn [map fst] in D. inversion D as [|? ? Nk D']; subst. cbn [mget]. destruct (str_eqb k k') eqn:E.
    - apply str_eqb_eq in E. subst. split; intros K; [injection K as ->; now left|]. destruct K as [K|K]; [injection K as ->; reflexivity|]. apply (in_map fst) in K. contradiction.
    - rewrite IH by assumption. split; intros K; [now right|]. destruct K as [K|K]; [injection K as -> ->; now rewrite str_eqb_refl in E|assumption].
  Qed.
  Lemma inserted_last : forall ms, in_key_order (map fst (inserted ms [])) /\ forall k j, In (k, j) (inserted ms []) <-> last_value ms k j.
  Proof.
    intros ms. destruct (built_spec ms) as (O & G & _). split; [exact O|]. intros k j. rewrite <- G. change (built [] ms) with (inserted ms []) in *. split; intros K.
    - apply mget_in_iff; [now apply order_nodup|assumption].
    - apply mget_in_iff in K; [assumption|now apply order_nodup].
  Qed.
  Lemma no_value : forall d r, read_value d [] <> Some r.
  Proof. intros [|d] r; discriminate. Qed.
  Lemma atom_meant : forall d s v r c q w, skip_ws s = c :: q -> blank w -> s = w ++ c :: q -> (c =? 34) = false -> (c =? 91) = false -> (c =? 123) = false ->
    read_value (S d) s = Some (v, r) -> stops r -> exists w t, blank w /\ means d t v /\ s = w ++ t ++ r.
  Proof.
    intros d s v r c q w E B Es C1 C2 C3 K St. cbn [read_value] in K. rewrite E, C1, C2, C3 in K. exists w.
    assert (G : forall t, means d t v -> c :: q = t ++ r -> exists t, blank w /\ means d t v /\ s = w ++ t ++ r) by (intros t T E'; exists t; rewrite <- E'; tauto).
    assert (Gn : forall sg p s' n, In sg [[]; lit "-"] -> c :: q = sg ++ s' -> parse_integer p s' = Some (n, r) -> (forall x u, is_digit x = true -> number_result (sg ++ x :: u) = parse_integer p (x :: u)) -> v = JNum n -> exists t, blank w /\ means d t v /\ s = w ++ t ++ r).
    { intros sg p s' n Sg E' P Nr ->. pose proof P as P'. apply integer_skipped in P'. apply number_form in P' as (a & fr & e & A & Fr & Ee & ->).
      assert (Sh : number_shape (sg ++ a ++ fr ++ e)) by (exists sg, a, fr, e; tauto). apply (G (sg ++ a ++ fr ++ e)); [|rewrite E'; now rewrite <- !app_assoc]. apply number_means; [exact Sh|]. apply parsed_number; [exact Sh|].
      assert (Na : number_result (sg ++ a ++ fr ++ e) = parse_integer p (a ++ fr ++ e)). { destruct (whole_start a (fr ++ e) A) as (x & y & -> & Dx). apply Nr. now apply digit_iff. }
      rewrite Na. replace (a ++ fr ++ e ++ r) with ((a ++ fr ++ e) ++ r) in P by now rewrite <- !app_assoc. rewrite integer_followed in P by assumption. destruct (parse_integer p (a ++ fr ++ e)) as [[m u]|]; [|discriminate]. cbn [followed] in P. injection P as -> P.
      f_equal. f_equal. apply (f_equal (@length N)) in P. rewrite app_length in P. destruct u; [reflexivity|]. cbn in P. lia. }
    destruct (c =? 45) eqn:C4; [|destruct (is_digit c) eqn:C5].
    - apply N.eqb_eq in C4. subst c. destruct (parse_integer false q) as [[n r']|] eqn:P; [|discriminate]. cbn [num_result] in K. injection K as <- <-. apply (Gn (lit "-") false q n); [cbn; tauto|reflexivity|assumption|reflexivity|reflexivity].
    - destruct (parse_integer true (c :: q)) as [[n r']|] eqn:P; [|discriminate]. cbn [num_result] in K. injection K as <- <-. apply (Gn [] true (c :: q) n); [cbn; tauto|reflexivity|assumption| |reflexivity].
      intros x u Dx. cbn [app number_result]. apply digit_iff in Dx. now rewrite (proj2 (N.eqb_neq x 45)) by lia.
    - destruct (strip_prefix (lit "true") (c :: q)) as [r'|] eqn:T; [|destruct (strip_prefix (lit "false") (c :: q)) as [r'|] eqn:Fl; [|destruct (strip_prefix (lit "null") (c :: q)) as [r'|] eqn:Nl; [|discriminate]]].
      + injection K as <- <-. apply strip_prefix_spec in T. apply (G (lit "true")); [constructor|assumption].
      + injection K as <- <-. apply strip_prefix_spec in Fl. apply (G (lit "false")); [constructor|assumption].
      + injection K as <- <-. apply strip_prefix_spec in Nl. apply (G (lit "null")); [constructor|assumption].
  Qed.
  Lemma string_meant : forall d s v r q w, skip_ws s = 34 :: q -> blank w -> s = w ++ 34 :: q -> read_value (S d) s = Some (v, r) -> exists w t, blank w /\ means d t v /\ s = w ++ t ++ r.
  Proof.
    intros d s v r q w E B Es K. cbn [read_value] in K. rewrite E in K. change (34 =? 34) with true in K. cbv iota in K. destruct (read_string _ q) as [[t r']|] eqn:R; [|discriminate]. injection K as <- <-. apply string_spelled in R as (ps & F & ->).
    exists w, ([34] ++ concat ps ++ [34]). split; [assumption|]. split; [apply string_means; now exists ps|]. rewrite Es. cbn. now rewrite <- !app_assoc.
  Qed.
  Lemma read_meant : forall d, given_as d (read_value (S d)).
  Proof.
    induction d as [|d IH]; intros s v r K St; destruct (skip_ws_split s) as (w & B & Es & _); destruct (skip_ws s) as [|c q] eqn:E; try (cbn [read_value] in K; rewrite E in K; discriminate).
    - destruct (c =? 34) eqn:C1; [apply N.eqb_eq in C1; subst c; exact (string_meant 0 s v r q w E B Es K)|]. destruct (c =? 91) eqn:C2; [|destruct (c =? 123) eqn:C3].
      + cbn [read_value] in K. rewrite E, C1, C2 in K. discriminate.
      + cbn [read_value] in K. rewrite E, C1, C2, C3 in K. discriminate.
      + exact (atom_meant 0 s v r c q w E B Es C1 C2 C3 K St).
    - destruct (c =? 34) eqn:C1; [apply N.eqb_eq in C1; subst c; exact (string_meant (S d) s v r q w E B Es K)|]. destruct (c =? 91) eqn:C2; [|destruct (c =? 123) eqn:C3].
      + remember (S d) as d' eqn:Ed. cbn [read_value] in K. rewrite E, C1, C2 in K. subst d'. apply N.eqb_eq in C2. subst c.
        destruct (read_elems (read_value (S d)) (S (length q)) true q) as [[vs r']|] eqn:R; [|discriminate]. injection K as <- <-. apply (elems_first_meant d _ IH (no_value (S d))) in R as [(-> & w' & B' & ->)|(ts & Ne & F & ->)].
        * exists w, (lit "[" ++ w' ++ lit "]"). split; [assumption|]. split; [now constructor|]. rewrite Es. rewrite <- !app_assoc. reflexivity.
        * exists w, (lit "[" ++ join (lit ",") ts ++ lit "]"). split; [assumption|]. split; [now constructor|]. rewrite Es. rewrite <- !app_assoc. reflexivity.
      + remember (S d) as d' eqn:Ed. cbn [read_value] in K. rewrite E, C1, C2, C3 in K. subst d'. apply N.eqb_eq in C3. subst c.
        destruct (read_members (read_value (S d)) (S (length q)) true [] q) as [[vs r']|] eqn:R; [|discriminate]. injection K as <- <-. apply (members_first_meant d _ IH) in R as [(-> & w' & B' & ->)|(ts & ms & Ne & F & -> & ->)].
        * exists w, (lit "{" ++ w' ++ lit "}"). split; [assumption|]. split; [now constructor|]. rewrite Es. rewrite <- !app_assoc. reflexivity.
        * exists w, (lit "{" ++ join (lit ",") ts ++ lit "}"). split; [assumption|]. split; [|rewrite Es; rewrite <- !app_assoc; reflexivity]. destruct (inserted_last ms) as [O L]. exact (members_mean d ts ms _ Ne F O L).
      + exact (atom_meant (S d) s v r c q w E B Es C1 C2 C3 K St).
  Qed.

  (** ** What is meant is read *)
  Lemma flat_read : forall d t v, means d t v -> match v with JArr _ | JObj _ => True | _ => forall r, stops r -> read_value (S d) (t ++ r) = Some (v, r) end.
  Proof.
    intros d t v M. destruct M as [d|d|d|d s n Sh P|d s t Q|d w B|d ts js Ne F|d w B|d ts ms kvs Ne F O L]; try exact Logic.I; try (intros r St; reflexivity).
    - intros r St. pose proof (shape_number_start s Sh) as Ss. apply (parsed_number s n Sh) in P. assert (Nr : s <> []) by (intros ->; exact Ss).
      rewrite start_read by (destruct s; [congruence|exact Ss]). rewrite number_followed by assumption. rewrite P. reflexivity.
    - intros r St. destruct (quoted_read s t r Q) as (body & -> & K). cbn [read_value skip_ws]. change (json_ws 34) with false. cbv iota. change (34 =? 34) with true. cbv iota. now rewrite K.
  Qed.
  Lemma inserted_unique : forall ms kvs, in_key_order (map fst kvs) -> (forall k j, In (k, j) kvs <-> last_value ms k j) -> inserted ms [] = kvs.
  Proof.
    intros ms kvs O L. destruct (inserted_last ms) as [O' L']. apply sorted_unique; [assumption|assumption|].
    apply NoDup_Permutation; [apply (NoDup_map_inv fst); now apply order_nodup|apply (NoDup_map_inv fst); now apply order_nodup|]. intros [k j]. now rewrite L, L'.
  Qed.
  Lemma meant_read : forall d t v, means d t v -> forall r, stops r -> read_value (S d) (t ++ r) = Some (v, r).
  Proof.
    induction d as [|d IH]; intros t v M r St; pose proof (flat_read _ _ _ M) as Fl; destruct v as [|b|n|s|vs|kvs]; try exact (Fl r St); inversion M as [|?|?|? ? ? ? ?|? ? ? ?|? w B|? ts js Ne F|? w B|? ts ms kvs' Ne F O L]; subst; clear Fl.
    - change ((lit "[" ++ w ++ lit "]") ++ r) with (91 :: (w ++ [93]) ++ r). rewrite <- app_assoc. change ([93] ++ r) with (93 :: r). cbn [read_value skip_ws]. change (json_ws 91) with false. cbv iota. change (91 =? 34) with false. change (91 =? 91) with true. cbv iota. cbn [read_elems]. rewrite skip_blank by assumption. reflexivity.
    - change ((lit "[" ++ join (lit ",") ts ++ lit "]") ++ r) with (91 :: (join [44] ts ++ [93]) ++ r). rewrite <- app_assoc. change ([93] ++ r) with (93 :: r).
      remember (join [44] ts ++ 93 :: r) as t eqn:Et.
      assert (G : Forall2 (reads_as (read_value (S d))) vs ts).
      { clear - F IH. induction F as [|t v ts vs (w1 & s & w2 & -> & B1 & B2 & T) F IHF]; constructor; [|exact IHF]. exists w1, s, w2. split; [reflexivity|]. do 2 (split; [assumption|]). split; [exact (means_start d s v T)|]. intros rest R. exact (IH s v T rest R). }
      assert (L : (length vs < S (length t))%nat).
      { rewrite Et, app_length. cbn [length]. pose proof (count_length ts) as C. rewrite (same_length _ _ _ _ _ G). refine (Nat.lt_le_trans _ _ _ (proj2 (Nat.lt_succ_r _ _) (C _)) _); [|unfold str in *; lia]. intros t' It.
        clear -G It. induction G as [|x t xs ts (w1 & s & w2 & -> & _ & _ & St & _) G IHG]; [contradiction|]. destruct It as [<-|It]; [|now apply IHG]. intros K. apply app_eq_nil in K as [_ K]. apply app_eq_nil in K as [-> _]. exact St. }
      assert (E : read_elems (read_value (S d)) (S (length t)) true t = Some (vs, r)).
      { rewrite Et at 2. destruct ts as [|t0 ts]; [congruence|]. destruct vs as [|x xs]; [inversion G|]. now apply elems_read'. }
      cbn [read_value skip_ws]. change (json_ws 91) with false. cbv iota. change (91 =? 34) with false. change (91 =? 91) with true. cbv iota. change (match read_elems (read_value (S d)) (S (length t)) true t with Some (vs, r') => Some (JArr vs, r') | None => None end = Some (JArr vs, r)). now rewrite E.
    - change ((lit "{" ++ w ++ lit "}") ++ r) with (123 :: (w ++ [125]) ++ r). rewrite <- app_assoc. change ([125] ++ r) with (125 :: r). cbn [read_value skip_ws]. change (json_ws 123) with false. cbv iota. change (123 =? 34) with false. change (123 =? 91) with false. change (123 =? 123) with true. cbv iota. cbn [read_members]. rewrite skip_blank by assumption. reflexivity.
    - change ((lit "{" ++ join (lit ",") ts ++ lit "}") ++ r) with (123 :: (join [44] ts ++ [125]) ++ r). rewrite <- app_assoc. change ([125] ++ r) with (125 :: r).
      remember (join [44] ts ++ 125 :: r) as t eqn:Et.
      assert (G : Forall2 (member_as (read_value (S d))) ms ts).
      { clear - F IH. induction F as [|t m ts ms (w1 & q & w2 & v & -> & B1 & Kq & B2 & w3 & s & w4 & -> & B3 & B4 & T) F IHF]; constructor; [|exact IHF].
        exists w1, q, w2, w3, s, w4. split; [reflexivity|]. do 5 (split; [assumption|]). intros rest R. rewrite read_blank by assumption. exact (IH s (snd m) T rest R). }
      assert (Le : (length ms < S (length t))%nat).
      { rewrite Et, app_length. pose proof (count_length ts) as C. rewrite (same_length _ _ _ _ _ G). refine (Nat.lt_le_trans _ _ _ (proj2 (Nat.lt_succ_r _ _) (C _)) _); [|unfold str in *; lia]. intros t' It.
        clear -G It. induction G as [|m t ms ts (w1 & q & w2 & w3 & s & w4 & -> & (ps & _ & ->) & _) G IHG]; [contradiction|]. destruct It as [<-|It]; [|now apply IHG]. intros K. apply app_eq_nil in K as [_ K]. discriminate. }
      assert (E : read_members (read_value (S d)) (S (length t)) true [] t = Some (kvs, r)).
      { rewrite Et at 2. rewrite <- (inserted_unique ms kvs O L). destruct ts as [|t0 ts]; [congruence|]. destruct ms as [|m ms]; [inversion G|]. now apply members_read'. }
      cbn [read_value skip_ws]. change (json_ws 123) with false. cbv iota. change (123 =? 34) with false. change (123 =? 91) with false. change (123 =? 123) with true. cbv iota.
      change (match read_members (read_value (S d)) (S (length t)) true [] t with Some (vs, r') => Some (JObj vs, r') | None => None end = Some (JObj kvs, r)). now rewrite E.
  Qed.

  (** ** Whole texts *)
  Lemma whole_meant : forall d s j, match read_value (S d) s with Some (v, r) => match skip_ws r with [] => Some v | _ => None end | None => None end = Some j <-> around (fun t => means d t j) s.
  Proof.
    intros d s j. split.
    - intros K. destruct (read_value (S d) s) as [[v r]|] eqn:R; [|discriminate]. destruct (skip_ws r) eqn:W; [|discriminate]. injection K as ->. destruct (skip_ws_split r) as (w2 & B2 & E2 & _). rewrite W, app_nil_r in E2. subst r.
      apply read_meant in R as (w1 & t & B1 & M & ->); [now apply blank_stops|]. exists w1, t, w2. tauto.
    - intros (w1 & t & w2 & -> & B1 & B2 & M). rewrite read_blank by assumption. rewrite (meant_read d t j M w2 (blank_stops w2 B2)). rewrite <- (app_nil_r w2), skip_blank by assumption. reflexivity.
  Qed.
  Local Transparent json_parse.
  Lemma json_meant : forall s j, json_parse s = Some j <-> around (fun t => means 127 t j) s.
  Proof. exact (whole_meant (pred json_depth)). Qed.
End Meaning.
