(** Skipping a JSON value: what is skipped has the form of JSON, and all that has is skipped. *)
From Coq Require Import String List ZArith NArith Bool Lia.
From Verif Require Import Base F64 F64Text Syntax Ext Json Struct Spec Spec_syntax Spec_text Spec_json Spec_struct
  Base_proofs Float_proofs Exact_proofs Text_proofs Round_proofs Display_proofs Json_proofs Object_proofs Layout_proofs.
Import ListNotations.
Local Open Scope N_scope.

Lemma skip_ws_split : forall s, exists w, blank w /\ s = w ++ skip_ws s /\ match skip_ws s with c :: _ => json_ws c = false | [] => True end.
Proof.
  induction s as [|c s (w & B & E & K)]; [exists []; repeat split; constructor|]. cbn [skip_ws]. destruct (json_ws c) eqn:W.
  - exists (c :: w). split; [|split; [now rewrite E at 1|assumption]]. constructor; [|assumption]. unfold json_ws in W. apply orb_prop in W as [W|W]; [apply orb_prop in W as [W|W]; [apply orb_prop in W as [W|W]|]|]; apply N.eqb_eq in W; subst; cbn; tauto.
  - exists []. repeat split; [constructor|assumption].
Qed.
Lemma skip_ws_idem : forall s, skip_ws (skip_ws s) = skip_ws s.
Proof. induction s as [|c s IH]; [reflexivity|]. cbn [skip_ws]. destruct (json_ws c) eqn:W; [assumption|]. cbn [skip_ws]. now rewrite W. Qed.
Lemma blank_app : forall a b, blank a -> blank b -> blank (a ++ b).
Proof. intros a b A B. now apply Forall_app. Qed.
Lemma digit_iff : forall c, is_digit c = true <-> 48 <= c <= 57.
Proof. intros c. split; [apply is_digit_range|]. intros H. unfold is_digit. apply andb_true_intro. split; apply N.leb_le; lia. Qed.

(** ** Strings *)
Lemma hex_iff : forall c, hexadecimal c <-> hex_val c <> None.
Proof.
  intros c. unfold hexadecimal, hex_val. destruct (is_digit c) eqn:D.
  - apply digit_iff in D. split; [discriminate|]. now left.
  - assert (Nd : ~ 48 <= c <= 57) by (rewrite <- digit_iff; congruence). destruct ((97 <=? c) && (c <=? 102)) eqn:L.
    + apply andb_prop in L as [L1 L2]. apply N.leb_le in L1, L2. split; [discriminate|lia].
    + destruct ((65 <=? c) && (c <=? 70)) eqn:U.
      * apply andb_prop in U as [U1 U2]. apply N.leb_le in U1, U2. split; [discriminate|lia].
      * apply andb_false_iff in L, U. rewrite !N.leb_gt in L, U. split; [lia|congruence].
Qed.
Lemma escape_shape : forall s r, skip_escape s = Some r -> exists p, quoted_part (92 :: p) /\ s = p ++ r.
Proof.
  intros [|c s] r K; [discriminate|]. cbn [skip_escape] in K. destruct (existsb (N.eqb c) _) eqn:E.
  - injection K as <-. exists [c]. split; [|reflexivity]. apply short_part. apply existsb_exists in E as (x & I & E). apply N.eqb_eq in E. now subst.
  - destruct (c =? 117) eqn:E'; [|discriminate]. apply N.eqb_eq in E'. subst. unfold read_hex4 in K. destruct s as [|a [|b [|d [|e s]]]]; try discriminate.
    destruct (hex_val a) eqn:A; [|discriminate]. destruct (hex_val b) eqn:B; [|discriminate]. destruct (hex_val d) eqn:D; [|discriminate]. destruct (hex_val e) eqn:F; [|discriminate]. injection K as <-.
    exists [117; a; b; d; e]. split; [|reflexivity]. apply hex_part; apply hex_iff; congruence.
Qed.
Lemma string_shape : forall f s r, skip_string f s = Some r -> exists ps, Forall quoted_part ps /\ s = concat ps ++ 34 :: r.
Proof.
  induction f as [|f IH]; intros [|c s] r K; try discriminate. cbn [skip_string] in K. destruct (c =? 34) eqn:Q; [|destruct (c =? 92) eqn:B].
  - injection K as <-. apply N.eqb_eq in Q. subst. exists []. split; [constructor|reflexivity].
  - destruct (skip_escape s) as [s'|] eqn:E; [|discriminate]. apply escape_shape in E as (p & P & ->). apply IH in K as (ps & F & ->). apply N.eqb_eq in B. subst. exists ((92 :: p) :: ps). split; [now constructor|]. cbn [concat]. cbn [app]. now rewrite <- app_assoc.
  - destruct (c <? 32) eqn:L; [discriminate|]. apply IH in K as (ps & F & ->). exists ([c] :: ps). split; [|reflexivity]. constructor; [|assumption]. apply N.eqb_neq in Q, B. apply N.ltb_ge in L. now apply plain_part.
Qed.
Lemma part_skipped : forall p, quoted_part p -> forall f s, skip_string (S f) (p ++ s) = skip_string f s.
Proof.
  intros p [c L Q B|c I|a b c d A B C D] f s.
  - cbn [app skip_string]. rewrite (proj2 (N.eqb_neq c 34) Q), (proj2 (N.eqb_neq c 92) B), (proj2 (N.ltb_ge c 32) L). reflexivity.
  - cbn [app skip_string]. change (92 =? 34) with false. change (92 =? 92) with true. cbv iota. cbn in I. repeat destruct I as [<-|I]; try contradiction; reflexivity.
  - cbn [app skip_string]. change (92 =? 34) with false. change (92 =? 92) with true. cbv iota. cbn [skip_escape]. change (existsb (N.eqb 117) [34; 92; 47; 98; 102; 110; 114; 116]) with false. change (117 =? 117) with true. cbv iota. unfold read_hex4.
    apply hex_iff in A, B, C, D. destruct (hex_val a); [|contradiction]. destruct (hex_val b); [|contradiction]. destruct (hex_val c); [|contradiction]. destruct (hex_val d); [|contradiction]. reflexivity.
Qed.
Lemma parts_skipped : forall ps, Forall quoted_part ps -> forall f s, (length ps < f)%nat -> skip_string f (concat ps ++ 34 :: s) = Some s.
Proof.
  intros ps F. induction F as [|p ps P F IH]; intros f s L; (destruct f as [|f]; [cbn in L; lia|]); [reflexivity|]. cbn [concat]. rewrite <- app_assoc, part_skipped by assumption. apply IH. cbn in L. lia.
Qed.
Lemma parts_length : forall ps, Forall quoted_part ps -> (length ps <= length (concat ps))%nat.
Proof. intros ps F. induction F as [|p ps P F IH]; [reflexivity|]. cbn [concat length]. rewrite app_length. destruct P; cbn; lia. Qed.
Lemma quoted_skipped : forall q rest, quoted_shape q -> exists body, q ++ rest = 34 :: body /\ skip_string (S (length body)) body = Some rest.
Proof.
  intros q rest (ps & F & ->). exists (concat ps ++ 34 :: rest). split; [now rewrite <- !app_assoc|]. apply parts_skipped; [assumption|]. rewrite app_length. pose proof (parts_length ps F). cbn. lia.
Qed.

(** ** Numbers *)
Lemma digits_split : forall s, exists ds, Forall (fun c => 48 <= c <= 57) ds /\ s = ds ++ skip_digits s /\ match skip_digits s with c :: _ => is_digit c = false | [] => True end.
Proof.
  induction s as [|c s (ds & F & E & K)]; [exists []; repeat split; constructor|]. cbn [skip_digits]. destruct (is_digit c) eqn:D.
  - exists (c :: ds). split; [constructor; [now apply digit_iff|assumption]|]. split; [now rewrite E at 1|assumption].
  - exists []. repeat split; [constructor|assumption].
Qed.
Lemma digits_skipped : forall ds s, Forall (fun c => 48 <= c <= 57) ds -> match s with c :: _ => is_digit c = false | [] => True end -> skip_digits (ds ++ s) = s.
Proof. intros ds s F K. induction F as [|c ds C F IH]; [destruct s as [|c s]; [reflexivity|]; cbn; now rewrite K|]. cbn [app skip_digits]. now rewrite (proj2 (digit_iff c) C). Qed.
Lemma some_digits_shape : forall s r, skip_some_digits s = Some r -> exists ds, some_digits ds /\ s = ds ++ r.
Proof.
  intros [|c s] r K; [discriminate|]. cbn [skip_some_digits] in K. destruct (is_digit c) eqn:D; [|discriminate]. injection K as <-. destruct (digits_split s) as (ds & F & E & _). exists (c :: ds). split; [|cbn; now rewrite <- E].
  split; [discriminate|]. constructor; [now apply digit_iff|assumption].
Qed.
Lemma some_digits_skipped : forall ds s, some_digits ds -> match s with c :: _ => is_digit c = false | [] => True end -> skip_some_digits (ds ++ s) = Some s.
Proof. intros [|c ds] s [Ne F] K; [congruence|]. inversion F as [|? ? C F']; subst. cbn [app skip_some_digits]. rewrite (proj2 (digit_iff c) C). f_equal. now apply digits_skipped. Qed.
Lemma exponent_form : forall s r, skip_exponent s = Some r -> exists e, exponent_shape e /\ s = e ++ r.
Proof.
  intros [|c s] r K; [injection K as <-; exists []; split; [now left|reflexivity]|]. cbn [skip_exponent] in K. destruct ((c =? 101) || (c =? 69)) eqn:E; [|injection K as <-; exists []; split; [now left|reflexivity]].
  assert (M : In [c] [lit "e"; lit "E"]). { apply orb_prop in E as [E|E]; apply N.eqb_eq in E; subst; cbn; tauto. }
  assert (G : exists sg t, In sg [[]; lit "+"; lit "-"] /\ s = sg ++ t /\ skip_some_digits t = Some r).
  { destruct s as [|d s]; [exists [], []; cbn; tauto|]. destruct ((d =? 43) || (d =? 45)) eqn:Eg; [|exists [], (d :: s); cbn; tauto]. exists [d], s. split; [|split; [reflexivity|exact K]]. apply orb_prop in Eg as [Eg|Eg]; apply N.eqb_eq in Eg; subst; cbn; tauto. }
  clear K. destruct G as (sg & t & Sg & -> & K). apply some_digits_shape in K as (ds & D & ->). exists ([c] ++ sg ++ ds). split; [right; exists [c], sg, ds; tauto|]. cbn. now rewrite <- app_assoc.
Qed.
Definition no_number (rest : str) : Prop := match rest with c :: _ => is_digit c = false /\ c <> 46 /\ c <> 101 /\ c <> 69 | [] => True end.
Lemma stops_number : forall rest, stops rest -> no_number rest.
Proof. intros [|c r] K; [exact Logic.I|]. cbn in K |- *. repeat destruct K as [->|K]; try subst c; repeat split; try discriminate. Qed.
Lemma no_number_digit : forall rest, no_number rest -> match rest with c :: _ => is_digit c = false | [] => True end.
Proof. intros [|c r] K; [exact Logic.I|apply K]. Qed.
Lemma exponent_skipped : forall e rest, exponent_shape e -> no_number rest -> skip_exponent (e ++ rest) = Some rest.
Proof.
  intros e rest [->|(m & sg & ds & M & Sg & D & ->)] R.
  - destruct rest as [|c r]; [reflexivity|]. destruct R as (_ & _ & R1 & R2). cbn. now rewrite (proj2 (N.eqb_neq c 101) R1), (proj2 (N.eqb_neq c 69) R2).
  - rewrite <- !app_assoc. assert (K : skip_some_digits (match sg ++ ds ++ rest with d :: r' => if (d =? 43) || (d =? 45) then r' else sg ++ ds ++ rest | [] => sg ++ ds ++ rest end) = Some rest).
    { cbn in Sg. destruct Sg as [<-|[<-|[<-|[]]]]; [|exact (some_digits_skipped ds rest D (no_number_digit _ R))|exact (some_digits_skipped ds rest D (no_number_digit _ R))].
      pose proof (some_digits_skipped ds rest D (no_number_digit _ R)) as P. destruct D as [Ne F]. destruct ds as [|c ds]; [congruence|]. inversion F as [|? ? C F']; subst. cbn [app] in P |- *. rewrite (proj2 (N.eqb_neq c 43)) by lia. rewrite (proj2 (N.eqb_neq c 45)) by lia. exact P. }
    cbn in M. destruct M as [<-|[<-|[]]]; exact K.
Qed.
Lemma exponent_start : forall e rest, exponent_shape e -> no_number rest -> match e ++ rest with c :: _ => is_digit c = false /\ c <> 46 | [] => True end.
Proof.
  intros e rest [->|(m & sg & ds & M & _ & _ & ->)] R; [destruct rest as [|c r]; [exact Logic.I|]; cbn; split; apply R|]. cbn in M. destruct M as [<-|[<-|[]]]; cbn; split; (reflexivity || discriminate).
Qed.
Lemma fraction_form : forall s r, skip_fraction s = Some r -> exists f e, fraction_shape f /\ exponent_shape e /\ s = f ++ e ++ r.
Proof.
  intros [|c s] r K; [injection K as <-; exists [], []; repeat split; now left|]. cbn [skip_fraction] in K. destruct (c =? 46) eqn:E.
  - apply N.eqb_eq in E. subst. destruct (skip_some_digits s) as [s'|] eqn:D; [|discriminate]. apply some_digits_shape in D as (ds & D & ->). apply exponent_form in K as (e & Se & ->). exists (lit "." ++ ds), e. split; [right; now exists ds|]. split; [assumption|reflexivity].
  - apply exponent_form in K as (e & Se & ->). exists [], e. repeat split; [now left|assumption].
Qed.
Lemma fraction_skipped : forall f e rest, fraction_shape f -> exponent_shape e -> no_number rest -> skip_fraction (f ++ e ++ rest) = Some rest.
Proof.
  intros f e rest Sf Se R. pose proof (exponent_start e rest Se R) as St. destruct Sf as [->|(ds & D & ->)].
  - cbn [app]. pose proof (exponent_skipped e rest Se R) as K. destruct (e ++ rest) as [|c r]; [exact K|]. cbn [skip_fraction]. destruct St as [_ St]. now rewrite (proj2 (N.eqb_neq c 46) St).
  - rewrite <- app_assoc. change (lit "." ++ ds ++ e ++ rest) with (46 :: ds ++ e ++ rest). cbn [skip_fraction]. change (46 =? 46) with true. cbv iota. rewrite some_digits_skipped; [now apply exponent_skipped|assumption|]. destruct (e ++ rest); [exact Logic.I|apply St].
Qed.
Lemma fraction_start : forall f e rest, fraction_shape f -> exponent_shape e -> no_number rest -> match f ++ e ++ rest with c :: _ => is_digit c = false | [] => True end.
Proof.
  intros f e rest [->|(ds & D & ->)] Se R; [|reflexivity]. pose proof (exponent_start e rest Se R) as St. cbn [app]. destruct (e ++ rest); [exact Logic.I|apply St].
Qed.
Lemma number_form : forall s r, skip_number s = Some r -> exists a f e, whole_shape a /\ fraction_shape f /\ exponent_shape e /\ s = a ++ f ++ e ++ r.
Proof.
  intros [|c s] r K; [discriminate|]. cbn [skip_number] in K. destruct (c =? 48) eqn:Z.
  - apply N.eqb_eq in Z. subst. assert (K' : skip_fraction s = Some r). { destruct s as [|d s]; [exact K|]. destruct (is_digit d); [discriminate|exact K]. } apply fraction_form in K' as (f & e & F & E & ->). exists (lit "0"), f, e. repeat split; try assumption. now left.
  - destruct (is_digit c) eqn:D; [|discriminate]. apply fraction_form in K as (f & e & F & E & K). destruct (digits_split s) as (ds & Ds & Es & _). exists (c :: ds), f, e. repeat split; try assumption; [|rewrite Es, K; reflexivity].
    right. split; [split; [discriminate|]; constructor; [now apply digit_iff|assumption]|]. cbn. now apply N.eqb_neq.
Qed.
Lemma number_skipped : forall a f e rest, whole_shape a -> fraction_shape f -> exponent_shape e -> no_number rest -> skip_number (a ++ f ++ e ++ rest) = Some rest.
Proof.
  intros a f e rest A F E R. pose proof (fraction_start f e rest F E R) as St. pose proof (fraction_skipped f e rest F E R) as K. destruct A as [->|[[Ne D] H0]].
  - change (lit "0" ++ f ++ e ++ rest) with (48 :: f ++ e ++ rest). cbn [skip_number]. change (48 =? 48) with true. cbv iota. destruct (f ++ e ++ rest) as [|d r]; [exact K|]. now rewrite St.
  - destruct a as [|c a]; [congruence|]. inversion D as [|? ? C D']; subst. cbn [app skip_number]. cbn in H0. rewrite (proj2 (N.eqb_neq c 48) H0), (proj2 (digit_iff c) C). now rewrite digits_skipped.
Qed.

(** ** Values *)
Lemma skip_value_ws : forall f s, skip_value f (skip_ws s) = skip_value f s.
Proof. intros [|f] s; [reflexivity|]. cbn [skip_value]. now rewrite skip_ws_idem. Qed.
Lemma skip_member_ws : forall rec s, skip_member rec (skip_ws s) = skip_member rec s.
Proof. intros rec s. unfold skip_member. now rewrite skip_ws_idem. Qed.
Definition shapes (rec : str -> option str) : Prop := forall s r, rec s = Some r -> exists w v, blank w /\ json_shape v /\ s = w ++ v ++ r.
Lemma elems_shape : forall rec, shapes rec -> forall fuel s r, skip_elems rec fuel false s = Some r ->
  exists w, blank w /\ (s = w ++ lit "]" ++ r \/ exists t, elements_shape t /\ s = w ++ lit "," ++ t ++ lit "]" ++ r).
Proof.
  intros rec Sh. induction fuel as [|f IH]; intros s r K; [discriminate|]. cbn [skip_elems] in K. destruct (skip_ws_split s) as (w & B & Es & _). destruct (skip_ws s) as [|c q]; [discriminate|]. destruct (c =? 93) eqn:C.
  - injection K as <-. apply N.eqb_eq in C. subst c. exists w. split; [assumption|]. now left.
  - destruct (c =? 44) eqn:C'; [|discriminate]. apply N.eqb_eq in C'. subst c. destruct (rec q) as [r1|] eqn:R; [|discriminate]. apply Sh in R as (w1 & v & B1 & V & ->). apply IH in K as (w2 & B2 & [->|(t & T & ->)]).
    + exists w. split; [assumption|]. right. exists (w1 ++ v ++ w2). split; [now apply last_element|]. rewrite Es. now rewrite <- !app_assoc.
    + exists w. split; [assumption|]. right. exists (w1 ++ v ++ w2 ++ lit "," ++ t). split; [now apply more_elements|]. rewrite Es. now rewrite <- !app_assoc.
Qed.
Lemma elems_first_shape : forall rec, shapes rec -> (forall s, rec (skip_ws s) = rec s) -> forall fuel s r, skip_elems rec fuel true s = Some r ->
  exists t, (blank t \/ elements_shape t) /\ s = t ++ lit "]" ++ r.
Proof.
  intros rec Sh Ws [|f] s r K; [discriminate|]. cbn [skip_elems] in K. specialize (Ws s). destruct (skip_ws_split s) as (w & B & Es & _). destruct (skip_ws s) as [|c q]; [discriminate|]. destruct (c =? 93) eqn:C.
  - injection K as <-. apply N.eqb_eq in C. subst c. exists w. split; [now left|assumption].
  - destruct (rec (c :: q)) as [r1|] eqn:R; [|discriminate]. symmetry in Ws. apply Sh in Ws as (w1 & v & B1 & V & ->). apply (elems_shape rec Sh) in K as (w2 & B2 & [->|(t & T & ->)]).
    + exists (w1 ++ v ++ w2). split; [right; now apply last_element|]. now rewrite <- !app_assoc.
    + exists (w1 ++ v ++ w2 ++ lit "," ++ t). split; [right; now apply more_elements|]. now rewrite <- !app_assoc.
Qed.
Lemma member_shape : forall rec, shapes rec -> forall s r, skip_member rec s = Some r -> exists w1 k w2 w3 v, blank w1 /\ quoted_shape k /\ blank w2 /\ blank w3 /\ json_shape v /\ s = w1 ++ k ++ w2 ++ lit ":" ++ w3 ++ v ++ r.
Proof.
  intros rec Sh s r K. unfold skip_member in K. destruct (skip_ws_split s) as (w1 & B1 & Es & _). destruct (skip_ws s) as [|c q]; [discriminate|]. destruct (c =? 34) eqn:C; [|discriminate]. apply N.eqb_eq in C. subst c.
  destruct (skip_string (S (length q)) q) as [r1|] eqn:Q; [|discriminate]. apply string_shape in Q as (ps & F & Eq). destruct (skip_ws_split r1) as (w2 & B2 & E2 & _). destruct (skip_ws r1) as [|d r2]; [discriminate|]. destruct (d =? 58) eqn:D; [|discriminate]. apply N.eqb_eq in D. subst d.
  apply Sh in K as (w3 & v & B3 & V & ->). exists w1, ([34] ++ concat ps ++ [34]), w2, w3, v. repeat split; try assumption; [now exists ps|]. rewrite Es, Eq, E2. cbn. now rewrite <- !app_assoc.
Qed.
Lemma members_form : forall rec, shapes rec -> forall fuel s r, skip_members rec fuel false s = Some r ->
  exists w, blank w /\ (s = w ++ lit "}" ++ r \/ exists t, members_shape t /\ s = w ++ lit "," ++ t ++ lit "}" ++ r).
Proof.
  intros rec Sh. induction fuel as [|f IH]; intros s r K; [discriminate|]. cbn [skip_members] in K. destruct (skip_ws_split s) as (w & B & Es & _). destruct (skip_ws s) as [|c q]; [discriminate|]. destruct (c =? 125) eqn:C.
  - injection K as <-. apply N.eqb_eq in C. subst c. exists w. split; [assumption|]. now left.
  - destruct (c =? 44) eqn:C'; [|discriminate]. apply N.eqb_eq in C'. subst c. destruct (skip_member rec q) as [r1|] eqn:R; [|discriminate]. apply (member_shape rec Sh) in R as (w1 & k & w2 & w3 & v & B1 & Q & B2 & B3 & V & ->). apply IH in K as (w4 & B4 & [->|(t & T & ->)]).
    + exists w. split; [assumption|]. right. exists (w1 ++ k ++ w2 ++ lit ":" ++ w3 ++ v ++ w4). split; [now apply last_member|]. rewrite Es. now rewrite <- !app_assoc.
    + exists w. split; [assumption|]. right. exists (w1 ++ k ++ w2 ++ lit ":" ++ w3 ++ v ++ w4 ++ lit "," ++ t). split; [now apply more_members|]. rewrite Es. now rewrite <- !app_assoc.
Qed.
Lemma members_first_form : forall rec, shapes rec -> forall fuel s r, skip_members rec fuel true s = Some r ->
  exists t, (blank t \/ members_shape t) /\ s = t ++ lit "}" ++ r.
Proof.
  intros rec Sh [|f] s r K; [discriminate|]. cbn [skip_members] in K. pose proof (skip_member_ws rec s) as Ws. destruct (skip_ws_split s) as (w & B & Es & _). destruct (skip_ws s) as [|c q]; [discriminate|]. destruct (c =? 125) eqn:C.
  - injection K as <-. apply N.eqb_eq in C. subst c. exists w. split; [now left|assumption].
  - destruct (skip_member rec (c :: q)) as [r1|] eqn:R; [|discriminate]. symmetry in Ws. apply (member_shape rec Sh) in Ws as (w1 & k & w2 & w3 & v & B1 & Q & B2 & B3 & V & ->). apply (members_form rec Sh) in K as (w4 & B4 & [->|(t & T & ->)]).
    + exists (w1 ++ k ++ w2 ++ lit ":" ++ w3 ++ v ++ w4). split; [right; now apply last_member|]. now rewrite <- !app_assoc.
    + exists (w1 ++ k ++ w2 ++ lit ":" ++ w3 ++ v ++ w4 ++ lit "," ++ t). split; [right; now apply more_members|]. now rewrite <- !app_assoc.
Qed.
Lemma value_shape : forall f, shapes (skip_value f).
Proof.
  induction f as [|f IH]; intros s r K; [discriminate|]. cbn [skip_value] in K. destruct (skip_ws_split s) as (w & B & Es & _). destruct (skip_ws s) as [|c q]; [discriminate|]. exists w.
  assert (G : forall v, json_shape v -> c :: q = v ++ r -> exists v, blank w /\ json_shape v /\ s = w ++ v ++ r) by (intros v V E; exists v; rewrite <- E; tauto).
  destruct (c =? 34) eqn:C1; [|destruct (c =? 91) eqn:C2; [|destruct (c =? 123) eqn:C3; [|destruct (c =? 45) eqn:C4; [|destruct (is_digit c) eqn:C5]]]].
  - apply N.eqb_eq in C1. subst. apply string_shape in K as (ps & F & ->). apply (G ([34] ++ concat ps ++ [34])); [apply a_quoted_shape; now exists ps|]. cbn. now rewrite <- app_assoc.
  - apply N.eqb_eq in C2. subst. apply (elems_first_shape _ IH (skip_value_ws f)) in K as (t & T & ->). apply (G (lit "[" ++ t ++ lit "]")); [destruct T; [now apply empty_array_shape|now apply array_shape]|]. now rewrite <- !app_assoc.
  - apply N.eqb_eq in C3. subst. apply (members_first_form _ IH) in K as (t & T & ->). apply (G (lit "{" ++ t ++ lit "}")); [destruct T; [now apply empty_object_shape|now apply object_shape]|]. now rewrite <- !app_assoc.
  - apply N.eqb_eq in C4. subst. apply number_form in K as (a & fr & e & A & Fr & E & ->). apply (G (lit "-" ++ a ++ fr ++ e)); [apply a_number_shape; exists (lit "-"), a, fr, e; repeat split; try assumption; cbn; tauto|]. now rewrite <- !app_assoc.
  - apply number_form in K as (a & fr & e & A & Fr & E & K). apply (G (a ++ fr ++ e)); [apply a_number_shape; exists [], a, fr, e; repeat split; try assumption; cbn; tauto|]. rewrite <- !app_assoc. exact K.
  - destruct (strip_prefix (lit "true") (c :: q)) as [r'|] eqn:T; [|destruct (strip_prefix (lit "false") (c :: q)) as [r'|] eqn:Fl].
    + injection K as <-. apply strip_prefix_spec in T. apply (G (lit "true")); [apply word_shape; cbn; tauto|assumption].
    + injection K as <-. apply strip_prefix_spec in Fl. apply (G (lit "false")); [apply word_shape; cbn; tauto|assumption].
    + apply strip_prefix_spec in K. apply (G (lit "null")); [apply word_shape; cbn; tauto|assumption].
Qed.

Scheme shape_ind := Induction for json_shape Sort Prop
with elements_ind := Induction for elements_shape Sort Prop
with members_ind := Induction for members_shape Sort Prop.
Combined Scheme shapes_ind from shape_ind, elements_ind, members_ind.

Lemma digit_start : forall c r, 48 <= c <= 57 -> starts_ok (c :: r).
Proof. intros c r C. apply digit_starts. now apply digit_iff. Qed.
Lemma whole_start : forall a r, whole_shape a -> exists c q, a ++ r = c :: q /\ 48 <= c <= 57.
Proof. intros a r [->|[[Ne F] _]]; [exists 48, r; split; [reflexivity|lia]|]. destruct a as [|c a]; [congruence|]. inversion F; subst. exists c, (a ++ r). split; [reflexivity|assumption]. Qed.
Lemma shape_start : forall s, json_shape s -> starts_ok s.
Proof.
  intros s [s' I|s' (sg & a & f & e & Sg & A & _ & _ & ->)|s' (ps & _ & ->)|w _|t _|w _|t _]; try (cbn; repeat split; discriminate).
  - cbn in I. repeat destruct I as [<-|I]; try contradiction; cbn; repeat split; discriminate.
  - cbn in Sg. destruct Sg as [<-|[<-|[]]]; [|cbn; repeat split; discriminate]. cbn [app]. destruct (whole_start a (f ++ e) A) as (c & q & -> & C). now apply digit_start.
Qed.
Lemma starts_skip : forall s rest, starts_ok s -> exists c r, s ++ rest = c :: r /\ skip_ws (s ++ rest) = c :: r /\ c <> 93 /\ c <> 125.
Proof. intros [|c s] rest K; [contradiction|]. destruct K as (W & A & B & C). exists c, (s ++ rest). split; [reflexivity|]. split; [cbn; now rewrite W|]. now split. Qed.
Lemma elements_start : forall t rest, elements_shape t -> exists c r, skip_ws (t ++ rest) = c :: r /\ c <> 93.
Proof.
  intros t rest [w1 s w2 B S _|w1 s w2 u B S _ _]; rewrite <- !app_assoc, skip_blank by assumption.
  - destruct (starts_skip s (w2 ++ rest) (shape_start s S)) as (c & r & _ & E & Ne & _). now exists c, r.
  - destruct (starts_skip s (w2 ++ lit "," ++ u ++ rest) (shape_start s S)) as (c & r & _ & E & Ne & _). now exists c, r.
Qed.
Lemma members_start : forall t rest, members_shape t -> exists r, skip_ws (t ++ rest) = 34 :: r.
Proof.
  intros t rest [w1 k w2 w3 s w4 B (ps & _ & ->) _ _ _ _|w1 k w2 w3 s w4 u B (ps & _ & ->) _ _ _ _ _]; rewrite <- !app_assoc, skip_blank by assumption; eexists; reflexivity.
Qed.
Lemma value_blank : forall f w s, blank w -> skip_value f (w ++ s) = skip_value f s.
Proof. intros [|f] w s B; [reflexivity|]. cbn [skip_value]. now rewrite skip_blank. Qed.
Lemma starts_length : forall s, starts_ok s -> (1 <= length s)%nat.
Proof. intros [|c s] K; [contradiction|]. cbn. lia. Qed.
Lemma member_start_skipped : forall rec w1 k w2 s, blank w1 -> quoted_shape k -> blank w2 -> skip_member rec (w1 ++ k ++ w2 ++ lit ":" ++ s) = rec s.
Proof.
  intros rec w1 k w2 s B1 Q B2. unfold skip_member. rewrite skip_blank by assumption. destruct (quoted_skipped k (w2 ++ lit ":" ++ s) Q) as (body & E & K). rewrite E. cbn [skip_ws]. change (json_ws 34) with false. cbv iota. change (34 =? 34) with true. cbv iota.
  rewrite K, skip_blank by assumption. reflexivity.
Qed.

Definition skips (s : str) : Prop := forall f rest, (length s <= f)%nat -> stops rest -> skip_value f (s ++ rest) = Some rest.
Definition skips_elements (t : str) : Prop := forall f n rest, (length t <= f)%nat -> (length t <= n)%nat ->
  match skip_value f (t ++ 93 :: rest) with Some r1 => skip_elems (skip_value f) n false r1 | None => None end = Some rest.
Definition skips_members (t : str) : Prop := forall f n rest, (length t <= f)%nat -> (length t <= n)%nat ->
  match skip_member (skip_value f) (t ++ 125 :: rest) with Some r1 => skip_members (skip_value f) n false r1 | None => None end = Some rest.
Lemma shapes_skipped : (forall s, json_shape s -> skips s) /\ (forall t, elements_shape t -> skips_elements t) /\ (forall t, members_shape t -> skips_members t).
Proof.
  apply shapes_ind.
  - intros s I f rest L R. destruct f as [|f]; [cbn in I; repeat destruct I as [<-|I]; try contradiction; cbn in L; lia|]. cbn in I. repeat destruct I as [<-|I]; try contradiction; reflexivity.
  - intros s (sg & a & fr & e & Sg & A & Fr & E & ->) f rest L R. pose proof (number_skipped a fr e rest A Fr E (stops_number _ R)) as K. destruct (whole_start a (fr ++ e ++ rest) A) as (c & q & Ea & C).
    destruct f as [|f]. { exfalso. destruct A as [->|[[Ne _] _]]; [|destruct a; [congruence|]]; cbn in Sg; destruct Sg as [<-|[<-|[]]]; cbn in L; lia. }
    rewrite <- !app_assoc. cbn in Sg. destruct Sg as [<-|[<-|[]]].
    + cbn [app]. rewrite Ea in K |- *. cbn [skip_value]. destruct (digit_start c q C) as (W & _). cbn [skip_ws]. rewrite W. cbv iota. rewrite (proj2 (N.eqb_neq c 34)), (proj2 (N.eqb_neq c 91)), (proj2 (N.eqb_neq c 123)), (proj2 (N.eqb_neq c 45)), (proj2 (digit_iff c) C) by lia. exact K.
    + exact K.
  - intros s Q f rest L R. destruct (quoted_skipped s rest Q) as (body & E & K). destruct f as [|f]. { destruct Q as (ps & _ & ->). cbn in L. lia. } rewrite E. exact K.
  - intros w B f rest L R. destruct f as [|f]; [cbn in L; lia|]. rewrite <- !app_assoc. change (lit "[" ++ w ++ lit "]" ++ rest) with (91 :: (w ++ 93 :: rest)). cbn [skip_value skip_ws]. change (json_ws 91) with false. cbv iota. change (91 =? 34) with false. change (91 =? 91) with true. cbv iota.
    cbn [skip_elems]. rewrite skip_blank by assumption. reflexivity.
  - intros t T IH f rest L R. destruct f as [|f]; [cbn in L; lia|]. rewrite <- !app_assoc. change (lit "[" ++ t ++ lit "]" ++ rest) with (91 :: (t ++ 93 :: rest)). cbn [skip_value skip_ws]. change (json_ws 91) with false. cbv iota. change (91 =? 34) with false. change (91 =? 91) with true. cbv iota.
    assert (L1 : (length t <= f)%nat) by (rewrite !app_length in L; cbn in L; lia). assert (L2 : (length t <= length (t ++ 93%N :: rest))%nat) by (rewrite app_length; lia). pose proof (IH f (length (t ++ 93 :: rest)) rest L1 L2) as K.
    destruct (elements_start t (93 :: rest) T) as (c & r & Es & Ne). cbn [skip_elems]. pose proof (skip_value_ws f (t ++ 93 :: rest)) as Ws. rewrite Es in *. rewrite (proj2 (N.eqb_neq c 93) Ne), Ws. exact K.
  - intros w B f rest L R. destruct f as [|f]; [cbn in L; lia|]. rewrite <- !app_assoc. change (lit "{" ++ w ++ lit "}" ++ rest) with (123 :: (w ++ 125 :: rest)). cbn [skip_value skip_ws]. change (json_ws 123) with false. cbv iota. change (123 =? 34) with false. change (123 =? 91) with false. change (123 =? 123) with true. cbv iota.
    cbn [skip_members]. rewrite skip_blank by assumption. reflexivity.
  - intros t T IH f rest L R. destruct f as [|f]; [cbn in L; lia|]. rewrite <- !app_assoc. change (lit "{" ++ t ++ lit "}" ++ rest) with (123 :: (t ++ 125 :: rest)). cbn [skip_value skip_ws]. change (json_ws 123) with false. cbv iota. change (123 =? 34) with false. change (123 =? 91) with false. change (123 =? 123) with true. cbv iota.
    assert (L1 : (length t <= f)%nat) by (rewrite !app_length in L; cbn in L; lia). assert (L2 : (length t <= length (t ++ 125%N :: rest))%nat) by (rewrite app_length; lia). pose proof (IH f (length (t ++ 125 :: rest)) rest L1 L2) as K.
    destruct (members_start t (125 :: rest) T) as (r & Es). cbn [skip_members]. pose proof (skip_member_ws (skip_value f) (t ++ 125 :: rest)) as Ws. rewrite Es in *. change (34 =? 125) with false. cbv iota. rewrite Ws. exact K.
  - intros w1 s w2 B1 Sh IH B2 f n rest L1 L2. rewrite !app_length in L1, L2. pose proof (starts_length s (shape_start s Sh)) as L3. rewrite <- !app_assoc, value_blank by assumption. rewrite IH; [|lia|apply stops_blank; [assumption|cbn; tauto]]. destruct n as [|n]; [lia|]. cbn [skip_elems]. rewrite skip_blank by assumption. reflexivity.
  - intros w1 s w2 t B1 Sh IH B2 T IHt f n rest L1 L2. rewrite !app_length in L1, L2. cbn in L1, L2. pose proof (starts_length s (shape_start s Sh)) as L3. rewrite <- !app_assoc, value_blank by assumption. rewrite IH; [|lia|apply stops_blank; [assumption|cbn; tauto]]. destruct n as [|n]; [lia|]. cbn [skip_elems]. rewrite skip_blank by assumption.
    change (lit "," ++ t ++ 93 :: rest) with (44 :: t ++ 93 :: rest). cbn [skip_ws]. change (json_ws 44) with false. cbv iota. change (44 =? 93) with false. change (44 =? 44) with true. cbv iota. apply IHt; lia.
  - intros w1 k w2 w3 s w4 B1 Q B2 B3 Sh IH B4 f n rest L1 L2. rewrite !app_length in L1, L2. pose proof (starts_length s (shape_start s Sh)) as L3. rewrite <- !app_assoc, member_start_skipped by assumption. rewrite value_blank by assumption. rewrite IH; [|lia|apply stops_blank; [assumption|cbn; tauto]]. destruct n as [|n]; [lia|]. cbn [skip_members]. rewrite skip_blank by assumption. reflexivity.
  - intros w1 k w2 w3 s w4 t B1 Q B2 B3 Sh IH B4 T IHt f n rest L1 L2. rewrite !app_length in L1, L2. cbn in L1, L2. pose proof (starts_length s (shape_start s Sh)) as L3. rewrite <- !app_assoc, member_start_skipped by assumption. rewrite value_blank by assumption. rewrite IH; [|lia|apply stops_blank; [assumption|cbn; tauto]]. destruct n as [|n]; [lia|]. cbn [skip_members]. rewrite skip_blank by assumption.
    change (lit "," ++ t ++ 125 :: rest) with (44 :: t ++ 125 :: rest). cbn [skip_ws]. change (json_ws 44) with false. cbv iota. change (44 =? 125) with false. change (44 =? 44) with true. cbv iota. apply IHt; lia.
Qed.
Lemma shape_skipped : forall s, json_shape s -> forall f rest, (length s <= f)%nat -> stops rest -> skip_value f (s ++ rest) = Some rest.
Proof. exact (proj1 shapes_skipped). Qed.
