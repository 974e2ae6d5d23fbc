(** Reading JSON texts in any layout. *)
From Coq Require Import String List ZArith NArith Bool Lia Sorted Permutation.
From Verif Require Import Base F64 F64Text Syntax Ext Json Spec Spec_syntax Spec_text Spec_json
  Base_proofs Float_proofs Exact_proofs Text_proofs Round_proofs Display_proofs Json_proofs Object_proofs.
Import ListNotations.
Local Open Scope N_scope.

Lemma blank_ws : forall c, In c [32; 10; 9; 13] -> json_ws c = true.
Proof. intros c H. cbn in H. repeat destruct H as [<-|H]; (reflexivity || contradiction). Qed.
Lemma skip_blank : forall w s, blank w -> skip_ws (w ++ s) = skip_ws s.
Proof. intros w s H. induction H as [|c w H _ IH]; [reflexivity|]. cbn [app skip_ws]. now rewrite (blank_ws c H). Qed.
Lemma stops_blank : forall w rest, blank w -> stops rest -> stops (w ++ rest).
Proof. intros [|c w] rest H R; [exact R|]. inversion H as [|? ? Hc]; subst. cbn in Hc |- *. repeat destruct Hc as [<-|Hc]; tauto. Qed.
Lemma sorted_unique : forall V (a b : list (str * V)), in_key_order (map fst a) -> in_key_order (map fst b) -> Permutation a b -> a = b.
Proof.
  intros V a. induction a as [|[k v] a IH]; intros b Oa Ob P; [now apply Permutation_nil in P|].
  destruct b as [|[k' v'] b]; [apply Permutation_sym, Permutation_nil in P; discriminate|]. cbn [map fst] in *. inversion Oa as [|? ? Oa' Fa]; subst. inversion Ob as [|? ? Ob' Fb]; subst. rewrite Forall_forall in Fa, Fb.
  assert (E : (k, v) = (k', v')).
  { assert (I1 : In (k, v) ((k', v') :: b)) by (eapply Permutation_in; [exact P|now left]). assert (I2 : In (k', v') ((k, v) :: a)) by (eapply Permutation_in; [apply Permutation_sym, P|now left]).
    destruct I1 as [I1|I1]; [now symmetry|]. destruct I2 as [I2|I2]; [assumption|]. apply (in_map fst) in I1, I2. apply Fb in I1. apply Fa in I2. cbn [fst] in *. pose proof (str_cmp_lt_trans _ _ _ I1 I2) as K. rewrite str_cmp_refl in K. discriminate. }
  rewrite E in *. f_equal. apply IH; try assumption. now apply Permutation_cons_inv in P.
Qed.
Lemma binsert_perm : forall V k (v : V) m, ~ In k (map fst m) -> Permutation (binsert k v m) ((k, v) :: m).
Proof.
  intros V k v m. induction m as [|[k' v'] m IH]; intros H; [apply Permutation_refl|]. cbn [binsert]. cbn in H. destruct (str_cmp k k') eqn:E.
  - apply str_cmp_eq in E. subst. tauto.
  - apply Permutation_refl.
  - rewrite IH by tauto. apply perm_swap.
Qed.
Definition inserted (ms acc : list (str * json)) : list (str * json) := fold_left (fun a m => binsert (fst m) (snd m) a) ms acc.
Lemma inserted_perm : forall ms acc, NoDup (map fst ms ++ map fst acc) -> in_key_order (map fst acc) -> Permutation (inserted ms acc) (ms ++ acc) /\ in_key_order (map fst (inserted ms acc)).
Proof.
  induction ms as [|[k v] ms IH]; intros acc D O; [now split|]. cbn [map app fst] in D. inversion D as [|? ? Nk D']; subst. cbn [inserted fold_left fst snd].
  assert (Na : ~ In k (map fst acc)) by (intros K; apply Nk, in_or_app; now right). pose proof (binsert_perm _ k v acc Na) as P.
  destruct (IH (binsert k v acc)) as [Q O'].
  - apply Permutation_NoDup with (k :: map fst ms ++ map fst acc); [|now constructor]. rewrite (Permutation_map fst P). cbn [map fst]. apply Permutation_middle.
  - now apply binsert_order.
  - split; [|exact O']. unfold inserted in Q. rewrite Q, P. apply Permutation_sym, Permutation_middle.
Qed.
Lemma inserted_sorted : forall ms kvs, Permutation ms kvs -> in_key_order (map fst kvs) -> inserted ms [] = kvs.
Proof.
  intros ms kvs P O. destruct (inserted_perm ms []) as [Q O']; [rewrite app_nil_r; apply Permutation_NoDup with (map fst kvs); [apply Permutation_sym, Permutation_map, P|now apply order_nodup]|constructor|].
  apply sorted_unique; try assumption. rewrite Q, app_nil_r. exact P.
Qed.

Lemma same_length : forall A B (R : A -> B -> Prop) a b, Forall2 R a b -> length a = length b.
Proof. intros A B R a b F. induction F; [reflexivity|]. cbn. now f_equal. Qed.

(** ** Texts between quotation marks *)
Lemma figure_val : forall c v, hex_figure c v -> hex_val c = Some v.
Proof.
  intros c v F. unfold hex_val, is_digit. destruct F as [[L ->]|[[L ->]|[L ->]]].
  - replace ((48 <=? c) && (c <=? 57)) with true by (symmetry; apply andb_true_iff; split; apply N.leb_le; lia). reflexivity.
  - replace ((48 <=? c) && (c <=? 57)) with false by (symmetry; apply andb_false_iff; right; apply N.leb_gt; lia). replace ((97 <=? c) && (c <=? 102)) with false by (symmetry; apply andb_false_iff; left; apply N.leb_gt; lia).
    replace ((65 <=? c) && (c <=? 70)) with true by (symmetry; apply andb_true_iff; split; apply N.leb_le; lia). reflexivity.
  - replace ((48 <=? c) && (c <=? 57)) with false by (symmetry; apply andb_false_iff; right; apply N.leb_gt; lia). replace ((97 <=? c) && (c <=? 102)) with true by (symmetry; apply andb_true_iff; split; apply N.leb_le; lia). reflexivity.
Qed.
Lemma unit_read : forall t u rest, hex_unit t u -> read_hex4 (t ++ rest) = Some (u, rest).
Proof.
  intros t u rest (a & b & c & d & va & vb & vc & vd & -> & A & B & C & D & ->). cbn [app read_hex4]. rewrite (figure_val a va A), (figure_val b vb B), (figure_val c vc C), (figure_val d vd D). do 2 f_equal. lia.
Qed.
Lemma char_read : forall c t, spelled_char c t -> forall f rest, read_string (S f) (t ++ rest) = match read_string f rest with Some (u, r) => Some (c :: u, r) | None => None end.
Proof.
  intros c t Sp f rest. destruct Sp as [L N1 N2|e K|t U Ns|t1 t2 hi lo U1 U2 L1 L2 ->].
  - cbn [app read_string]. rewrite (proj2 (N.eqb_neq c 34) N1), (proj2 (N.eqb_neq c 92) N2). replace (c <? 32) with false by (symmetry; apply N.ltb_ge; lia). reflexivity.
  - cbn in K. repeat (destruct K as [K|K]; [injection K as <- <-; reflexivity|]). contradiction.
  - cbn [app read_string]. change (92 =? 34) with false. change (92 =? 92) with true. cbv iota. cbn [read_escape]. unfold read_unicode. rewrite (unit_read t c rest U).
    destruct (N.leb_spec 55296 c); destruct (N.leb_spec c 56319); cbn [andb]; try (exfalso; lia); (destruct (N.leb_spec 56320 c); destruct (N.leb_spec c 57343); cbn [andb]; try (exfalso; lia); reflexivity).
  - cbn [app read_string]. change (92 =? 34) with false. change (92 =? 92) with true. cbv iota. cbn [read_escape]. unfold read_unicode. rewrite <- app_assoc. cbn [app]. rewrite (unit_read t1 hi _ U1).
    replace ((55296 <=? hi) && (hi <=? 56319)) with true by (symmetry; apply andb_true_iff; split; apply N.leb_le; lia). rewrite (unit_read t2 lo _ U2).
    replace ((56320 <=? lo) && (lo <=? 57343)) with true by (symmetry; apply andb_true_iff; split; apply N.leb_le; lia). now rewrite (N.mul_comm 1024).
Qed.
Lemma chars_read : forall s ps, Forall2 spelled_char s ps -> forall f rest, (length s < f)%nat -> read_string f (concat ps ++ 34 :: rest) = Some (s, rest).
Proof.
  intros s ps F. induction F as [|c p s ps Sp F IH]; intros f rest L; (destruct f as [|f]; [cbn in L; lia|]); [reflexivity|]. cbn [concat]. rewrite <- app_assoc, (char_read c p Sp), IH by (cbn in L; lia). reflexivity.
Qed.
Lemma chars_length : forall s ps, Forall2 spelled_char s ps -> (length s <= length (concat ps))%nat.
Proof. intros s ps F. induction F as [|c p s ps Sp F IH]; [reflexivity|]. cbn [concat length]. rewrite app_length. assert (1 <= length p)%nat by (destruct Sp; cbn; lia). lia. Qed.
Lemma quoted_read : forall s t rest, quoted_as s t -> exists body, t ++ rest = 34 :: body /\ read_string (S (length body)) body = Some (s, rest).
Proof.
  intros s t rest (ps & F & ->). exists (concat ps ++ 34 :: rest). split; [cbn [app]; now rewrite <- app_assoc|]. apply (chars_read s ps F). rewrite app_length. pose proof (chars_length s ps F). cbn. lia.
Qed.
Lemma figure_of : forall n, n < 16 -> hex_figure (hex_digit n) n.
Proof. intros n L. unfold hex_figure, hex_digit. destruct (N.ltb_spec n 10); [left|right; right]; lia. Qed.
Lemma escape_spelled : forall c, spelled_char c (json_escape_char c).
Proof.
  intros c. unfold json_escape_char.
  destruct (N.eqb_spec c 34) as [->|N1]; [apply by_letter; cbn; tauto|]. destruct (N.eqb_spec c 92) as [->|N2]; [apply by_letter; cbn; tauto|]. destruct (N.eqb_spec c 8) as [->|N3]; [apply by_letter; cbn; tauto|].
  destruct (N.eqb_spec c 9) as [->|N4]; [apply by_letter; cbn; tauto|]. destruct (N.eqb_spec c 10) as [->|N5]; [apply by_letter; cbn; tauto|]. destruct (N.eqb_spec c 12) as [->|N6]; [apply by_letter; cbn; tauto|]. destruct (N.eqb_spec c 13) as [->|N7]; [apply by_letter; cbn; tauto|].
  destruct (N.ltb_spec c 32) as [L|L]; [|apply as_itself; assumption]. apply by_unit; [|lia]. exists 48, 48, (hex_digit (c / 16)), (hex_digit (c mod 16)), 0, 0, (c / 16), (c mod 16). split; [reflexivity|].
  split; [left; lia|]. split; [left; lia|]. split; [apply figure_of, N.div_lt_upper_bound; lia|]. split; [apply figure_of, N.mod_lt; lia|]. pose proof (N.div_mod c 16 ltac:(lia)). lia.
Qed.
Lemma quote_spelled : forall s, quoted_as s (json_quote s).
Proof. intros s. exists (map json_escape_char s). split; [|reflexivity]. induction s as [|c s IH]; constructor; [apply escape_spelled|exact IH]. Qed.
Lemma quoted_starts : forall s t, quoted_as s t -> starts_ok t.
Proof. intros s t (ps & _ & ->). cbn. repeat split; discriminate. Qed.

Section Layouts.
  Context {X : Ext}.
  Lemma read_blank : forall n w s, blank w -> read_value n (w ++ s) = read_value n s.
  Proof. intros [|n] w s H; [reflexivity|]. cbn [read_value]. now rewrite skip_blank. Qed.
  Lemma text_starts : forall j s, document j -> json_text j s -> starts_ok s.
  Proof. intros j s D T. inversion T; subst; try (cbn; repeat split; discriminate); [now apply document_starts|now apply (quoted_starts s0)]. Qed.

  Definition reads_as (rec : str -> option (json * str)) (x : json) (t : str) : Prop :=
    exists w1 s w2, t = w1 ++ s ++ w2 /\ blank w1 /\ blank w2 /\ starts_ok s /\ forall rest, stops rest -> rec (s ++ rest) = Some (x, rest).
  Lemma tail_stops : forall (ts : list str) c rest, c = 93 \/ c = 125 -> stops (concat (map (cons 44) ts) ++ c :: rest).
  Proof. intros [|t ts] c rest H; cbn; tauto. Qed.
  Lemma elems_tail' : forall rec xs ts, Forall2 (reads_as rec) xs ts -> forall fuel w rest, (length xs < fuel)%nat -> blank w ->
    read_elems rec fuel false (w ++ concat (map (cons 44) ts) ++ 93 :: rest) = Some (xs, rest).
  Proof.
    intros rec xs ts F. induction F as [|x t xs ts (w1 & s & w2 & -> & B1 & B2 & St & R) F IH]; intros fuel w rest L B; (destruct fuel as [|fuel]; [cbn in L; lia|]); cbn [read_elems]; rewrite skip_blank by assumption; [reflexivity|].
    cbn [map concat app skip_ws]. change (json_ws 44) with false. cbv iota. rewrite <- !app_assoc. rewrite (skip_blank w1) by assumption.
    refine (eq_trans (not_close _ (fun s1 => match rec s1 with Some (v, r1) => match read_elems rec fuel false r1 with Some (vs, r2) => Some (v :: vs, r2) | None => None end | None => None end) _ (starts_app _ _ St)) _).
    cbv beta. rewrite R by (apply stops_blank; [assumption|]; apply tail_stops; now left). rewrite IH; [reflexivity|cbn in L; lia|assumption].
  Qed.
  Lemma elems_read' : forall rec x xs t ts fuel rest, Forall2 (reads_as rec) (x :: xs) (t :: ts) -> (length (x :: xs) < fuel)%nat ->
    read_elems rec fuel true (join [44] (t :: ts) ++ 93 :: rest) = Some (x :: xs, rest).
  Proof.
    intros rec x xs t ts fuel rest F L. inversion F as [|? ? ? ? (w1 & s & w2 & -> & B1 & B2 & St & R) F']; subst. destruct fuel as [|fuel]; [cbn in L; lia|]. rewrite join_tail, <- !app_assoc. cbn [read_elems]. rewrite (skip_blank w1) by assumption.
    refine (eq_trans (not_close_comma _ (fun r => Some ([], r)) (fun _ => None) (fun s1 => match rec s1 with Some (v, r1) => match read_elems rec fuel false r1 with Some (vs, r2) => Some (v :: vs, r2) | None => None end | None => None end) _ (starts_app _ _ St)) _).
    cbv beta. rewrite R by (apply stops_blank; [assumption|]; apply tail_stops; now left). rewrite (elems_tail' rec xs ts F'); [reflexivity|cbn in L; lia|assumption].
  Qed.

  Definition member_as (rec : str -> option (json * str)) (m : str * json) (t : str) : Prop :=
    exists w1 q w2 w3 s w4, t = w1 ++ q ++ w2 ++ lit ":" ++ w3 ++ s ++ w4 /\ quoted_as (fst m) q /\ blank w1 /\ blank w2 /\ blank w3 /\ blank w4
      /\ (forall rest, stops rest -> rec (w3 ++ s ++ rest) = Some (snd m, rest)).
  Lemma member_step' : forall rec m t rest, member_as rec m t -> stops rest -> exists w, blank w /\ forall f acc,
    (match skip_ws (t ++ rest) with
     | 34 :: r => match read_string (S (length r)) r with
                  | Some (k, r1) => match skip_ws r1 with 58 :: r2 => match rec r2 with Some (v, r3) => read_members rec f false (binsert k v acc) r3 | None => None end | _ => None end
                  | None => None end
     | _ => None end) = read_members rec f false (binsert (fst m) (snd m) acc) (w ++ rest).
  Proof.
    intros rec [k v] t rest (w1 & q & w2 & w3 & s & w4 & -> & Kq & B1 & B2 & B3 & B4 & R) St. exists w4. split; [assumption|]. intros f acc. cbn [fst snd] in *.
    rewrite <- !app_assoc, skip_blank by assumption. destruct (quoted_read k q (w2 ++ lit ":" ++ w3 ++ s ++ w4 ++ rest) Kq) as (body & -> & Q). cbn [skip_ws]. change (json_ws 34) with false. cbv iota.
    rewrite Q, skip_blank by assumption. change (lit ":" ++ w3 ++ s ++ w4 ++ rest) with (58 :: w3 ++ s ++ w4 ++ rest). cbn [skip_ws]. change (json_ws 58) with false. cbv iota. now rewrite R by now apply stops_blank.
  Qed.
  Lemma members_tail' : forall rec ms ts, Forall2 (member_as rec) ms ts -> forall fuel w acc rest, (length ms < fuel)%nat -> blank w ->
    read_members rec fuel false acc (w ++ concat (map (cons 44) ts) ++ 125 :: rest) = Some (inserted ms acc, rest).
  Proof.
    intros rec ms ts F. induction F as [|m t ms ts M F IH]; intros fuel w acc rest L B; (destruct fuel as [|fuel]; [cbn in L; lia|]); cbn [read_members]; rewrite skip_blank by assumption; [reflexivity|].
    cbn [map concat app skip_ws]. change (json_ws 44) with false. cbv iota. rewrite <- !app_assoc.
    destruct (member_step' rec m t (concat (map (cons 44) ts) ++ 125 :: rest) M) as (w' & B' & E); [apply tail_stops; now right|]. rewrite E. apply IH; [cbn in L; lia|assumption].
  Qed.
  Lemma members_read' : forall rec m ms t ts fuel rest, Forall2 (member_as rec) (m :: ms) (t :: ts) -> (length (m :: ms) < fuel)%nat ->
    read_members rec fuel true [] (join [44] (t :: ts) ++ 125 :: rest) = Some (inserted (m :: ms) [], rest).
  Proof.
    intros rec m ms t ts fuel rest F L. inversion F as [|? ? ? ? M F']; subst. destruct fuel as [|fuel]; [cbn in L; lia|]. rewrite join_tail, <- !app_assoc. cbn [read_members].
    destruct (member_step' rec m t (concat (map (cons 44) ts) ++ 125 :: rest) M) as (w' & B' & E); [apply tail_stops; now right|]. specialize (E fuel []).
    assert (S34 : exists r, skip_ws (t ++ concat (map (cons 44) ts) ++ 125 :: rest) = 34 :: r).
    { destruct M as (w1 & q & w2 & w3 & s & w4 & -> & (ps & _ & ->) & B1 & _). rewrite <- !app_assoc, skip_blank by assumption. eexists. reflexivity. }
    destruct S34 as (r & E34). rewrite E34 in E |- *. rewrite E. apply (members_tail' rec ms ts F'); [cbn in L; lia|assumption].
  Qed.

  Lemma read_text : forall j, document j -> forall s n, json_text j s -> (nesting j < n)%nat -> forall rest, stops rest -> read_value n (s ++ rest) = Some (j, rest).
  Proof.
    induction j as [|b|k|s0|xs IH|kvs IH] using json_ind'; intros D s n T Hn rest R;
      try (inversion T; subst; exact (read_print _ D n Hn rest R)).
    - inversion T as [|? ? Kq| | | |]; subst; [exact (read_print _ D n Hn rest R)|]. destruct n as [|d]; [lia|]. destruct (quoted_read s0 s rest Kq) as (body & -> & Q). cbn [read_value skip_ws]. change (json_ws 34) with false. cbv iota. change (34 =? 34) with true. cbv iota. now rewrite Q.
    - destruct n as [|[|d]]; [lia|cbn in Hn; lia|]. inversion D as [| | | |? Dx|]; subst. inversion T as [? K|? ? K|w B| xs' ts Nx F| |]; subst; [exfalso; apply K; exact I| |].
      + change ((lit "[" ++ w ++ lit "]") ++ rest) with (91 :: (w ++ [93]) ++ rest). rewrite <- app_assoc. change ([93] ++ rest) with (93 :: rest). cbn [read_value skip_ws]. change (json_ws 91) with false. cbv iota. change (91 =? 34) with false. change (91 =? 91) with true. cbv iota. cbn [read_elems]. rewrite skip_blank by assumption. reflexivity.
      + change ((lit "[" ++ join (lit ",") ts ++ lit "]") ++ rest) with (91 :: (join [44] ts ++ [93]) ++ rest). rewrite <- app_assoc. change ([93] ++ rest) with (93 :: rest).
        remember (join [44] ts ++ 93 :: rest) as t eqn:Et.
        assert (G : Forall2 (reads_as (read_value (S d))) xs ts).
        { cbn [nesting] in Hn. assert (Hx : forall x, In x xs -> (nesting x < S d)%nat). { intros x Ix. assert (nesting x <= d)%nat; [|lia]. apply (list_max_in (map nesting xs)); [now apply in_map|lia]. }
          clear -F IH Dx Hx. induction F as [|x t xs ts (w1 & s & w2 & -> & B1 & B2 & T) F IHF]; constructor.
          - inversion IH; subst. inversion Dx; subst. exists w1, s, w2. repeat split; try assumption; [now apply (text_starts x)|]. intros rest R. apply H1; try assumption. apply Hx. now left.
          - inversion IH; subst. inversion Dx; subst. apply IHF; try assumption. intros y Iy. apply Hx. now right. }
        assert (L : (length xs < S (length t))%nat).
        { rewrite Et, app_length. cbn [length]. pose proof (count_length ts) as C. rewrite (same_length _ _ _ _ _ G). refine (Nat.lt_le_trans _ _ _ (proj2 (Nat.lt_succ_r _ _) (C _)) _); [|unfold str in *; lia]. intros t' It.
          clear -G It. induction G as [|x t xs ts (w1 & s & w2 & -> & _ & _ & St & _) G IHG]; [contradiction|]. destruct It as [<-|It]; [|now apply IHG]. intros K. apply app_eq_nil in K as [_ K]. apply app_eq_nil in K as [-> _]. exact St. }
        assert (E : read_elems (read_value (S d)) (S (length t)) true t = Some (xs, rest)).
        { rewrite Et at 2. destruct xs as [|x xs]; [congruence|]. destruct ts as [|t0 ts]; [inversion G|]. now apply elems_read'. }
        cbn [read_value skip_ws]. change (json_ws 91) with false. cbv iota. change (91 =? 34) with false. change (91 =? 91) with true. cbv iota. change (match read_elems (read_value (S d)) (S (length t)) true t with Some (vs, r') => Some (JArr vs, r') | None => None end = Some (JArr xs, rest)). now rewrite E.
    - destruct n as [|[|d]]; [lia|cbn in Hn; lia|]. inversion D as [| | | | |? O Dx]; subst. inversion T as [? K|? ? K| | |w B|kvs' ms ts Nx P F]; subst; [exfalso; apply K; exact I| |].
      + change ((lit "{" ++ w ++ lit "}") ++ rest) with (123 :: (w ++ [125]) ++ rest). rewrite <- app_assoc. change ([125] ++ rest) with (125 :: rest). cbn [read_value skip_ws]. change (json_ws 123) with false. cbv iota. change (123 =? 34) with false. change (123 =? 91) with false. change (123 =? 123) with true. cbv iota. cbn [read_members]. rewrite skip_blank by assumption. reflexivity.
      + change ((lit "{" ++ join (lit ",") ts ++ lit "}") ++ rest) with (123 :: (join [44] ts ++ [125]) ++ rest). rewrite <- app_assoc. change ([125] ++ rest) with (125 :: rest).
        remember (join [44] ts ++ 125 :: rest) as t eqn:Et.
        assert (G : Forall2 (member_as (read_value (S d))) ms ts).
        { assert (Hx : forall m, In m ms -> document (snd m) /\ (forall s n, json_text (snd m) s -> (nesting (snd m) < n)%nat -> forall rest, stops rest -> read_value n (s ++ rest) = Some (snd m, rest)) /\ (nesting (snd m) < S d)%nat).
          { intros m Im. apply (Permutation_in _ P) in Im. rewrite Forall_forall in Dx, IH. split; [now apply Dx|]. split; [now apply IH, Dx|]. cbn [nesting] in Hn. assert (nesting (snd m) <= d)%nat; [|lia]. apply (list_max_in (map (fun kv => nesting (snd kv)) kvs)); [now apply (in_map (fun kv => nesting (snd kv)))|lia]. }
          clear -F Hx. induction F as [|m t ms ts (w1 & q & w2 & w3 & s & w4 & -> & Kq & B1 & B2 & B3 & B4 & T) F IHF]; constructor; [|apply IHF; intros y Iy; apply Hx; now right].
          destruct (Hx m (or_introl eq_refl)) as (Dm & Rm & Nm). exists w1, q, w2, w3, s, w4. split; [reflexivity|]. split; [assumption|]. repeat split; try assumption. intros rest R. rewrite read_blank by assumption. now apply Rm. }
        assert (L : (length ms < S (length t))%nat).
        { rewrite Et, app_length. pose proof (count_length ts) as C. rewrite (same_length _ _ _ _ _ G). refine (Nat.lt_le_trans _ _ _ (proj2 (Nat.lt_succ_r _ _) (C _)) _); [|unfold str in *; lia]. intros t' It.
          clear -G It. induction G as [|m t ms ts (w1 & q & w2 & w3 & s & w4 & -> & (ps & _ & ->) & _) G IHG]; [contradiction|]. destruct It as [<-|It]; [|now apply IHG]. intros K. apply app_eq_nil in K as [_ K]. discriminate. }
        assert (E : read_members (read_value (S d)) (S (length t)) true [] t = Some (kvs, rest)).
        { rewrite Et at 2. destruct ms as [|m ms]; [apply Permutation_nil in P; congruence|]. destruct ts as [|t0 ts]; [inversion G|]. rewrite members_read' with (ms := ms) (m := m) by assumption. now rewrite (inserted_sorted _ _ P O). }
        cbn [read_value skip_ws]. change (json_ws 123) with false. cbv iota. change (123 =? 34) with false. change (123 =? 91) with false. change (123 =? 123) with true. cbv iota.
        change (match read_members (read_value (S d)) (S (length t)) true [] t with Some (vs, r') => Some (JObj vs, r') | None => None end = Some (JObj kvs, rest)). now rewrite E.
  Qed.
  Lemma any_layout : forall j s w1 w2, document j -> (nesting j <= 127)%nat -> json_text j s -> blank w1 -> blank w2 -> json_parse (w1 ++ s ++ w2) = Some j.
  Proof.
    intros j s w1 w2 D N T B1 B2. unfold json_parse. rewrite read_blank by assumption. rewrite (read_text j D s json_depth T); [|unfold json_depth; lia|rewrite <- (app_nil_r w2); apply stops_blank; [assumption|exact I]].
    rewrite <- (app_nil_r w2), skip_blank by assumption. reflexivity.
  Qed.
End Layouts.
