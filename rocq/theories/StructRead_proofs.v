(** Reading requests and answers with known fields. *)
From Coq Require Import String List ZArith NArith Bool Lia Permutation.
From Verif Require Import Base F64 F64Text Syntax Ext Json Struct Spec Spec_syntax Spec_text Spec_json Spec_struct
  Base_proofs Float_proofs Exact_proofs Text_proofs Round_proofs Display_proofs Json_proofs Object_proofs Layout_proofs Struct_proofs JsonShape_proofs.
Import ListNotations.
Local Open Scope N_scope.

Lemma named_iff : forall names k, named names k = true <-> In k names.
Proof.
  intros names k. unfold named. rewrite existsb_exists. split.
  - intros (x & I & E). apply str_eqb_eq in E. now subst.
  - intros I. exists k. split; [assumption|]. apply str_eqb_refl.
Qed.
Lemma not_had : forall (acc : list (str * json)) k, ~ In k (map fst acc) -> mhas k acc = false.
Proof.
  induction acc as [|[k' v] acc IH]; intros k H; [reflexivity|]. cbn in H |- *. unfold mhas in *. cbn [mget]. destruct (str_eqb k k') eqn:E; [apply str_eqb_eq in E; subst; tauto|]. apply IH. tauto.
Qed.
Lemma had : forall (acc : list (str * json)) k, In k (map fst acc) -> mhas k acc = true.
Proof.
  induction acc as [|[k' v] acc IH]; intros k H; [contradiction|]. cbn in H |- *. unfold mhas in *. cbn [mget]. destruct (str_eqb k k') eqn:E; [reflexivity|]. apply IH. destruct H as [->|H]; [|assumption]. now rewrite str_eqb_refl in E.
Qed.
Lemma had_iff : forall (acc : list (str * json)) k, mhas k acc = false <-> ~ In k (map fst acc).
Proof. intros acc k. split; [|apply not_had]. intros E I. apply had in I. congruence. Qed.

Section Structs.
  Context {X : Ext} (names : list str).
  Lemma value_at_blank : forall w s, blank w -> read_value (pred json_depth) (w ++ s) = read_value (pred json_depth) s.
  Proof. intros. now apply read_blank. Qed.
  Lemma field_step : forall t fs, member_gives names t fs -> forall acc rest, NoDup (map fst (acc ++ fs)) -> stops rest -> exists w, blank w /\ read_field names acc (t ++ rest) = Some (acc ++ fs, w ++ rest).
  Proof.
    intros t fs M acc rest D R. destruct M as [k q j w1 w2 w3 s w4 I Kq Dj Nj T B1 B2 B3 B4|k q w1 w2 w3 s w4 I Kq Sh B1 B2 B3 B4]; exists w4; (split; [assumption|]).
    - unfold read_field. rewrite <- !app_assoc, skip_blank by assumption. destruct (quoted_read k q (w2 ++ lit ":" ++ w3 ++ s ++ w4 ++ rest) Kq) as (body & E & Q). rewrite E. cbn [skip_ws]. change (json_ws 34) with false. cbv iota. change (34 =? 34) with true. cbv iota.
      rewrite Q, skip_blank by assumption. change (lit ":" ++ w3 ++ s ++ w4 ++ rest) with (58 :: w3 ++ s ++ w4 ++ rest). cbn [skip_ws]. change (json_ws 58) with false. cbv iota. change (58 =? 58) with true. cbv iota.
      rewrite (proj2 (named_iff names k) I). rewrite not_had. 2:{ intros K. rewrite map_app in D. cbn in D. apply NoDup_remove_2 in D. rewrite app_nil_r in D. now apply D. }
      rewrite value_at_blank by assumption. rewrite (read_text j Dj s (pred json_depth) T); [reflexivity|change (pred json_depth) with 127%nat; lia|now apply stops_blank].
    - unfold read_field. rewrite <- !app_assoc, skip_blank by assumption. destruct (quoted_read k q (w2 ++ lit ":" ++ w3 ++ s ++ w4 ++ rest) Kq) as (body & E & Q). rewrite E. cbn [skip_ws]. change (json_ws 34) with false. cbv iota. change (34 =? 34) with true. cbv iota.
      rewrite Q, skip_blank by assumption. change (lit ":" ++ w3 ++ s ++ w4 ++ rest) with (58 :: w3 ++ s ++ w4 ++ rest). cbn [skip_ws]. change (json_ws 58) with false. cbv iota. change (58 =? 58) with true. cbv iota.
      destruct (named names k) eqn:Nk; [apply named_iff in Nk; contradiction|]. rewrite value_blank by assumption. rewrite (shape_skipped s Sh); [now rewrite app_nil_r|rewrite !app_length; lia|now apply stops_blank].
  Qed.
  Lemma member_quote : forall t fs rest, member_gives names t fs -> exists r, skip_ws (t ++ rest) = 34 :: r.
  Proof. intros t fs rest [k q j w1 w2 w3 s w4 I (ps & _ & ->) Dj Nj T B1 B2 B3 B4|k q w1 w2 w3 s w4 I (ps & _ & ->) Sh B1 B2 B3 B4]; rewrite <- !app_assoc, skip_blank by assumption; eexists; reflexivity. Qed.
  Lemma field_ws : forall acc s, read_field names acc (skip_ws s) = read_field names acc s.
  Proof. intros acc s. unfold read_field. now rewrite skip_ws_idem. Qed.
  Lemma app_no_dup : forall (a b : list (str * json)), NoDup (map fst (a ++ b)) -> NoDup (map fst a).
  Proof.
    intros a b D. induction a as [|[k v] a IH]; [constructor|]. cbn in D |- *. inversion D as [|? ? I D']; subst. constructor; [|now apply IH]. intros K. apply I. rewrite map_app. apply in_or_app. now left.
  Qed.
  (** members, up to a point where [tail] is left to read *)
  Lemma fields_go : forall ts fs, Forall2 (member_gives names) ts fs -> forall n w acc tail, blank w -> stops tail -> NoDup (map fst (acc ++ concat fs)) ->
    exists w', blank w' /\ read_fields names (length ts + n) false acc (w ++ concat (map (cons 44) ts) ++ tail) = read_fields names n false (acc ++ concat fs) (w' ++ tail).
  Proof.
    intros ts fs F. induction F as [|t f ts fs M F IH]; intros n w acc tail B R D.
    - exists w. split; [assumption|]. cbn. now rewrite app_nil_r.
    - cbn [concat] in D. rewrite app_assoc in D. assert (R' : stops (concat (map (cons 44) ts) ++ tail)) by (destruct ts; [exact R|cbn; tauto]).
      destruct (field_step t f M acc (concat (map (cons 44) ts) ++ tail) (app_no_dup _ _ D) R') as (w1 & B1 & E). destruct (IH n w1 (acc ++ f) tail B1 R D) as (w' & B' & K). exists w'. split; [assumption|].
      cbn [concat map length app plus]. cbn [read_fields]. rewrite skip_blank by assumption. rewrite <- app_assoc. cbn [skip_ws app]. change (json_ws 44) with false. cbv iota. change (44 =? 125) with false. change (44 =? 44) with true. cbv iota. rewrite E, K, <- app_assoc. reflexivity.
  Qed.
  Lemma fields_begin : forall t ts f fs, Forall2 (member_gives names) (t :: ts) (f :: fs) -> forall n tail, stops tail -> NoDup (map fst (concat (f :: fs))) ->
    exists w', blank w' /\ read_fields names (length (t :: ts) + n) true [] (join (lit ",") (t :: ts) ++ tail) = read_fields names n false (concat (f :: fs)) (w' ++ tail).
  Proof.
    intros t ts f fs F n tail R D. inversion F as [|? ? ? ? M F']; subst. assert (R' : stops (concat (map (cons 44) ts) ++ tail)) by (destruct ts; [exact R|cbn; tauto]). cbn [concat] in D.
    destruct (field_step t f M [] (concat (map (cons 44) ts) ++ tail)) as (w1 & B1 & E); [exact (app_no_dup _ _ D)|assumption|]. destruct (fields_go ts fs F' n w1 f tail B1 R D) as (w' & B' & K). exists w'. split; [assumption|].
    change (lit ",") with [44]. rewrite join_tail, <- app_assoc. cbn [length plus read_fields]. pose proof (field_ws [] (t ++ concat (map (cons 44) ts) ++ tail)) as Ws. destruct (member_quote t f (concat (map (cons 44) ts) ++ tail) M) as (r & Eq). rewrite Eq in *. change (34 =? 125) with false. cbv iota. rewrite Ws, E. exact K.
  Qed.
  Lemma members_count : forall ts fs, Forall2 (member_gives names) ts fs -> (length ts <= length (join (lit ",") ts))%nat.
  Proof.
    intros ts fs F. assert (G : forall us, (length us <= length (concat (map (cons 44%N) us)))%nat). { clear. intros ts. induction ts as [|t ts IH]; [reflexivity|]. cbn [map concat length]. rewrite app_length. cbn. lia. }
    destruct F as [|t f ts fs M F]; [cbn; lia|]. change (lit ",") with [44]. rewrite join_tail, app_length. specialize (G ts). cbn [length].
    assert (1 <= length t)%nat by (destruct M; rewrite !app_length; change (length (lit ":")) with 1%nat; lia). unfold str in *. lia.
  Qed.
  Lemma struct_read : forall kvs s, object_with names kvs s -> struct_parse names s = Some (JObj kvs).
  Proof.
    intros kvs s (w1 & w2 & t & B1 & B2 & -> & [[-> Bt]|(ts & fs & Ne & F & -> & D & ->)]); unfold struct_parse; rewrite skip_blank by assumption.
    - change (lit "{" ++ t ++ lit "}" ++ w2) with (123 :: t ++ 125 :: w2). cbn [skip_ws]. change (json_ws 123) with false. cbv iota. change (123 =? 123) with true. cbv iota. cbn [read_fields]. rewrite skip_blank by assumption. cbn [skip_ws]. change (json_ws 125) with false. cbv iota. change (125 =? 125) with true. cbv iota.
      rewrite <- (app_nil_r w2), skip_blank by assumption. reflexivity.
    - change (lit "{" ++ join (lit ",") ts ++ lit "}" ++ w2) with (123 :: join (lit ",") ts ++ 125 :: w2). cbn [skip_ws]. change (json_ws 123) with false. cbv iota. change (123 =? 123) with true. cbv iota.
      pose proof (members_count ts fs F) as L. destruct ts as [|t ts]; [congruence|]. destruct fs as [|f fs]; [inversion F|].
      assert (En : exists n, S (length (join (lit ",") (t :: ts) ++ 125 :: w2)) = (length (t :: ts) + S n)%nat). { exists (length (join (lit ",") (t :: ts)) - length (t :: ts) + S (length w2))%nat. rewrite app_length. cbn [length] in *. unfold str in *. lia. }
      destruct En as (n & ->). destruct (fields_begin t ts f fs F (S n) (125 :: w2)) as (w' & B' & ->); [cbn; tauto|assumption|]. cbn [read_fields]. rewrite skip_blank by assumption. cbn [skip_ws]. change (json_ws 125) with false. cbv iota. change (125 =? 125) with true. cbv iota.
      rewrite <- (app_nil_r w2), skip_blank by assumption. reflexivity.
  Qed.
  Lemma struct_twice : forall k s, In k names -> given_twice names k s -> struct_parse names s = None.
  Proof.
    intros k s Ik (w1 & ts & fs & w2 & q & w3 & rest & B1 & Ne & F & D & I & B2 & Kq & B3 & ->). unfold struct_parse. rewrite skip_blank by assumption.
    set (tail := lit "," ++ w2 ++ q ++ w3 ++ lit ":" ++ rest). change (lit "{" ++ join (lit ",") ts ++ tail) with (123 :: join (lit ",") ts ++ tail). cbn [skip_ws]. change (json_ws 123) with false. cbv iota. change (123 =? 123) with true. cbv iota.
    pose proof (members_count ts fs F) as L. destruct ts as [|t ts]; [congruence|]. destruct fs as [|f fs]; [inversion F|].
    assert (En : exists n, S (length (join (lit ",") (t :: ts) ++ tail)) = (length (t :: ts) + S n)%nat). { exists (length (join (lit ",") (t :: ts)) - length (t :: ts) + length tail)%nat. rewrite app_length. cbn [length] in *. unfold str in *. lia. }
    destruct En as (n & ->). destruct (fields_begin t ts f fs F (S n) tail) as (w' & B' & ->); [cbn; tauto|assumption|]. cbn [read_fields]. rewrite skip_blank by assumption. unfold tail. change (lit "," ++ w2 ++ q ++ w3 ++ lit ":" ++ rest) with (44 :: w2 ++ q ++ w3 ++ 58 :: rest). cbn [skip_ws]. change (json_ws 44) with false. cbv iota. change (44 =? 125) with false. change (44 =? 44) with true. cbv iota.
    assert (E : read_field names (concat (f :: fs)) (w2 ++ q ++ w3 ++ 58 :: rest) = None); [|now rewrite E].
    unfold read_field. rewrite skip_blank by assumption. destruct (quoted_read k q (w3 ++ 58 :: rest) Kq) as (body & E & Q). rewrite E. cbn [skip_ws]. change (json_ws 34) with false. cbv iota. change (34 =? 34) with true. cbv iota. rewrite Q, skip_blank by assumption. cbn [skip_ws]. change (json_ws 58) with false. cbv iota. change (58 =? 58) with true. cbv iota.
    now rewrite (proj2 (named_iff names k) Ik), had.
  Qed.

  (** ** Documents *)
  Lemma text_shape : forall j s, document j -> json_text j s -> json_shape s.
  Proof.
    intros j s D T. assert (R : read_value (S (nesting j)) (s ++ []) = Some (j, [])) by (apply (read_text j D s); [assumption|lia|exact Logic.I]). apply (read_shape _ _ _ _) in R as (w & t & B & Sh & E). rewrite !app_nil_r in E.
    pose proof (text_starts j s D T) as St. destruct w as [|c w]; [now rewrite E|]. exfalso. rewrite E in St. cbn in St. destruct St as [St _]. inversion B as [|? ? Bc]; subst. apply blank_ws in Bc. congruence.
  Qed.
  Definition known (ms : list (str * json)) : list (str * json) := filter (fun kv => named names (fst kv)) ms.
  Lemma filter_nodup : forall ms, NoDup (map fst ms) -> NoDup (map fst (known ms)).
  Proof.
    induction ms as [|[k v] ms IH]; intros D; [constructor|]. cbn in D. inversion D as [|? ? I D']; subst. cbn. destruct (named names k); [|now apply IH]. cbn. constructor; [|now apply IH]. intros K. apply I. apply in_map_iff in K as ([k' v'] & E & K). cbn in E. subst. apply filter_In in K as [K _]. now apply (in_map fst) in K.
  Qed.
  Lemma struct_layout : forall kvs s w1 w2, document (JObj kvs) -> (nesting (JObj kvs) <= 127)%nat -> json_text (JObj kvs) s -> blank w1 -> blank w2 ->
    exists ms, Permutation ms kvs /\ object_with names (known ms) (w1 ++ s ++ w2).
  Proof.
    intros kvs s w1 w2 D L T B1 B2. inversion D as [| | | | |? O Dk]; subst. inversion T as [? K|? ? K| | |w B|kvs' ms ts Nx P F]; subst; [exfalso; apply K; exact Logic.I| |].
    - exists []. split; [constructor|]. exists w1, w2, w. split; [assumption|]. split; [assumption|]. split; [now rewrite <- !app_assoc|]. now left.
    - exists ms. split; [assumption|]. exists w1, w2, (join (lit ",") ts). split; [assumption|]. split; [assumption|]. split; [now rewrite <- !app_assoc|]. right.
      assert (G : forall m, In m ms -> document (snd m) /\ (nesting (snd m) <= 126)%nat).
      { intros m Im. apply (Permutation_in _ P) in Im. rewrite Forall_forall in Dk. split; [now apply Dk|]. cbn [nesting] in L. apply (list_max_in (map (fun kv => nesting (snd kv)) kvs)); [now apply (in_map (fun kv => nesting (snd kv)))|lia]. }
      exists ts, (map (fun m => known [m]) ms). split; [|split; [|split; [|split; [|reflexivity]]]].
      + intros ->. inversion F; subst. apply Permutation_nil in P. congruence.
      + clear - F G. induction F as [|m t ms ts (u1 & qk & u2 & u3 & q & u4 & -> & Kq & B1 & B2 & B3 & B4 & T) F IH]; constructor; [|apply IH; intros x Ix; apply G; now right]. destruct (G m (or_introl eq_refl)) as [Dm Nm]. destruct m as [k j]. cbn [fst snd] in *. unfold known. cbn [filter fst]. destruct (named names k) eqn:Nk.
        * apply (known_member _ k); try assumption. now apply named_iff.
        * apply (other_member _ k); try assumption; [|now apply (text_shape j)]. intros I. apply named_iff in I. congruence.
      + clear. induction ms as [|m ms IH]; [reflexivity|]. cbn [map concat]. rewrite <- IH. unfold known. cbn [filter]. destruct (named names (fst m)); reflexivity.
      + apply filter_nodup. apply (Permutation_NoDup (l := map fst kvs)); [apply Permutation_sym, Permutation_map, P|now apply order_nodup].
  Qed.
  Lemma known_get : forall ms k, In k names -> mget k (known ms) = mget k ms.
  Proof.
    induction ms as [|[k' v] ms IH]; intros k I; [reflexivity|]. unfold known. cbn [filter fst mget]. destruct (str_eqb k k') eqn:E.
    - apply str_eqb_eq in E. subst. rewrite (proj2 (named_iff names k') I). cbn [mget]. now rewrite str_eqb_refl.
    - destruct (named names k'); [cbn [mget]; rewrite E|]; now apply IH.
  Qed.
  Lemma get_perm : forall (a b : list (str * json)) k, Permutation a b -> NoDup (map fst a) -> mget k a = mget k b.
  Proof.
    intros a b k P. induction P as [|[k1 v1] a b P IH|[k1 v1] [k2 v2] a|a b c P1 IH1 P2 IH2]; intros D; [reflexivity| | |].
    - cbn in D. inversion D; subst. cbn [mget]. destruct (str_eqb k k1); [reflexivity|now apply IH].
    - cbn in D. inversion D as [|? ? I D']; subst. cbn [mget]. destruct (str_eqb k k2) eqn:E2; destruct (str_eqb k k1) eqn:E1; try reflexivity. apply str_eqb_eq in E1, E2. subst. exfalso. apply I. now left.
    - rewrite IH1 by assumption. apply IH2. apply (Permutation_NoDup (l := map fst a)); [now apply Permutation_map|assumption].
  Qed.
  (** a document with any layout is read, and its known fields are there *)
  Lemma struct_fields : forall kvs s w1 w2, document (JObj kvs) -> (nesting (JObj kvs) <= 127)%nat -> json_text (JObj kvs) s -> blank w1 -> blank w2 ->
    exists ms, struct_parse names (w1 ++ s ++ w2) = Some (JObj ms) /\ forall k, In k names -> mget k ms = mget k kvs.
  Proof.
    intros kvs s w1 w2 D L T B1 B2. destruct (struct_layout kvs s w1 w2 D L T B1 B2) as (ms & P & O). exists (known ms). split; [now apply struct_read|]. intros k I. rewrite known_get by assumption. apply get_perm; [assumption|]. inversion D; subst. apply (Permutation_NoDup (l := map fst kvs)); [apply Permutation_sym, Permutation_map, P|now apply order_nodup].
  Qed.

  (** ** What is accepted *)
  Lemma field_shape : forall acc s acc' r, read_field names acc s = Some (acc', r) ->
    (exists w1 k w2 w3 t, blank w1 /\ quoted_shape k /\ blank w2 /\ blank w3 /\ json_shape t /\ s = w1 ++ k ++ w2 ++ lit ":" ++ w3 ++ t ++ r)
    /\ (acc' = acc \/ exists k v, In k names /\ ~ In k (map fst acc) /\ acc' = acc ++ [(k, v)]).
  Proof.
    intros acc s acc' r K. unfold read_field in K. destruct (skip_ws_split s) as (w1 & B1 & Es & _). destruct (skip_ws s) as [|c q]; [discriminate|]. destruct (c =? 34) eqn:C; [|discriminate]. apply N.eqb_eq in C. subst c.
    destruct (read_string (S (length q)) q) as [[k r1]|] eqn:Q; [|discriminate]. apply string_parts in Q as (ps & F & Eq). destruct (skip_ws_split r1) as (w2 & B2 & E2 & _). destruct (skip_ws r1) as [|d r2]; [discriminate|]. destruct (d =? 58) eqn:D; [|discriminate]. apply N.eqb_eq in D. subst d.
    assert (G : forall w3 t, blank w3 -> json_shape t -> r2 = w3 ++ t ++ r -> exists w1 k w2 w3 t, blank w1 /\ quoted_shape k /\ blank w2 /\ blank w3 /\ json_shape t /\ s = w1 ++ k ++ w2 ++ lit ":" ++ w3 ++ t ++ r).
    { clear K. intros w3 t B3 T E3. exists w1, ([34] ++ concat ps ++ [34]), w2, w3, t. split; [assumption|]. split; [now exists ps|]. do 3 (split; [assumption|]). rewrite Es, Eq, E2, E3. cbn [app]. now rewrite <- !app_assoc. }
    destruct (named names k) eqn:Nk.
    - destruct (mhas k acc) eqn:Hk; [discriminate|]. destruct (read_value (pred json_depth) r2) as [[v r3]|] eqn:V; [|discriminate]. injection K as <- <-. apply (read_shape _ _ _ _) in V as (w3 & t & B3 & T & E3). split; [exact (G w3 t B3 T E3)|]. right. exists k, v. split; [now apply named_iff|]. split; [now apply had_iff|reflexivity].
    - destruct (skip_value (S (length r2)) r2) as [r3|] eqn:V; [|discriminate]. injection K as <- <-. apply value_shape in V as (w3 & t & B3 & T & E3). split; [now apply (G w3 t)|]. now left.
  Qed.
  Definition once (acc : list (str * json)) : Prop := NoDup (map fst acc) /\ Forall (fun kv => In (fst kv) names) acc.
  Lemma once_more : forall acc acc', once acc -> acc' = acc \/ (exists k v, In k names /\ ~ In k (map fst acc) /\ acc' = acc ++ [(k, v)]) -> once acc'.
  Proof.
    intros acc acc' [D F] [->|(k & v & I & Ni & ->)]; [now split|]. split; [|apply Forall_app; split; [assumption|now repeat constructor]]. rewrite map_app. cbn [map fst]. apply (Permutation_NoDup (l := k :: map fst acc)); [apply Permutation_cons_append|now constructor].
  Qed.
  Lemma fields_shape : forall fuel acc s kvs r, once acc -> read_fields names fuel false acc s = Some (kvs, r) ->
    once kvs /\ exists w, blank w /\ (s = w ++ lit "}" ++ r \/ exists t, members_shape t /\ s = w ++ lit "," ++ t ++ lit "}" ++ r).
  Proof.
    induction fuel as [|f IH]; intros acc s kvs r O K; [discriminate|]. cbn [read_fields] in K. destruct (skip_ws_split s) as (w & B & Es & _). destruct (skip_ws s) as [|c q]; [discriminate|]. destruct (c =? 125) eqn:C.
    - injection K as <- <-. split; [assumption|]. apply N.eqb_eq in C. subst c. exists w. split; [assumption|]. now left.
    - destruct (c =? 44) eqn:C'; [|discriminate]. apply N.eqb_eq in C'. subst c. destruct (read_field names acc q) as [[acc' r1]|] eqn:R; [|discriminate]. apply field_shape in R as [(w1 & k & w2 & w3 & t & B1 & Q & B2 & B3 & V & ->) O']. apply IH in K as [Ok (w4 & B4 & [->|(u & U & ->)])]; [| |now apply (once_more acc)].
      + split; [assumption|]. exists w. split; [assumption|]. right. exists (w1 ++ k ++ w2 ++ lit ":" ++ w3 ++ t ++ w4). split; [now apply last_member|]. rewrite Es. now rewrite <- !app_assoc.
      + split; [assumption|]. exists w. split; [assumption|]. right. exists (w1 ++ k ++ w2 ++ lit ":" ++ w3 ++ t ++ w4 ++ lit "," ++ u). split; [now apply more_members|]. rewrite Es. now rewrite <- !app_assoc.
  Qed.
  Lemma fields_first_shape : forall fuel acc s kvs r, once acc -> read_fields names fuel true acc s = Some (kvs, r) ->
    once kvs /\ exists t, (blank t \/ members_shape t) /\ s = t ++ lit "}" ++ r.
  Proof.
    intros [|f] acc s kvs r O K; [discriminate|]. cbn [read_fields] in K. pose proof (field_ws acc s) as Ws. destruct (skip_ws_split s) as (w & B & Es & _). destruct (skip_ws s) as [|c q]; [discriminate|]. destruct (c =? 125) eqn:C.
    - injection K as <- <-. split; [assumption|]. apply N.eqb_eq in C. subst c. exists w. split; [now left|assumption].
    - destruct (read_field names acc (c :: q)) as [[acc' r1]|] eqn:R; [|discriminate]. symmetry in Ws. apply field_shape in Ws as [(w1 & k & w2 & w3 & t & B1 & Q & B2 & B3 & V & ->) O']. apply fields_shape in K as [Ok (w4 & B4 & [->|(u & U & ->)])]; [| |now apply (once_more acc)].
      + split; [assumption|]. exists (w1 ++ k ++ w2 ++ lit ":" ++ w3 ++ t ++ w4). split; [right; now apply last_member|]. now rewrite <- !app_assoc.
      + split; [assumption|]. exists (w1 ++ k ++ w2 ++ lit ":" ++ w3 ++ t ++ w4 ++ lit "," ++ u). split; [right; now apply more_members|]. now rewrite <- !app_assoc.
  Qed.
  Lemma array_at : forall d s q kvs, skip_ws s = 91 :: q -> match read_value d s with Some (v, r) => match skip_ws r with [] => Some v | _ => None end | None => None end = Some (JObj kvs) -> False.
  Proof.
    intros [|d] s q kvs E K; [discriminate|]. cbn [read_value] in K. rewrite E in K. change (91 =? 34) with false in K. change (91 =? 91) with true in K. cbv iota in K. destruct d as [|d]; [discriminate|].
    destruct (read_elems (read_value (S d)) (S (length q)) true q) as [[vs r]|]; [|discriminate]. destruct (skip_ws r); discriminate.
  Qed.
  Lemma array_parse : forall s q kvs, skip_ws s = 91 :: q -> json_parse s = Some (JObj kvs) -> False.
  Proof. intros s q kvs E. exact (array_at json_depth s q kvs E). Qed.
  Local Opaque json_parse.
  Lemma struct_only : forall s j, struct_parse names s = Some j -> json_document s /\ forall kvs, j = JObj kvs -> NoDup (map fst kvs) /\ Forall (fun kv => In (fst kv) names) kvs.
  Proof.
    intros s j K. unfold struct_parse in K. destruct (skip_ws_split s) as (w & B & Es & _). destruct (skip_ws s) as [|c q] eqn:Ew; [discriminate|]. destruct (c =? 123) eqn:C; [|destruct (c =? 91) eqn:C'; [|discriminate]].
    - apply N.eqb_eq in C. subst c. destruct (read_fields names (S (length q)) true [] q) as [[kvs r]|] eqn:R; [|discriminate]. apply fields_first_shape in R as [O (t & T & Eq)]; [|split; constructor]. destruct (skip_ws_split r) as (w2 & B2 & Er & _). destruct (skip_ws r) as [|c' q']; [|discriminate]. injection K as <-. split.
      + exists w, (lit "{" ++ t ++ lit "}"), w2. split; [assumption|]. split; [destruct T; [now apply empty_object_shape|now apply object_shape]|]. split; [assumption|]. rewrite Es, Eq, Er. rewrite app_nil_r. now rewrite <- !app_assoc.
      + intros kvs' E. injection E as <-. exact O.
    - apply N.eqb_eq in C'. subst c. split; [now apply parsed_shape in K|]. intros kvs E. rewrite E in K. destruct (array_parse s q kvs Ew K).
  Qed.

  (** ** What the fields are *)
  Lemma field_from : forall (P : json -> Prop), (forall d s v r, read_value d s = Some (v, r) -> P v) -> forall acc s acc' r, Forall (fun kv => P (snd kv)) acc -> read_field names acc s = Some (acc', r) -> Forall (fun kv => P (snd kv)) acc'.
  Proof.
    intros P HP acc s acc' r F K. unfold read_field in K. destruct (skip_ws s) as [|c q]; [discriminate|]. destruct (c =? 34); [|discriminate]. destruct (read_string _ q) as [[k r1]|]; [|discriminate]. destruct (skip_ws r1) as [|d r2]; [discriminate|]. destruct (d =? 58); [|discriminate]. destruct (named names k).
    - destruct (mhas k acc); [discriminate|]. destruct (read_value (pred json_depth) r2) as [[v r3]|] eqn:V; [|discriminate]. apply HP in V. injection K as <- _. apply Forall_app. split; [assumption|]. now repeat constructor.
    - destruct (skip_value _ r2); [|discriminate]. now injection K as <- _.
  Qed.
  Lemma fields_from : forall (P : json -> Prop), (forall d s v r, read_value d s = Some (v, r) -> P v) -> forall fuel first acc s kvs r, Forall (fun kv => P (snd kv)) acc -> read_fields names fuel first acc s = Some (kvs, r) -> Forall (fun kv => P (snd kv)) kvs.
  Proof.
    intros P HP. induction fuel as [|f IH]; intros first acc s kvs r F K; [discriminate|]. cbn [read_fields] in K. destruct (skip_ws s) as [|c q]; [discriminate|]. destruct (c =? 125); [now injection K as <- _|]. destruct first.
    - destruct (read_field names acc (c :: q)) as [[acc' r1]|] eqn:R; [|discriminate]. apply (field_from P HP) in R; [|assumption]. now apply IH in K.
    - destruct (c =? 44); [|discriminate]. destruct (read_field names acc q) as [[acc' r1]|] eqn:R; [|discriminate]. apply (field_from P HP) in R; [|assumption]. now apply IH in K.
  Qed.
  Lemma struct_from : forall (P : json -> Prop), (forall d s v r, read_value d s = Some (v, r) -> P v) -> forall s j, struct_parse names s = Some j -> (exists kvs, j = JObj kvs /\ Forall (fun kv => P (snd kv)) kvs) \/ json_parse s = Some j.
  Proof.
    intros P HP s j K. unfold struct_parse in K. destruct (skip_ws s) as [|c q]; [discriminate|]. destruct (c =? 123); [left|destruct (c =? 91); [now right|discriminate]].
    destruct (read_fields names _ true [] q) as [[kvs r]|] eqn:R; [|discriminate]. apply (fields_from P HP) in R; [|constructor]. destruct (skip_ws r); [|discriminate]. injection K as <-. now exists kvs.
  Qed.
End Structs.
