(** Object literals, property access, DIG and JSON variables. *)
From Coq Require Import String List ZArith NArith Bool Lia Sorted.
From Coq Require Import Floats.SpecFloat.
From Verif Require Import Base F64 F64Text Syntax Ext Json Utils Arrays Dispatch Registry Core Evaluator Parser Api Spec Spec_syntax Spec_text Spec_json
  Base_proofs Value_proofs Float_proofs Exact_proofs Text_proofs Round_proofs Display_proofs DateFn_proofs Rounding_proofs Number_proofs Json_proofs.
Import ListNotations.
Local Open Scope N_scope.

Section Objects.
  Context {X : Ext}.

  (** ** Conversions *)
  Lemma stored_iff : forall v j, stored_as v j <-> value_to_json v = Ok j.
  Proof.
    assert (F : forall x j, json_of_f64 x = j <-> (if is_finite x then j = JNum (JFlt x) else j = JNull)).
    { intros x j. unfold json_of_f64, jnum_of_f64. destruct (is_finite x); split; congruence. }
    assert (Ar : forall xs, Forall (fun v => forall j, stored_as v j <-> value_to_json v = Ok j) xs -> forall js, Forall2 stored_as xs js <-> mapM value_to_json xs = Ok js).
    { intros xs H js. rewrite mapM_ok. split; intros K; revert H; induction K as [|v j vs js Hv K IH]; intros H; inversion H as [|? ? H1 H2]; subst; constructor; try (now apply H1); now apply IH. }
    induction v as [x|vs IH|b|s| |x|t|s] using value_ind'; intros j; cbn [value_to_json].
    - split; intros H.
      + f_equal. apply F. inversion H as [? E|? E| | | | | | | | |]; subst; now rewrite E.
      + injection H as H. apply F in H. destruct (is_finite x) eqn:E; subst; now constructor.
    - split.
      + intros H. inversion H as [| | | | | | | | |? js K|]; subst. apply Ar in K; [|assumption]. now rewrite K.
      + intros E. destruct (mapM value_to_json vs) as [js| |] eqn:K; try discriminate. cbn [bind] in E. injection E as <-. constructor. now apply Ar.
    - split; intros H; inversion H; subst; constructor.
    - split; intros H; inversion H; subst; constructor.
    - split; intros H; inversion H; subst; constructor.
    - split; intros H.
      + f_equal. apply F. inversion H as [| |? E|? E| | | | | | |]; subst; now rewrite E.
      + injection H as H. apply F in H. destruct (is_finite x) eqn:E; subst; now constructor.
    - unfold json_of_i64. destruct (Z.leb_spec 0 t); split; intros H'; inversion H'; subst; try lia; try reflexivity; now constructor.
    - unfold parse_json, ok_or. split; intros H.
      + inversion H as [| | | | | | | | | |? ? E]; subst. now rewrite E.
      + destruct (json_parse s) eqn:E; [|discriminate]. injection H as <-. now constructor.
  Qed.
  Lemma stands_iff : forall j v, stands_for j v <-> json_to_value j = v.
  Proof.
    induction j as [|b|n|s|js IH|kvs IH] using json_ind'; intros v; cbn [json_to_value].
    - split; [now inversion 1|intros <-; constructor].
    - split; [now inversion 1|intros <-; constructor].
    - destruct n; split; (now inversion 1) || (intros <-; constructor).
    - split; [now inversion 1|intros <-; constructor].
    - split.
      + intros H. inversion H as [| | | | | |? vs K|]; subst. f_equal. clear H. induction K; [reflexivity|]. inversion IH as [|? ? H1 H2]; subst. cbn [map]. f_equal; [now apply H1|now apply IHK].
      + intros <-. constructor. induction IH as [|? ? H1 H2 IH]; constructor; [now apply H1|assumption].
    - split; [now inversion 1|intros <-; constructor].
  Qed.

  (** ** Sorted maps *)
  Definition keys {V} (m : list (str * V)) := map fst m.
  Lemma str_cmp_gt : forall a b, str_cmp a b = Gt -> str_cmp b a = Lt.
  Proof. intros a b H. rewrite str_cmp_antisym, H. reflexivity. Qed.
  Lemma binsert_keys : forall V k (v : V) m x, In x (map fst (binsert k v m)) <-> x = k \/ In x (map fst m).
  Proof.
    intros V k v m x. induction m as [|[k' v'] m IH]; cbn [binsert map fst In]; [intuition|].
    destruct (str_cmp k k') eqn:E; cbn [map fst In]; [|intuition|rewrite IH; intuition].
    apply str_cmp_eq in E as ->. intuition.
  Qed.
  Lemma binsert_order : forall V k (v : V) m, in_key_order (map fst m) -> in_key_order (map fst (binsert k v m)).
  Proof.
    intros V k v m. induction m as [|[k' v'] m IH]; intros H; cbn [binsert map fst]; [repeat constructor|].
    cbn [map fst] in H. inversion H as [|? ? H1 H2]; subst. destruct (str_cmp k k') eqn:E; cbn [map fst].
    - apply str_cmp_eq in E as ->. exact H.
    - constructor; [assumption|]. constructor; [assumption|]. eapply Forall_impl; [|exact H2]. intros a. now apply str_cmp_lt_trans.
    - constructor; [now apply IH|]. rewrite Forall_forall in *. intros x Hx. apply binsert_keys in Hx as [->|Hx]; [now apply str_cmp_gt|now apply H2].
  Qed.
  Lemma mget_binsert : forall V k (v : V) m j, in_key_order (map fst m) -> mget j (binsert k v m) = if str_eqb j k then Some v else mget j m.
  Proof.
    intros V k v m j. induction m as [|[k' v'] m IH]; intros H; cbn [binsert mget]; [reflexivity|].
    cbn [map fst] in H. inversion H as [|? ? H1 H2]; subst. destruct (str_cmp k k') eqn:E; cbn [mget].
    - apply str_cmp_eq in E as ->. now destruct (str_eqb j k').
    - destruct (str_eqb j k); reflexivity.
    - rewrite IH by assumption. destruct (str_eqb j k') eqn:E1; [|reflexivity]. apply str_eqb_eq in E1 as ->.
      destruct (str_eqb k' k) eqn:E2; [|reflexivity]. apply str_eqb_eq in E2 as ->. rewrite str_cmp_refl in E. discriminate.
  Qed.
  Lemma order_nodup : forall ks, in_key_order ks -> NoDup ks.
  Proof.
    induction 1 as [|k ks H IH F]; constructor; [|assumption]. intros I. rewrite Forall_forall in F. apply F in I. rewrite str_cmp_refl in I. discriminate.
  Qed.
  Lemma nodup_last : forall V (kvs : list (str * V)) k v, NoDup (map fst kvs) -> last_value kvs k v <-> mget k kvs = Some v.
  Proof.
    intros V kvs k v. induction kvs as [|[k' v'] kvs IH]; intros Nd; cbn [mget].
    - split; [intros ([|] & ? & E & _); discriminate|discriminate].
    - cbn [map fst] in Nd. inversion Nd as [|? ? N1 N2]; subst. destruct (str_eqb k k') eqn:E.
      + apply str_eqb_eq in E as <-. split.
        * intros ([|[? ?] before] & after & E & N3); cbn [app] in E; injection E as <- E; [congruence|subst kvs]. exfalso. intros. apply N1. rewrite map_app. apply in_or_app. right. now left.
        * intros H. injection H as <-. exists [], kvs. now split.
      + apply str_eqb_neq in E. rewrite <- IH by assumption. split.
        * intros ([|[? ?] before] & after & E' & N3); cbn [app] in E'; injection E' as -> E'; [congruence|]. exists before, after. now split.
        * intros (before & after & -> & N3). exists ((k', v') :: before), after. now split.
  Qed.
  Lemma last_app : forall V (kvs : list (str * V)) k v j x, last_value (kvs ++ [(k, v)]) j x <-> (if str_eqb j k then x = v else last_value kvs j x).
  Proof.
    intros V kvs k v j x. destruct (str_eqb j k) eqn:E.
    - apply str_eqb_eq in E as ->. split.
      + intros (before & after & E & Nk). destruct after as [|p after] using rev_ind.
        * apply app_inj_tail in E as [_ E]. congruence.
        * clear IHafter. rewrite app_comm_cons, app_assoc in E. apply app_inj_tail in E as [_ <-]. exfalso. apply Nk. rewrite map_app. apply in_or_app. right. now left.
      + intros ->. exists kvs, []. now split.
    - apply str_eqb_neq in E. split.
      + intros (before & after & E' & Nk). destruct after as [|p after] using rev_ind.
        * apply app_inj_tail in E' as [_ E']. congruence.
        * clear IHafter. rewrite app_comm_cons, app_assoc in E'. apply app_inj_tail in E' as [-> <-]. exists before, after. split; [reflexivity|]. intros I. apply Nk. rewrite map_app. apply in_or_app. now left.
      + intros (before & after & -> & Nk). exists before, (after ++ [(k, v)]). split; [now rewrite <- app_assoc|]. rewrite map_app. intros I. apply in_app_or in I as [I|[I|[]]]; [now apply Nk|]. now apply E.
  Qed.
  Lemma last_none : forall V (kvs : list (str * V)) k, ~ In k (map fst kvs) -> forall v, ~ last_value kvs k v.
  Proof. intros V kvs k H v (b & a & -> & _). apply H. rewrite map_app. apply in_or_app. right. now left. Qed.
  Lemma last_some : forall V (kvs : list (str * V)) k, In k (map fst kvs) -> exists v, last_value kvs k v.
  Proof.
    intros V kvs k. induction kvs as [|[k' v'] kvs IH] using rev_ind; [contradiction|]. intros H. destruct (str_eqb k k') eqn:E.
    - exists v'. apply last_app. now rewrite E.
    - destruct IH as [v Hv]. { rewrite map_app in H. apply in_app_or in H as [H|[H|[]]]; [assumption|]. cbn in H. subst. rewrite str_eqb_refl in E. discriminate. }
      exists v. apply last_app. now rewrite E.
  Qed.

  (** ** Object literals *)
  Definition built (acc js : list (str * json)) : list (str * json) := fold_left (fun m kv => binsert (fst kv) (snd kv) m) js acc.
  Lemma built_spec : forall js, in_key_order (map fst (built [] js)) /\ (forall k j, mget k (built [] js) = Some j <-> last_value js k j)
    /\ (forall P : json -> Prop, Forall (fun q => P (snd q)) js -> Forall (fun q => P (snd q)) (built [] js)).
  Proof.
    induction js as [|[k j] js (IH1 & IH2 & IH3)] using rev_ind.
    - split; [constructor|]. split; [|intros; constructor]. intros k j. cbn. split; [discriminate|]. intros ([|] & ? & ? & _); discriminate.
    - unfold built. rewrite fold_left_app. fold (built [] js). cbn [fold_left fst snd]. split; [now apply binsert_order|]. split.
      + intros k' j'. rewrite mget_binsert by assumption. rewrite last_app. destruct (str_eqb k' k); [split; congruence|apply IH2].
      + intros P H. apply Forall_app in H as [H1 H2]. apply IH3 in H1. inversion H2 as [|? ? H3 _]; subst. cbn [snd] in H3. clear - H1 H3.
        induction H1 as [|[k' j'] m H1 H2 IH]; cbn [binsert]; [now repeat constructor|]. destruct (str_cmp k k'); repeat (constructor; try assumption).
  Qed.
  Lemma build_pairs : forall c pairs js, stored_pairs c pairs js ->
    build_object (map (fun kv => (fst kv, eval (snd kv) c)) pairs) = Ok (VJson (json_print (JObj (built [] js)))).
  Proof.
    intros c pairs js H. unfold build_object.
    assert (G : forall acc, foldM (fun acc kv => v <- snd kv ;; j <- value_to_json v ;; Ok (binsert (fst kv) j acc)) (map (fun kv => (fst kv, eval (snd kv) c)) pairs) acc = Ok (built acc js)).
    { induction H as [|p q pairs js (E & v & Hv & Hs) H IH]; intros acc; [reflexivity|]. cbn [map foldM fst snd]. rewrite Hv. cbn [bind]. apply stored_iff in Hs. rewrite Hs. cbn [bind].
      rewrite IH. unfold built. cbn [fold_left]. now rewrite E. }
    rewrite G. reflexivity.
  Qed.
  Lemma nesting_object : forall kvs n, Forall (fun q => (nesting (snd q) <= n)%nat) kvs -> (nesting (JObj kvs) <= S n)%nat.
  Proof.
    intros kvs n H. cbn [nesting]. apply le_n_S. apply list_max_le. rewrite Forall_map. exact H.
  Qed.
  Lemma object_literal : forall c pairs js, stored_pairs c pairs js -> Forall (fun q => document (snd q) /\ (nesting (snd q) <= 126)%nat) js ->
    exists s kvs, eval (EObjectLiteral pairs) c = Ok (VJson s) /\ json_parse s = Some (JObj kvs) /\ in_key_order (map fst kvs)
      /\ forall k j, In (k, j) kvs <-> last_value js k j.
  Proof.
    intros c pairs js H D. destruct (built_spec js) as (B1 & B2 & B3). exists (json_print (JObj (built [] js))), (built [] js).
    split; [exact (build_pairs c pairs js H)|]. split.
    - apply round_trip.
      + constructor; [assumption|]. apply B3. eapply Forall_impl; [|exact D]. now intros q [Q _].
      + apply nesting_object, (B3 (fun j => (nesting j <= 126)%nat)). eapply Forall_impl; [|exact D]. now intros q [_ Q].
    - split; [assumption|]. intros k j. rewrite <- B2. pose proof (order_nodup _ B1) as Nd. split.
      + intros I. apply in_split in I as (a & b & E). apply nodup_last; [assumption|]. exists a, b. split; [assumption|]. rewrite E, map_app in Nd. apply NoDup_remove_2 in Nd. intros I. apply Nd. apply in_or_app. now right.
      + intros G. apply nodup_last in G as (a & b & E & _); [|assumption]. rewrite E. apply in_or_app. right. now left.
  Qed.
  Lemma access : forall c pairs js k safe, stored_pairs c pairs js -> Forall (fun q => document (snd q) /\ (nesting (snd q) <= 126)%nat) js ->
    eval (if safe : bool then ESafePropertyAccess (EObjectLiteral pairs) k else EPropertyAccess (EObjectLiteral pairs) k) c =
    match mget k (built [] js) with Some j => Ok (json_to_value j) | None => if safe then Ok VNull else Err (mkErr (lit "Property '" ++ k ++ lit "' not found in JSON object") None) end.
  Proof.
    intros c pairs js k safe H D. destruct (built_spec js) as (B1 & B2 & B3).
    assert (R : json_parse (json_print (JObj (built [] js))) = Some (JObj (built [] js))).
    { apply round_trip.
      + constructor; [assumption|]. apply B3. eapply Forall_impl; [|exact D]. now intros q [Q _].
      + apply nesting_object, (B3 (fun j => (nesting j <= 126)%nat)). eapply Forall_impl; [|exact D]. now intros q [_ Q]. }
    destruct safe; cbn [eval]; rewrite (build_pairs c pairs js H); cbn [bind property]; unfold parse_json; rewrite R; reflexivity.
  Qed.
  Lemma property_present : forall c pairs js k j v, stored_pairs c pairs js -> Forall (fun q => document (snd q) /\ (nesting (snd q) <= 126)%nat) js ->
    last_value js k j -> stands_for j v ->
    eval (EPropertyAccess (EObjectLiteral pairs) k) c = Ok v /\ eval (ESafePropertyAccess (EObjectLiteral pairs) k) c = Ok v.
  Proof.
    intros c pairs js k j v H D L S. apply stands_iff in S. apply built_spec in L.
    pose proof (access c pairs js k false H D) as A. pose proof (access c pairs js k true H D) as B. rewrite L, S in A, B. now split.
  Qed.
  Lemma property_absent : forall c pairs js k, stored_pairs c pairs js -> Forall (fun q => document (snd q) /\ (nesting (snd q) <= 126)%nat) js ->
    ~ In k (map fst pairs) ->
    (exists e, eval (EPropertyAccess (EObjectLiteral pairs) k) c = Err e) /\ eval (ESafePropertyAccess (EObjectLiteral pairs) k) c = Ok VNull.
  Proof.
    intros c pairs js k H D Nk.
    assert (L : mget k (built [] js) = None).
    { destruct (mget k (built [] js)) as [j|] eqn:E; [|reflexivity]. apply built_spec in E. exfalso. revert E. apply last_none. intros I. apply Nk. revert I. clear - H.
      induction H as [|p q ps qs (E & _) H IH]; [contradiction|]. cbn [map]. rewrite E. intros [->|I]; [now left|right; now apply IH]. }
    pose proof (access c pairs js k false H D) as A. pose proof (access c pairs js k true H D) as B. rewrite L in A, B. split; [eexists; exact A|exact B].
  Qed.

  (** ** Values that come back *)
  Lemma decimal_length : forall n ds, decimal_text_of n ds -> n < 10 ^ 16 -> (length ds <= 16)%nat.
  Proof.
    intros n ds ([Nd Dd] & V & H) L. destruct ds as [|c r]; [congruence|]. cbn [hd] in H. destruct (N.eq_dec c 48) as [E|E]; [rewrite (H E); cbn; lia|].
    cbn [forallb] in Dd. apply andb_true_iff in Dd as [Dc _]. apply is_digit_range in Dc.
    change (c :: r) with ([c] ++ r) in V. rewrite digits_value_app in V. change (digits_value [c]) with (0 * 10 + (c - 48)) in V.
    assert (10 ^ N.of_nat (length r) < 10 ^ 16) by nia. apply N.pow_lt_mono_r_iff in H0; [|lia]. cbn [length]. lia.
  Qed.
  Lemma whole_plain : forall z, (Z.abs z <= 900719925474099)%Z -> plain_number (JFlt (f_of_Z z)).
  Proof.
    assert (B : (900719925474099 < 2 ^ 53)%Z) by reflexivity.
    assert (G : forall s p, (Zpos p <= 900719925474099)%Z -> short_text (json_float (S754_finite s (int_m p) (int_e p)))).
    { intros s p Hp. destruct (digits_of_int p ltac:(lia)) as (ds & j & D & [Nd Dd] & E). unfold json_float. rewrite D.
      assert (0 < length ds)%nat by (destruct ds; [congruence|cbn; lia]). pose proof (N_to_str_spec (Npos p)) as Sp.
      assert (Len : (length ds + j = length (N_to_str (Npos p)))%nat) by (now rewrite E, app_length, zeros_length).
      assert (L16 : (length (N_to_str (Npos p)) <= 16)%nat).
      { apply (decimal_length _ _ Sp). apply N.lt_le_trans with (Z.to_N (2 ^ 53)); [lia|]. vm_compute. discriminate. }
      replace ((-4 <=? Z.of_nat (length ds) + Z.of_nat j)%Z && (Z.of_nat (length ds) + Z.of_nat j <=? 16)%Z) with true by (symmetry; apply andb_true_iff; split; apply Z.leb_le; lia).
      unfold place_point. replace (Z.of_nat (length ds) + Z.of_nat j <=? 0)%Z with false by (symmetry; apply Z.leb_gt; lia).
      replace (Z.of_nat (length ds) <=? Z.of_nat (length ds) + Z.of_nat j)%Z with true by (symmetry; apply Z.leb_le; lia).
      replace (Z.to_nat (Z.of_nat (length ds) + Z.of_nat j - Z.of_nat (length ds))) with j by lia. rewrite <- E.
      exists (if s then lit "-" else []), s, (N_to_str (Npos p)), [48]. split; [destruct s; auto|]. split.
      - now rewrite (proj1 (proj2 Sp)).
      - split; [split; [discriminate|reflexivity]|]. split; [|split; [cbn; lia|destruct s; reflexivity]].
        rewrite digits_value_app, (proj1 (proj2 Sp)). change (digits_value [48]) with 0. change (10 ^ N.of_nat (length [48])) with 10.
        assert (2 ^ 53 = 9007199254740992)%N by reflexivity. lia. }
    intros z Hz. destruct (of_Z_exact z ltac:(lia)) as (Fz & Rz & _). constructor; [assumption|assumption|].
    change (short_text (json_float (f_of_Z z))). destruct z as [|p|p].
    - exists [], false, [48], [48]. repeat split; auto; cbn; try discriminate; lia.
    - rewrite f_of_Z_pos by lia. apply G. lia.
    - rewrite f_of_Z_neg by lia. apply G. lia.
  Qed.
  Lemma storable_stored : forall v, storable v -> exists j, stored_as v j /\ document j /\ nesting j = depth v /\ stands_for j v.
  Proof.
    induction v as [x|vs IH|b|s| |x|t|s] using value_ind'; intros H; inversion H as [| | |z Hz|? Hv]; subst.
    - exists (JNum (JFlt (f_of_Z z))). destruct (of_Z_exact z ltac:(lia)) as (Fz & _ & _). split; [now constructor|]. split; [constructor; now apply whole_plain|]. split; [reflexivity|constructor].
    - assert (G : exists js, Forall2 stored_as vs js /\ Forall document js /\ map nesting js = map depth vs /\ Forall2 stands_for js vs).
      { clear H. induction IH as [|v vs H1 H2 IH]; [exists []; repeat split; constructor|]. inversion Hv; subst. destruct H1 as (j & J1 & J2 & J3 & J4); [assumption|].
        destruct IH as (js & K1 & K2 & K3 & K4); [assumption|]. exists (j :: js). cbn [map]. rewrite J3, K3. repeat split; constructor; assumption. }
      destruct G as (js & G1 & G2 & G3 & G4). exists (JArr js). cbn [nesting depth]. rewrite G3. repeat split; constructor; assumption.
    - exists (JBool b). repeat split; constructor.
    - exists (JStr s). repeat split; constructor.
    - exists JNull. repeat split; constructor.
  Qed.
  Lemma last_combine : forall A B C (R : B -> C -> Prop) (f : A -> str) ps (qs : list (str * C)) vs k v,
    Forall2 (fun p q => fst q = f p) ps qs -> Forall2 (fun v q => R v (snd q)) vs qs -> last_value (combine (map f ps) vs) k v -> exists q, last_value qs k q /\ R v q.
  Proof.
    intros A B C R f ps qs vs k v H1 H2 (before & after & E & Nk). revert vs H2 before E. induction H1 as [|p q ps qs E1 H1 IH]; intros vs H2 before E.
    - inversion H2; subst. destruct before; discriminate.
    - inversion H2 as [|w ? vs' ? Hw H2']; subst. cbn [map combine] in E. destruct before as [|b before]; cbn [app] in E.
      + injection E as <- <- E'. exists (snd q). split; [|assumption]. exists [], qs. split; [destruct q; cbn [app fst snd] in *; now subst|]. clear - Nk E' H1 H2'. subst after.
        intros I. apply Nk. clear Nk. revert vs' H2'. induction H1 as [|p' q' ps qs E2 H1 IH]; intros vs H2; [contradiction|]. inversion H2; subst. cbn [map combine In fst] in *.
        rewrite E2 in I. destruct I as [I|I]; [now left|right; now apply IH].
      + injection E as _ E'. destruct (IH vs' H2' before E') as (r & (b1 & a1 & -> & N1) & Hr). exists r. split; [|assumption]. exists (q :: b1), a1. now split.
  Qed.
  Lemma reads_back_property : forall c pairs vs k v, evaluate_to c (map snd pairs) vs -> Forall storable vs -> Forall (fun v => (depth v <= 126)%nat) vs ->
    last_value (combine (map fst pairs) vs) k v ->
    eval (EPropertyAccess (EObjectLiteral pairs) k) c = Ok v.
  Proof.
    intros c pairs vs k v Ev St Dp L.
    assert (G : exists js, stored_pairs c pairs js /\ Forall (fun q => document (snd q) /\ (nesting (snd q) <= 126)%nat) js
      /\ Forall2 (fun p q => fst q = fst p) pairs js /\ Forall2 (fun v q => stands_for (snd q) v) vs js).
    { clear L. revert pairs Ev. induction St as [|w vs Hw St IH]; intros [|[k1 e] pairs] Ev; inversion Ev as [|? ? ? ? E1 E2]; subst; [exists []; repeat split; constructor|].
      inversion Dp as [|? ? D1 D2]; subst. destruct (IH D2 pairs E2) as (js & J1 & J2 & J3 & J4). destruct (storable_stored w Hw) as (j & S1 & S2 & S3 & S4).
      exists ((k1, j) :: js). repeat split; constructor; cbn [fst snd]; try assumption; try reflexivity; [split; [reflexivity|exists w; now split]|split; [assumption|lia]]. }
    destruct G as (js & G1 & G2 & G3 & G4). destruct (last_combine _ _ _ (fun v j => stands_for j v) fst pairs js vs k v G3 G4 L) as (j & Lj & Sj).
    now apply (property_present c pairs js k j v).
  Qed.

  (** ** Parsed objects have each key once, in order *)
  Inductive keyed : json -> Prop :=
  | keyed_atom : forall j, match j with JArr _ | JObj _ => False | _ => True end -> keyed j
  | keyed_arr : forall xs, Forall keyed xs -> keyed (JArr xs)
  | keyed_obj : forall kvs, in_key_order (map fst kvs) -> Forall (fun kv => keyed (snd kv)) kvs -> keyed (JObj kvs).
  Lemma elems_from : forall (P : json -> Prop) (rec : str -> option (json * str)), (forall s v r, rec s = Some (v, r) -> P v) ->
    forall fuel first s vs r, read_elems rec fuel first s = Some (vs, r) -> Forall P vs.
  Proof.
    intros P rec HP. induction fuel as [|f IH]; intros first s vs r H; [discriminate|]. cbn [read_elems] in H. cbv zeta in H.
    assert (El : forall s1, match rec s1 with Some (v, r1) => match read_elems rec f false r1 with Some (vs, r2) => Some (v :: vs, r2) | None => None end | None => None end = Some (vs, r) -> Forall P vs).
    { intros s1 K. destruct (rec s1) as [[v r1]|] eqn:E1; [|discriminate]. destruct (read_elems rec f false r1) as [[vs1 r2]|] eqn:E2; [|discriminate]. injection K as <- <-. constructor; [now apply (HP s1 v r1)|now apply (IH false r1 vs1 r2)]. }
    repeat match type of H with context [match ?x with _ => _ end] => match x with rec _ => fail 1 | _ => destruct x; try discriminate; try (now apply El in H) end end.
    all: try (injection H as <- <-; constructor).
  Qed.
  Definition next_member (rec : str -> option (json * str)) (f : nat) (acc : list (str * json)) (s1 : str) : option (list (str * json) * str) :=
    match s1 with
    | 34 :: r =>
        match read_string (S (length r)) r with
        | Some (k, r1) =>
            match skip_ws r1 with
            | 58 :: r2 => match rec r2 with Some (v, r3) => read_members rec f false (binsert k v acc) r3 | None => None end
            | _ => None
            end
        | None => None
        end
    | _ => None
    end.
  Lemma members_step : forall rec f first acc s, read_members rec (S f) first acc s =
    match skip_ws s with
    | 125 :: r => Some (acc, r)
    | 44 :: r => if first then None else next_member rec f acc (skip_ws r)
    | s1 => if first then next_member rec f acc s1 else None
    end.
  Proof. reflexivity. Qed.
  Lemma at_58 : forall A (g : str -> option A) s o, match s with 58 :: r => g r | _ => None end = Some o -> exists r, g r = Some o.
  Proof. intros A g [|c r] o H; [discriminate|]. exists r. destruct c as [|c]; [discriminate|]. repeat (destruct c as [c|c|]; try discriminate; try assumption). Qed.
  Lemma at_34 : forall A (g : str -> option A) s o, match s with 34 :: r => g r | _ => None end = Some o -> exists r, g r = Some o.
  Proof. intros A g [|c r] o H; [discriminate|]. exists r. destruct c as [|c]; [discriminate|]. repeat (destruct c as [c|c|]; try discriminate; try assumption). Qed.
  Lemma at_ends : forall A (g h : str -> option A) (k : str -> option A) s o, match skip_ws s with 125 :: r => g r | 44 :: r => h r | s1 => k s1 end = Some o -> (exists r, g r = Some o) \/ (exists r, h r = Some o) \/ exists r, k r = Some o.
  Proof. intros A g h k s o H. destruct (skip_ws s) as [|c r]; [right; right; now exists []|]. destruct c as [|c]; [right; right; eexists; eassumption|]. repeat (destruct c as [c|c|]; try (left; exists r; assumption); try (right; left; exists r; assumption); try (right; right; eexists; eassumption)). Qed.
  Lemma members_from : forall (P : json -> Prop) (rec : str -> option (json * str)), (forall s v r, rec s = Some (v, r) -> P v) ->
    forall fuel first acc s kvs r, in_key_order (map fst acc) -> Forall (fun kv => P (snd kv)) acc -> read_members rec fuel first acc s = Some (kvs, r) ->
    in_key_order (map fst kvs) /\ Forall (fun kv => P (snd kv)) kvs.
  Proof.
    intros P rec HP. induction fuel as [|f IH]; intros first acc s kvs r O F H; [discriminate|]. rewrite members_step in H.
    assert (M : forall s1, next_member rec f acc s1 = Some (kvs, r) -> in_key_order (map fst kvs) /\ Forall (fun kv => P (snd kv)) kvs).
    { intros s1 K. unfold next_member in K. apply at_34 in K as (t & K). destruct (read_string (S (length t)) t) as [[k r1]|]; [|discriminate].
      apply at_58 in K as (r2 & K). destruct (rec r2) as [[v r3]|] eqn:E1; [|discriminate]. apply IH in K; [assumption|now apply binsert_order|].
      apply HP in E1. clear - F E1. induction F as [|[k' j'] m H1 H2 IH]; cbn [binsert]; [now repeat constructor|]. destruct (str_cmp k k'); repeat (constructor; try assumption). }
    apply (at_ends _ (fun r => Some (acc, r)) (fun r => if first then None else next_member rec f acc (skip_ws r)) (fun s1 => if first then next_member rec f acc s1 else None)) in H as [(t & H)|[(t & H)|(t & H)]].
    - injection H as <- <-. now split.
    - destruct first; [discriminate|]. now apply M in H.
    - destruct first; [|discriminate]. now apply M in H.
  Qed.
  Lemma value_keyed : forall d s j r, read_value d s = Some (j, r) -> keyed j.
  Proof.
    induction d as [|d IH]; intros s j r H; [discriminate|]. cbn [read_value] in H. destruct (skip_ws s) as [|c t]; [discriminate|].
    assert (Nm : forall o, num_result o = Some (j, r) -> keyed j). { intros [[n r']|] E; [|discriminate]. injection E as <- <-. now constructor. }
    destruct (c =? 34). { destruct (read_string _ t) as [[u r']|]; [|discriminate]. injection H as <- <-. now constructor. }
    destruct (c =? 91). { destruct d; [discriminate|]. destruct (read_elems _ _ _ t) as [[vs r']|] eqn:E; [|discriminate]. injection H as <- <-. apply keyed_arr. revert E. apply elems_from. exact IH. }
    destruct (c =? 123). { destruct d; [discriminate|]. destruct (read_members _ _ _ _ t) as [[vs r']|] eqn:E; [|discriminate]. injection H as <- <-. apply (members_from keyed) in E as [E1 E2]; [now apply keyed_obj|exact IH|constructor|constructor]. }
    destruct (c =? 45); [now apply Nm in H|]. destruct (is_digit c); [now apply Nm in H|].
    destruct (strip_prefix (lit "true") (c :: t)); [injection H as <- <-; now constructor|]. destruct (strip_prefix (lit "false") (c :: t)); [injection H as <- <-; now constructor|].
    destruct (strip_prefix (lit "null") (c :: t)); [injection H as <- <-; now constructor|discriminate].
  Qed.
  Lemma parse_with : forall d s j, match read_value d s with Some (v, r) => match skip_ws r with [] => Some v | _ => None end | None => None end = Some j -> keyed j.
  Proof.
    intros d s j H. destruct (read_value d s) as [[v r]|] eqn:E; [|discriminate]. destruct (skip_ws r); [|discriminate]. injection H as <-. exact (value_keyed d s v r E).
  Qed.
  Lemma parse_keyed : forall s j, json_parse s = Some j -> keyed j.
  Proof. intros s j. exact (parse_with json_depth s j). Qed.

  (** ** DIG *)
    Lemma floor_whole : forall z, (Z.abs z < 2 ^ 53)%Z -> f_floor (f_of_Z z) = f_of_Z z.
  Proof.
    assert (G : forall s p, (Zpos p < 2 ^ 53)%Z -> f_of_Z (signed s p) = S754_finite s (int_m p) (int_e p) -> f_floor (S754_finite s (int_m p) (int_e p)) = S754_finite s (int_m p) (int_e p)).
    { intros s p H E. unfold f_floor. destruct (Z.leb_spec 0 (int_e p)); [reflexivity|]. pose proof (int_m_val p H) as V.
      assert (D : (signed s (int_m p) / 2 ^ (- int_e p) = signed s p)%Z).
      { assert (P : (0 < 2 ^ (- int_e p))%Z) by (apply Z.pow_pos_nonneg; lia). unfold signed. destruct s; rewrite ?Pos2Z.opp_pos, ?V; [|now apply Z.div_mul; lia].
        rewrite <- (Z.div_mul (Zneg p) (2 ^ (- int_e p))) by lia. f_equal. rewrite <- !Pos2Z.opp_pos. rewrite V. ring. }
      rewrite D. unfold f_of_Z_signed. destruct s; exact E. }
    intros [|p|p] H; [reflexivity| |].
    - rewrite f_of_Z_pos by lia. apply G; [lia|]. now apply f_of_Z_pos.
    - rewrite f_of_Z_neg by lia. apply G; [lia|]. now apply f_of_Z_neg.
  Qed.
  Lemma dig_index_whole : forall z, (Z.abs z < 2 ^ 53)%Z -> dig_index (f_of_Z z) = z.
  Proof.
    intros z H. unfold dig_index. rewrite f_of_Z_finite by assumption. rewrite floor_whole by assumption. unfold f_to_isize, f_to_i64. rewrite to_int_exact by assumption. unfold i64_min, i64_max. lia.
  Qed.
  Lemma of_Z_inj : forall a b, (Z.abs a < 2 ^ 53)%Z -> (Z.abs b < 2 ^ 53)%Z -> f_of_Z a = f_of_Z b -> a = b.
  Proof. intros a b Ha Hb E. rewrite <- (dig_index_whole a), <- (dig_index_whole b) by assumption. now rewrite E. Qed.
  Lemma dig_spec : forall path j j', keyed j -> Forall good_segment path -> dig_path j path = Some j' <-> path_to j path j'.
  Proof.
    induction path as [|seg path IH]; intros j j' K G; cbn [dig_path].
    - split; [intros E; injection E as <-; constructor|now inversion 1].
    - inversion G as [|? ? G1 G2]; subst.
      assert (Cs : (exists k, seg = VString k) \/ (exists z, (Z.abs z < 2 ^ 53)%Z /\ seg = num z) \/ forall j, dig_step j seg = None /\ forall j', ~ path_to j (seg :: path) j').
      { destruct seg as [x|xs|b|t| |x|t|t]; try (right; right; intros j0; split; [reflexivity|intros ? Q; now inversion Q]); [|left; now exists t].
        right; left. destruct (G1 x eq_refl) as (z & Hz & ->). now exists z. }
      destruct Cs as [[k ->]|[(z & Hz & ->)|Cs]]; [| |destruct (Cs j) as [-> C]; split; [discriminate|intros Q; now apply C in Q]]; cbn [dig_step num].
      + split.
        * intros H. destruct j as [| | | | |kvs]; try discriminate. destruct (mget k kvs) as [x|] eqn:E; [|discriminate]. inversion K as [? A| |? O F]; subst; [contradiction|].
          apply nodup_last in E; [|now apply order_nodup]. apply (path_key kvs k x); [assumption|]. apply IH; [|assumption|assumption]. destruct E as (b & a & -> & _). apply Forall_app in F as [_ F]. now inversion F.
        * intros H. inversion H as [|kvs ? x ? ? L H'|]; subst. inversion K as [? A| |? O F]; subst; [contradiction|]. pose proof L as L'. apply nodup_last in L; [|now apply order_nodup]. rewrite L. apply IH; [|assumption|assumption].
          destruct L' as (b & a & -> & _). apply Forall_app in F as [_ F]. now inversion F.
      + split.
        * intros H. destruct j as [| | | |xs|]; try discriminate. rewrite dig_index_whole in H by assumption. destruct (Z.leb_spec 0 z) as [L|L]; [|discriminate]. cbn [andb] in H.
          destruct (Z.ltb_spec z (zlen xs)); [|discriminate]. unfold znth in H. destruct (nth_error xs (Z.to_nat z)) as [x|] eqn:E; [|discriminate]. rewrite <- (Z2Nat.id z) by assumption.
          apply (path_index xs _ x); [lia|assumption|]. apply IH; [|assumption|assumption]. inversion K as [? A|? F|]; subst; [contradiction|]. rewrite Forall_forall in F. apply F. now apply nth_error_In in E.
        * intros H. inversion H as [| |xs i x ? ? Li E H' Ej Ei]; subst. 
          assert (z = Z.of_nat i) as ->.
          { apply of_Z_inj; [assumption|lia|now symmetry]. }
          rewrite dig_index_whole by assumption. pose proof (nth_error_Some xs i) as Q. rewrite E in Q. assert (i < length xs)%nat by (apply Q; discriminate). unfold zlen, znth.
          replace (0 <=? Z.of_nat i)%Z with true by (symmetry; apply Z.leb_le; lia). replace (Z.of_nat i <? Z.of_nat (length xs))%Z with true by (symmetry; apply Z.ltb_lt; lia). cbn [andb]. rewrite Nat2Z.id, E.
          apply IH; [|assumption|assumption]. inversion K as [? A|? F|]; subst; [contradiction|]. rewrite Forall_forall in F. apply F. now apply nth_error_In in E.
  Qed.
  Lemma dig_found : forall c e p more s j path ds j' v, uncustomised c "DIG" -> eval e c = Ok (VJson s) -> json_parse s = Some j -> eval p c = Ok (VArray path) -> evaluate_to c more ds ->
    Forall good_segment path -> path_to j path j' -> stands_for j' v -> eval (call "DIG" (e :: p :: more)) c = Ok v.
  Proof.
    intros c e p more s j path ds j' v U He Hj Hp Hm G P S. assert (Ev : evaluate_to c (e :: p :: more) (VJson s :: VArray path :: ds)) by (constructor; [assumption|constructor; assumption]).
    run_builtin. change (fn_dig (VJson s :: VArray path :: ds) = Ok v). unfold fn_dig, parse_json. rewrite Hj. cbn [ok_or bind]. apply dig_spec in P; [|now apply parse_keyed in Hj|assumption]. rewrite P. apply stands_iff in S. now rewrite S.
  Qed.
  Lemma dig_missing : forall c e p more s j path ds, uncustomised c "DIG" -> eval e c = Ok (VJson s) -> json_parse s = Some j -> eval p c = Ok (VArray path) -> evaluate_to c more ds ->
    Forall good_segment path -> (forall j', ~ path_to j path j') -> eval (call "DIG" (e :: p :: more)) c = Ok (hd VNull ds).
  Proof.
    intros c e p more s j path ds U He Hj Hp Hm G P. assert (Ev : evaluate_to c (e :: p :: more) (VJson s :: VArray path :: ds)) by (constructor; [assumption|constructor; assumption]).
    run_builtin. change (fn_dig (VJson s :: VArray path :: ds) = Ok (hd VNull ds)). unfold fn_dig, parse_json. rewrite Hj. cbn [ok_or bind].
    destruct (dig_path j path) as [j'|] eqn:E; [|destruct ds; reflexivity]. apply dig_spec in E; [|now apply parse_keyed in Hj|assumption]. now apply P in E.
  Qed.

  (** ** JSON variables *)
  Lemma sanitised_iff : forall k name, sanitised k name <-> sanitize_json_key k = name.
  Proof.
    assert (C : forall c d, (if is_alphanumeric c then d = c else d = 95) <-> (if is_alphanumeric c || (c =? 95) then c else 95) = d).
    { intros c d. destruct (is_alphanumeric c); cbn [orb]; [split; congruence|]. destruct (N.eqb_spec c 95); split; congruence. }
    induction k as [|c k IH]; intros name; unfold sanitised, sanitize_json_key in *; cbn [map].
    - split; [now inversion 1|intros <-; constructor].
    - split.
      + intros H. inversion H as [|? d ? ds H1 H2]; subst. f_equal; [now apply C|now apply IH].
      + intros <-. constructor; [now apply C|now apply IH].
  Qed.
  Lemma vars_lookup : forall kvs m name, mget name (fold_left (fun m kv => minsert (sanitize_json_key (fst kv)) (json_to_value (snd kv)) m) kvs m) =
    match find (fun kv => str_eqb name (sanitize_json_key (fst kv))) (rev kvs) with Some kv => Some (json_to_value (snd kv)) | None => mget name m end.
  Proof.
    intros kvs m name. induction kvs as [|kv kvs IH] using rev_ind; [reflexivity|]. rewrite fold_left_app, rev_app_distr. cbn [fold_left rev app find]. rewrite mget_minsert. destruct (str_eqb name (sanitize_json_key (fst kv))); [reflexivity|exact IH].
  Qed.
  Lemma json_variables : forall text kvs, json_parse text = Some (JObj kvs) ->
    in_key_order (map fst kvs) /\
    exists vars, (forall src, evaluate_with_json src text = evaluate_with src vars)
      /\ (forall reg src, evaluate_with_json_custom reg src text = evaluate_with_custom reg src vars)
      /\ (forall name before k j after v, kvs = before ++ (k, j) :: after -> sanitised k name -> (forall k', In k' (map fst after) -> ~ sanitised k' name) -> stands_for j v -> mget name vars = Some v)
      /\ (forall name, (forall k, In k (map fst kvs) -> ~ sanitised k name) -> name <> lit "arguments" -> mget name vars = None)
      /\ ((forall k, In k (map fst kvs) -> ~ sanitised k (lit "arguments")) -> mget (lit "arguments") vars = Some (VJson text)).
  Proof.
    intros text kvs H. split; [apply parse_keyed in H; inversion H; [contradiction|assumption]|].
    set (m0 := minsert (lit "arguments") (VJson text) []). set (vars := fold_left (fun m kv => minsert (sanitize_json_key (fst kv)) (json_to_value (snd kv)) m) kvs m0). exists vars.
    assert (E : json_vars text = Ok vars) by (unfold json_vars, parse_json; rewrite H; reflexivity).
    split; [intros src; unfold evaluate_with_json; now rewrite E|]. split; [intros reg src; unfold evaluate_with_json_custom; now rewrite E|].
    assert (Mi : forall name l, (forall k, In k (map fst l) -> ~ sanitised k name) -> find (fun kv : str * json => str_eqb name (sanitize_json_key (fst kv))) (rev l) = None).
    { intros name l K. destruct (find _ (rev l)) as [kv|] eqn:F; [|reflexivity]. apply find_some in F as [I F]. apply str_eqb_eq in F. exfalso. apply (K (fst kv)); [apply in_map; now apply in_rev|]. now apply sanitised_iff. }
    split; [|split].
    - intros name before k j after v -> Sk Na Sj. unfold vars. rewrite vars_lookup, rev_app_distr. cbn [rev]. rewrite <- app_assoc.
      assert (Fi : forall (f : str * json -> bool) l1 l2, find f l1 = None -> find f (l1 ++ l2) = find f l2). { intros f l1 l2. induction l1 as [|x l1 IH]; [reflexivity|]. cbn [find app]. destruct (f x); [discriminate|exact IH]. }
      rewrite Fi by now apply Mi. cbn [app find fst]. apply sanitised_iff in Sk. rewrite Sk, str_eqb_refl. cbn [snd]. apply stands_iff in Sj. now rewrite Sj.
    - intros name K Na. unfold vars. rewrite vars_lookup, Mi by assumption. unfold m0. rewrite mget_minsert_other by assumption. reflexivity.
    - intros K. unfold vars. rewrite vars_lookup, Mi by assumption. unfold m0. apply mget_minsert_same.
  Qed.
  Lemma json_not_object : forall text src, (forall kvs, json_parse text <> Some (JObj kvs)) -> exists e, evaluate_with_json src text = Err e.
  Proof.
    intros text src H. unfold evaluate_with_json, json_vars, parse_json. destruct (json_parse text) as [[| | | | |kvs]|]; try (eexists; reflexivity). now destruct (H kvs).
  Qed.
End Objects.
