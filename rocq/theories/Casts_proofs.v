(** What a cast gives, and the texts of values. *)
From Coq Require Import Floats.SpecFloat QArith Qabs.
From Coq Require Import String List ZArith NArith Bool Lia.
From Verif Require Import Base F64 F64Text Syntax Ext Json Cast Registry Core Arrays Dispatch Evaluator Spec Spec_syntax Spec_numbers Spec_text Spec_methods Spec_http
  Base_proofs Value_proofs Float_proofs Text_proofs Display_proofs Shortest_proofs Written_proofs Debug_proofs Cast_proofs Finance_proofs Method_value_proofs Shown_proofs Texts_proofs.
From Verif Require Import Spec Spec_text Spec_http Spec_shown Spec_casts.
Import ListNotations.
Local Open Scope Z_scope.

(** ** Numbers *)
Lemma display_written : forall x, representable x -> number_written x (f_display x).
Proof. intros [b|b| |s m e] R; [destruct b; constructor|destruct b; constructor|constructor|].
  assert (Nz : ~ (exact (S754_finite s m e) == 0)%Q). { unfold exact, Qeq. cbn [Qnum Qden]. rewrite Z.mul_0_l, Z.mul_1_r. assert (0 < 2 ^ Z.max e 0) by (apply Z.pow_pos_nonneg; lia). destruct s; nia. }
  destruct (display_shortest (S754_finite s m e) R eq_refl Nz) as (d & k & B & P). now apply (finite_written _ d k). Qed.
Lemma places_text : forall z, 0 <= z -> let ds := N_to_str (Z.to_N z) in let ds' := zeros (5 - length ds) ++ ds in let n := (length ds' - 4)%nat in
  decimal_text_of (Z.to_N (z / 10000)) (firstn n ds') /\ length (skipn n ds') = 4%nat /\ all_digits (skipn n ds') /\ Z.of_N (digits_value (skipn n ds')) = z mod 10000.
Proof.
  intros z Hz ds ds' n. destruct (N_to_str_spec (Z.to_N z)) as ((C0 & C1) & C2 & C3). fold ds in C0, C1, C2, C3. assert (Dg : forallb is_digit ds' = true) by (unfold ds'; rewrite forallb_app, zeros_digits; assumption).
  assert (V : digits_value ds' = Z.to_N z) by (unfold ds'; rewrite digits_value_app, zeros_value; lia). assert (Ln : (5 <= length ds')%nat) by (unfold ds'; rewrite app_length, zeros_length; lia).
  assert (Lb : length (skipn n ds') = 4%nat) by (rewrite skipn_length; unfold n; lia). assert (La : (1 <= length (firstn n ds'))%nat) by (rewrite firstn_length; unfold n; lia).
  assert (Cut : ds' = firstn n ds' ++ skipn n ds') by (symmetry; apply firstn_skipn). set (a := firstn n ds') in *. set (b := skipn n ds') in *. rewrite Cut in V, Dg. rewrite forallb_app in Dg. apply andb_true_iff in Dg as [Da Db]. rewrite digits_value_app, Lb in V. change (10 ^ N.of_nat 4)%N with 10000%N in V.
  assert (Bb : (digits_value b < 10000)%N). { pose proof (Method_value_proofs.digits_value_bound b Db) as K. rewrite Lb in K. exact K. }
  assert (Z1 : z / 10000 = Z.of_N (digits_value a)) by (symmetry; apply Z.div_unique with (Z.of_N (digits_value b)); lia). assert (Z2 : z mod 10000 = Z.of_N (digits_value b)) by (symmetry; apply Z.mod_unique with (Z.of_N (digits_value a)); lia).
  split; [|split; [assumption|split; [exact Db|now symmetry]]]. split; [split; [intros K; rewrite K in La; cbn in La; lia|assumption]|]. split; [rewrite Z1; lia|].
  intros H. destruct (Nat.leb_spec 5 (length ds)) as [L|L].
  - exfalso. assert (E : ds' = ds) by (unfold ds'; replace (5 - length ds)%nat with 0%nat by lia; reflexivity). assert (H2 : hd 0%N ds = 48%N). { rewrite <- E, Cut. destruct a; [cbn in La; lia|exact H]. } apply C3 in H2. rewrite H2 in L. cbn in L. lia.
  - assert (E : length ds' = 5%nat) by (unfold ds'; rewrite app_length, zeros_length; lia). assert (La' : length a = 1%nat) by (unfold a; rewrite firstn_length; unfold n; lia). destruct a as [|y [|? ?]]; cbn in La'; try lia. cbn [hd] in H. now rewrite H.
Qed.
Lemma fixed_written : forall x, amount_written x (f_fixed 4 x).
Proof.
  intros x. destruct (is_finite x) eqn:F; [|apply other_amount; [exact F|]; destruct x as [?|[]| |? ? ?]; try discriminate; constructor].
  assert (K : exists z, 0 <= z /\ nearest_whole (Qabs (exact x) * 10000) z /\ f_fixed 4 x = (let ds := N_to_str (Z.to_N z) in let ds' := zeros (5 - length ds) ++ ds in let n := (length ds' - 4)%nat in minus (sign_bit x) ++ firstn n ds' ++ lit "." ++ skipn n ds')).
  { destruct x as [s|s| |s m e]; try discriminate.
    - exists 0. split; [lia|]. split; [|destruct s; reflexivity]. unfold nearest_whole. assert (E : (Qabs (exact (S754_zero s)) * 10000 - inject_Z 0 == 0)%Q) by (cbn; reflexivity). rewrite E. split; [discriminate|]. intros K. discriminate.
    - destruct (scaled_value s m e 4 ltac:(lia)) as (n & d & D & N0 & S0 & V). exists (round_half_even (n / d) (n mod d) d). assert (0 <= n / d) by (apply Z.div_pos; lia). split.
      + unfold round_half_even. destruct (2 * (n mod d) <? d), (d <? 2 * (n mod d)), (Z.even (n / d)); lia.
      + split.
        * pose proof (half_even_nearest n d D) as (A & B). change (inject_Z (10 ^ 4)) with 10000%Q in V. split; [now rewrite V|]. intros K. apply B. now rewrite <- V.
        * unfold f_fixed. change (Z.of_nat 4) with 4. rewrite S0. destruct s; reflexivity. }
  destruct K as (z & Hz & Hn & E). destruct (places_text z Hz) as (A1 & A2 & A3 & A4). rewrite E. apply (finite_amount x z); assumption.
Qed.
Lemma i64_whole : forall x, whole_of x (f_to_i64 x).
Proof. intros x. rewrite to_i64_shape. destruct x as [s|[]| |s m e]; [| | | |].
  - rewrite trunc_truncated by reflexivity. now apply whole_finite.
  - apply whole_small.
  - apply whole_large.
  - apply whole_nan.
  - rewrite trunc_truncated by reflexivity. now apply whole_finite. Qed.

(** ** Values *)
Section Casts.
  Context {X : Ext}.
  Lemma plain_texts : forall v, doubles v -> (forall xs, v <> VArray xs) -> text_of v (cast_string v).
  Proof. intros [x|xs|b|s| |x|t|s] D Na; cbn [cast_string].
    - constructor. now apply display_written.
    - exfalso. exact (Na xs eq_refl).
    - destruct b; [apply (truth_text true)|apply (truth_text false)].
    - constructor.
    - constructor.
    - constructor. apply fixed_written.
    - constructor. now apply written_unique.
    - constructor. Qed.
  Lemma json_texts : forall v, doubles v -> json_of v (cast_json v).
  Proof. intros v. induction v as [x|xs IH|b|s| |x|t|s] using value_ind'; intros D; cbn [cast_json].
    - constructor. now apply display_written.
    - apply (array_json xs (map cast_json xs)); [|apply joined_iff]. cbn [doubles] in D. induction IH as [|y ys K _ IHl]; constructor; [apply K; apply D|apply IHl; apply D].
    - destruct b; [apply (truth_json true)|apply (truth_json false)].
    - constructor.
    - constructor.
    - constructor. now apply display_written.
    - constructor. now apply written_unique.
    - constructor. Qed.
  Lemma casts : forall e ty c v w, eval e c = Ok v -> doubles v -> (ty = TyInteger -> forall s, v <> VString s) -> eval (ETypeCast e ty) c = Ok w -> cast_as v ty w.
  Proof. intros e ty c v w Hv D Ni E. pose proof E as E0. rewrite eval_cast, Hv in E. cbn [bind] in E. destruct ty; cbn [cast_value] in E.
    - assert (B : forall b, f_of_bool b = f_of_Z (if b then 1 else 0)) by (intros []; reflexivity).
      destruct v as [x|xs|b|s| |x|t|s]; cbn [cast_integer] in E; try discriminate; try (injection E as <-).
      + apply (to_whole _ x); [constructor|apply i64_whole].
      + rewrite B. apply (to_whole _ (f_of_Z (if b then 1 else 0)) (if b then 1 else 0)); [constructor|]. destruct b; [exact (i64_whole (f_of_Z 1))|exact (i64_whole (f_of_Z 0))].
      + exfalso. exact (Ni eq_refl s eq_refl).
      + apply (to_whole _ (f_of_Z 0) 0); [constructor|exact (i64_whole (f_of_Z 0))].
      + apply (to_whole _ x); [constructor|apply i64_whole].
    - destruct v as [x|xs|b|s| |x|t|s]; cbn [cast_float] in E; try discriminate; try (injection E as <-).
      + repeat constructor.
      + apply to_number. destruct b; [apply (of_truth true)|apply (of_truth false)].
      + destruct (f_from_str s) as [y|] eqn:F; [|discriminate]. cbn in E. injection E as <-. apply read_number. now apply float_text_iff.
      + apply to_number. apply of_null.
      + repeat constructor.
    - injection E as <-. destruct v as [x|xs|b|s| |x|t|s]; try (apply to_text; apply plain_texts; [exact D|discriminate]).
      cbn [cast_string]. unfold values_debug. apply (array_to_text xs (map value_debug xs)); [|apply joined_iff]. apply doubles_array in D. clear - D. induction D as [|y ys Dy _ IH]; [constructor|]. constructor; [now apply debug_value|exact IH].
    - injection E as <-. apply to_truth. pose proof (cast_booleans e c v Hv) as B. rewrite eval_cast, Hv in B. cbn [bind cast_value] in B. unfold counts_false.
      assert (K : cast_boolean v = false <-> Ok (VBoolean (cast_boolean v)) = Ok (VBoolean false)) by (split; [now intros ->|intros K; now injection K]). rewrite K, B. clear.
      split; intros [K|[K|[K|[K|[(x & V & R)|K]]]]]; try tauto; right; right; right; right; left; exists x; (split; [exact V|now apply eqb_relation]).
    - injection E as <-. destruct v; try (apply into_array; discriminate). apply stays_array.
    - destruct v as [x|xs|b|s| |x|t|s]; cbn [cast_currency] in E; try discriminate; try (injection E as <-).
      + repeat constructor.
      + apply to_amount. destruct b; [apply (of_truth true)|apply (of_truth false)].
      + destruct (f_from_str s) as [y|] eqn:F; [|discriminate]. cbn in E. injection E as <-. apply read_amount. now apply float_text_iff.
      + apply to_amount. apply of_null.
      + repeat constructor.
    - destruct v as [x|xs|b|s| |x|t|s]; cbn [cast_datetime] in E; try discriminate; try (injection E as <-).
      + apply to_time, i64_whole.
      + destruct (i64_from_str s) as [y|] eqn:F; [|discriminate]. cbn in E. injection E as <-. apply read_time. now apply i64_iff.
      + constructor.
    - injection E as <-. apply to_json, json_texts, D. Qed.

  (** ** JOIN *)
  Lemma join_part_texts : forall v, join_part v = match v with VArray _ => Err (err "JOIN does not flatten nested arrays") | _ => Ok (cast_string v) end.
  Proof. now intros []. Qed.
  Lemma join_values : forall c es xs more, uncustomised c "JOIN" -> evaluate_to c es (VArray xs :: more) -> doubles (VArray xs) -> (forall ys, ~ In (VArray ys) xs) ->
    exists texts s, eval (call "JOIN" es) c = Ok (VString s) /\ Forall2 text_of xs texts /\ joined (separator more) texts s.
  Proof. intros c es xs more Hu He D Na. exists (map cast_string xs), (join (separator more) (map cast_string xs)). split.
    - run_builtin. change (fn_join (VArray xs :: more) = Ok (VString (join (separator more) (map cast_string xs)))). unfold fn_join.
      assert (M : mapM join_part xs = Ok (map cast_string xs)). { clear - X Na. induction xs as [|x xs IH]; [reflexivity|]. cbn [mapM map]. rewrite join_part_texts. destruct x; try (cbn [bind]; rewrite IH by (intros ys K; apply (Na ys); now right); reflexivity). exfalso. apply (Na xs0). now left. }
      rewrite M. cbn [bind]. destruct more as [|[] more]; reflexivity.
    - split; [|apply joined_iff]. apply doubles_array in D. clear - D Na. induction D as [|x xs Dx _ IH]; [constructor|]. constructor; [apply plain_texts; [exact Dx|intros ys ->; apply (Na ys); now left]|]. apply IH. intros ys K. apply (Na ys). now right. Qed.
  Lemma join_nested : forall c es xs more ys, uncustomised c "JOIN" -> evaluate_to c es (VArray xs :: more) -> In (VArray ys) xs -> fails (eval (call "JOIN" es) c).
  Proof. intros c es xs more ys Hu He I0. run_builtin. change (fails (fn_join (VArray xs :: more))). unfold fn_join.
    assert (M : exists er, mapM join_part xs = Err er). { clear - X I0. induction xs as [|x xs IH]; [contradiction|]. cbn [mapM]. rewrite join_part_texts. destruct I0 as [-> | I0]; [eexists; reflexivity|]. destruct x; try (eexists; reflexivity); destruct (IH I0) as [er ->]; eexists; reflexivity. }
    destruct M as [er ->]. eexists. reflexivity. Qed.

  (** ** The arguments of functions on arrays *)
  Lemma arrays_only : forall name c es vs, In name array_names -> uncustomised c name -> evaluate_to c es vs -> (forall xs more, vs <> VArray xs :: more) -> fails (eval (call name es) c).
  Proof. intros name c es vs I0 Hu He Na.
    repeat (destruct I0 as [<-|I0]; [run_builtin|]); [..|contradiction I0].
    - change (fails (fn_first vs)). destruct vs as [|[] more]; try (eexists; reflexivity). exfalso. eapply Na. reflexivity.
    - change (fails (fn_last vs)). destruct vs as [|[] more]; try (eexists; reflexivity). exfalso. eapply Na. reflexivity.
    - change (fails (fn_contains vs)). destruct vs as [|[] more]; try (eexists; reflexivity). exfalso. eapply Na. reflexivity.
    - change (fails (fn_unique vs)). destruct vs as [|[] more]; try (eexists; reflexivity). exfalso. eapply Na. reflexivity.
    - change (fails (fn_sort vs)). destruct vs as [|[] more]; try (eexists; reflexivity). exfalso. eapply Na. reflexivity.
    - change (fails (fn_reverse_array vs)). destruct vs as [|[] more]; try (eexists; reflexivity). exfalso. eapply Na. reflexivity.
    - change (fails (fn_join vs)). destruct vs as [|[] more]; try (eexists; reflexivity). exfalso. eapply Na. reflexivity. Qed.
  Lemma count_arguments : forall c es vs, uncustomised c "COUNT" -> evaluate_to c es vs ->
    (vs = [VNull] -> eval (call "COUNT" es) c = Ok (num 0)) /\ (vs <> [VNull] -> (forall xs, vs <> [VArray xs]) -> fails (eval (call "COUNT" es) c)).
  Proof. intros c es vs Hu He. split; [intros ->; run_builtin; reflexivity|]. intros N1 N2. run_builtin. change (fails (fn_count vs)). destruct vs as [|[] [|v more]]; try (eexists; reflexivity); exfalso; [eapply N2; reflexivity|now apply N1]. Qed.
  Lemma in_arguments : forall c es vs, uncustomised c "IN" -> evaluate_to c es vs -> (forall xs v, vs <> [VArray xs; v]) -> fails (eval (call "IN" es) c).
  Proof. intros c es vs Hu He Na. run_builtin. change (fails (fn_in vs)). destruct vs as [|[] [|v [|v' more]]]; try (eexists; reflexivity). exfalso. eapply Na. reflexivity. Qed.
  Lemma contains_nothing : forall c es xs, uncustomised c "CONTAINS" -> evaluate_to c es [VArray xs] -> decides (eval (call "CONTAINS" es) c) (In VNull xs).
  Proof. intros c es xs Hu He. run_builtin. exists (any_equal xs VNull). split; [reflexivity|]. unfold any_equal. rewrite existsb_exists. split; [|intros I0; exists VNull; split; [exact I0|reflexivity]].
    intros (v & I0 & E). destruct v; try discriminate E. exact I0. Qed.
End Casts.
