(** Method calls: predicates, text, arrays, numbers, conversions, objects. *)
From Coq Require Import String List ZArith NArith Bool Lia QArith Sorting Permutation.
From Coq Require Import Floats.SpecFloat.
From Verif Require Import Base Base_proofs F64 F64Text Syntax Ext Json Utils Arrays Utf8 Strings Dispatch Methods Core Evaluator Api Spec Spec_syntax Spec_text Spec_numbers Spec_json Spec_http Spec_methods.
From Verif Require Import Float_proofs Text_proofs Display_proofs Cast_proofs Array_proofs String_proofs Logic_proofs Value_proofs DateFn_proofs HttpRead_proofs Rounding_proofs Number_proofs Object_proofs Debug_proofs Eval_proofs.
Import ListNotations.
Local Open Scope Z_scope.

Ltac name_tests := cbv zeta;
  repeat (match goal with
          | |- context [one_of ?l ?k] => let b := eval vm_compute in (one_of l k) in change (one_of l k) with b
          | |- context [is ?k ?s] => let b := eval vm_compute in (is k s) in change (is k s) with b
          end; cbv iota).

Section MethodProofs.
  Context {X : Ext}.
  Lemma method_run : forall c t v n args, eval t c = Ok v -> eval (method t n args) c = exec_method n false v (margs_of c args) (Some (c_vars c)).
  Proof. intros c t v n args H. unfold method. cbn [eval]. rewrite H. reflexivity. Qed.
  Lemma asks_run : forall c t v n args, eval t c = Ok v -> eval (asks t n args) c = exec_predicate n v.
  Proof. intros c t v n args H. unfold asks. cbn [eval]. rewrite H. reflexivity. Qed.
  Lemma spelled_lower : forall name n, spelled name n -> forallb is_ascii (lit name) = true -> to_lowercase n = lit name.
  Proof. intros name n H A. now apply unit_lower. Qed.
  Lemma ascii_lower : forall n, ascii n -> to_lowercase n = map lower_ascii n.
  Proof.
    intros n A. apply unit_lower; [reflexivity|]. induction A as [|ch n H A IH]; [reflexivity|]. cbn [map forallb]. rewrite IH, andb_true_r. unfold is_ascii, lower_ascii. destruct (is_upper_ascii ch) eqn:U; apply N.ltb_lt; [|assumption].
    unfold is_upper_ascii in U. apply andb_true_iff in U as [_ U]. apply N.leb_le in U. lia.
  Qed.
  (** ** Predicates *)
  Lemma decides_reflect : forall b (P : Prop), (b = true <-> P) -> decides (Ok (VBoolean b)) P.
  Proof. intros b P H. exists b. now split. Qed.
  Lemma blank_iff : forall v, is_blank v = true <-> blank v.
  Proof.
    intros v. unfold blank. destruct v as [x|xs|b|s| |x|t|s]; cbn [is_blank]; try (split; [discriminate|intros [H|[H|(s0 & H & _)]]; discriminate]).
    - destruct xs as [|x xs]; split; auto; try discriminate. intros [H|[H|(s0 & H & _)]]; discriminate.
    - split.
      + destruct (trim s) eqn:E; [|discriminate]. intros _. right. right. exists s. split; [reflexivity|]. destruct (trim_trimmed s) as (w1 & w2 & Hs & W1 & W2 & _). rewrite E in Hs. rewrite Hs. apply Forall_app. now split.
      + intros [H|[H|(s0 & H & W)]]; try discriminate. injection H as <-. replace (trim s) with (@nil N); [reflexivity|]. apply trimmed_iff. exists s, []. cbn [app]. rewrite app_nil_r. repeat split; auto; [constructor|intros c0 r K; discriminate|intros r c0 K; now destruct r].
    - split; auto.
  Qed.
  Lemma compare_lt : forall x y, f_ltb x y = true <-> SFcompare x y = Some Lt.
  Proof. intros x y. unfold f_ltb, SFltb. destruct (SFcompare x y) as [[]|]; split; congruence. Qed.
  Lemma compare_eq : forall x y, f_eqb x y = true <-> SFcompare x y = Some Eq.
  Proof. intros x y. unfold f_eqb, SFeqb. destruct (SFcompare x y) as [[]|]; split; congruence. Qed.
  Lemma compare_swap : forall x y, SFcompare x y = Some Lt <-> SFcompare y x = Some Gt.
  Proof.
    assert (P : forall m m' : positive, (m' ?= m)%positive = CompOpp (m ?= m')%positive) by (intros; apply Pos.compare_antisym).
    intros x y. destruct x as [[]|[]| |[] m e], y as [[]|[]| |[] m' e']; cbn; try (split; intros; discriminate); try (split; reflexivity);
    rewrite (Z.compare_antisym e e'); destruct (e ?= e'); cbn; try (split; congruence);
    change (Pos.compare_cont Eq m m') with (m ?= m')%positive; change (Pos.compare_cont Eq m' m) with (m' ?= m)%positive; rewrite (P m m'); destruct (m ?= m')%positive; cbn; split; congruence.
  Qed.
  Lemma predicate_call : forall c t v n name P args, In (name, P) predicates -> spelled name n -> eval t c = Ok v -> decides (eval (asks t n args) c) (P v).
  Proof.
    intros c t v n name P args I S0 Hv. rewrite (asks_run c t v n args Hv). unfold exec_predicate.
    repeat (destruct I as [I|I]; [injection I as <- <-; rewrite (spelled_lower _ _ S0) by reflexivity; name_tests; apply decides_reflect|]); [..|contradiction].
    - destruct v; cbn [as_number]; try (split; [discriminate|intros (x0 & H & _); discriminate]). rewrite compare_lt, compare_swap. split; [eauto|]. intros (x0 & H & K). injection H as <-. exact K.
    - destruct v; cbn [as_number]; try (split; [discriminate|intros (x0 & H & _); discriminate]). rewrite compare_lt. split; [eauto|]. intros (x0 & H & K). injection H as <-. exact K.
    - destruct v; cbn [as_number]; try (split; [discriminate|intros (x0 & H & _); discriminate]). rewrite compare_eq. split; [eauto|]. intros (x0 & H & K). injection H as <-. exact K.
    - destruct v; split; try discriminate; eauto; intros (x0 & H); discriminate.
    - destruct v; split; try discriminate; eauto; intros (x0 & H); discriminate.
    - destruct v; split; try discriminate; eauto.
    - apply blank_iff.
    - rewrite negb_true_iff, <- blank_iff. destruct (is_blank v); split; congruence.
  Qed.
  Lemma rem_even : forall z, Z.rem z 2 = 0 <-> Z.Even z.
  Proof.
    intros z. split; intros H.
    - exists (Z.quot z 2). pose proof (Z.quot_rem' z 2). lia.
    - destruct H as [k ->]. rewrite Z.mul_comm. apply Z.rem_mul. lia.
  Qed.
  Lemma i64_whole : forall x, finite x -> - 2 ^ 63 <= whole_part x < 2 ^ 63 -> f_to_i64 x = whole_part x.
  Proof. intros x F B. rewrite to_i64_shape. rewrite <- trunc_whole in *. unfold i64_min, i64_max. destruct x; try discriminate; lia. Qed.
  Lemma even_call : forall c t x n args, spelled "even" n -> eval t c = Ok (VNumber x) -> finite x -> - 2 ^ 63 <= whole_part x < 2 ^ 63 ->
    decides (eval (asks t n args) c) (Z.Even (whole_part x)).
  Proof.
    intros c t x n args S0 Hv F B. rewrite (asks_run _ _ _ _ _ Hv). unfold exec_predicate. rewrite (spelled_lower _ _ S0) by reflexivity. name_tests. cbn [as_number]. apply decides_reflect.
    rewrite i64_whole, Z.eqb_eq by assumption. apply rem_even.
  Qed.
  Lemma odd_call : forall c t x n args, spelled "odd" n -> eval t c = Ok (VNumber x) -> finite x -> - 2 ^ 63 <= whole_part x < 2 ^ 63 ->
    decides (eval (asks t n args) c) (Z.Odd (whole_part x)).
  Proof.
    intros c t x n args S0 Hv F B. rewrite (asks_run _ _ _ _ _ Hv). unfold exec_predicate. rewrite (spelled_lower _ _ S0) by reflexivity. name_tests. cbn [as_number]. apply decides_reflect.
    rewrite i64_whole, negb_true_iff, Z.eqb_neq, rem_even by assumption. destruct (Z.Even_or_Odd (whole_part x)) as [E|E]; split; auto; intros H.
    - now destruct H.
    - exfalso. now apply (Z.Even_Odd_False (whole_part x)).
    - intros K. now apply (Z.Even_Odd_False (whole_part x)).
  Qed.
  Lemma parity_other : forall c t v n args, any_of ["even"; "odd"]%string n -> eval t c = Ok v -> (forall x, v <> VNumber x) -> eval (asks t n args) c = Ok (VBoolean false).
  Proof.
    intros c t v n args (name & I & S0) Hv N0. rewrite (asks_run _ _ _ _ _ Hv). unfold exec_predicate.
    destruct I as [<-|[<-|[]]]; rewrite (spelled_lower _ _ S0) by reflexivity; name_tests; destruct v; try reflexivity; exfalso; eapply N0; reflexivity.
  Qed.
  Lemma is_spelled : forall n s, ascii n -> is (to_lowercase n) s = true -> spelled s n.
  Proof. intros n s A H. rewrite ascii_lower in H by assumption. unfold is in H. now apply str_eqb_eq in H. Qed.
  Lemma one_of_spelled : forall n l, ascii n -> one_of l (to_lowercase n) = true -> any_of l n.
  Proof.
    intros n l A H. unfold one_of in H. apply existsb_exists in H as (s & I & H). exists s. split; [assumption|]. now apply is_spelled.
  Qed.
  Lemma predicate_unknown : forall c t v n args, ascii n -> ~ any_of predicate_names n -> eval t c = Ok v -> fails (eval (asks t n args) c).
  Proof.
    intros c t v n args A N0 Hv. rewrite (asks_run _ _ _ _ _ Hv). unfold exec_predicate. cbv zeta.
    repeat match goal with |- context [is ?k ?s] => let E := fresh "E" in destruct (is k s) eqn:E; [exfalso; apply N0; exists s; split; [cbn; tauto|now apply is_spelled]|clear E] end.
    now eexists.
  Qed.

  (** ** Text *)
  Ltac method_call Hv S0 := rewrite (method_run _ _ _ _ _ Hv); unfold exec_method, exec_conversion, exec_string_method, exec_array_method, exec_number_method, exec_json_method;
    rewrite !(spelled_lower _ _ S0) by reflexivity; name_tests.
  Lemma enc1_size : forall ch, Z.of_nat (length (enc1 ch)) = utf8_size ch.
  Proof. intros ch. unfold enc1, utf8_size. destruct (ch <? 128)%N, (ch <? 2048)%N, (ch <? 65536)%N; reflexivity. Qed.
  Lemma byte_len_spec : forall s, Z.of_N (byte_len s) = utf8_length s.
  Proof.
    intros s. unfold byte_len. rewrite nat_N_Z. induction s as [|ch s IH]; [reflexivity|]. unfold utf8_length in *. cbn [fold_right]. rewrite <- IH, <- enc1_size. unfold encode. cbn [flat_map]. rewrite app_length. lia.
  Qed.
  Lemma text_length : forall c t s n args, any_of ["length"; "len"]%string n -> eval t c = Ok (VString s) -> eval (method t n args) c = Ok (num (utf8_length s)).
  Proof. intros c t s n args (name & I & S0) Hv. destruct I as [<-|[<-|[]]]; method_call Hv S0; unfold num; now rewrite byte_len_spec. Qed.
  Lemma text_case : forall c t s n args (up : bool), any_of (if up then ["upper"; "upcase"] else ["lower"; "downcase"])%string n -> eval t c = Ok (VString s) -> ascii s ->
    eval (method t n args) c = Ok (VString (map (if up then upper_ascii else lower_ascii) s)).
  Proof.
    intros c t s n args up (name & I & S0) Hv A. assert (U : to_uppercase s = map upper_ascii s).
    { clear - A. induction A as [|ch s H A IH]; [reflexivity|]. unfold to_uppercase in *. cbn [flat_map map]. rewrite IH. unfold upper_char, is_ascii. apply N.ltb_lt in H. now rewrite H. }
    destruct up; destruct I as [<-|[<-|[]]]; method_call Hv S0; now rewrite ?U, ?ascii_lower by assumption.
  Qed.
  Lemma text_case_call : forall c t s n f, In (f, n) [("UPPER", "upper"); ("UPPER", "upcase"); ("LOWER", "lower"); ("LOWER", "downcase"); ("TRIM", "trim")]%string ->
    uncustomised c f -> eval t c = Ok (VString s) -> eval (method t (lit n) []) c = eval (call f [t]) c.
  Proof.
    intros c t s n f I Hu Hv. assert (S0 : spelled n (lit n)) by (repeat (destruct I as [I|I]; [injection I as <- <-; reflexivity|]); contradiction).
    assert (He : evaluate_to c [t] [VString s]) by (repeat constructor; assumption).
    repeat (destruct I as [I|I]; [injection I as <- <-; method_call Hv S0; symmetry; run_builtin; reflexivity|]). contradiction.
  Qed.
  Lemma text_trim : forall c t s n args, spelled "trim" n -> eval t c = Ok (VString s) -> exists core, eval (method t n args) c = Ok (VString core) /\ trimmed s core.
  Proof. intros c t s n args S0 Hv. exists (trim s). split; [|apply trim_trimmed]. method_call Hv S0. reflexivity. Qed.
  Lemma text_reverse : forall c t s n args, spelled "reverse" n -> eval t c = Ok (VString s) -> eval (method t n args) c = Ok (VString (rev s)).
  Proof. intros c t s n args S0 Hv. method_call Hv S0. reflexivity. Qed.
  Lemma margs_cons : forall c a args, exists m, margs_of c (a :: args) = m :: margs_of c args /\ m_eval m = ev a.
  Proof. intros c a args. unfold margs_of. cbn [map]. eexists. split; reflexivity. Qed.
  Ltac first_arg Ha := cbn [margs_of map arg0 m_eval]; unfold argument in Ha; rewrite Ha; cbn [bind str_of num_of].
  Lemma text_contains : forall c t s n a p more, any_of ["includes"; "contains"]%string n -> eval t c = Ok (VString s) -> argument c a (VString p) ->
    decides (eval (method t n (a :: more)) c) (occurs p s).
  Proof. intros c t s n a p more (name & I & S0) Hv Ha. destruct I as [<-|[<-|[]]]; method_call Hv S0; first_arg Ha; apply decides_reflect; apply contains_str_spec. Qed.
  Lemma text_starts : forall c t s n a p more, any_of ["startswith"; "starts_with"]%string n -> eval t c = Ok (VString s) -> argument c a (VString p) ->
    decides (eval (method t n (a :: more)) c) (exists r, s = p ++ r).
  Proof. intros c t s n a p more (name & I & S0) Hv Ha. destruct I as [<-|[<-|[]]]; method_call Hv S0; first_arg Ha; apply decides_reflect; apply starts_with_spec. Qed.
  Lemma ends_with_spec : forall p s, ends_with p s = true <-> exists r, s = r ++ p.
  Proof.
    intros p s. unfold ends_with. rewrite starts_with_spec. split; intros [r H].
    - exists (rev r). rewrite <- (rev_involutive s), H, rev_app_distr, rev_involutive. reflexivity.
    - exists (rev r). now rewrite H, rev_app_distr.
  Qed.
  Lemma text_ends : forall c t s n a p more, any_of ["endswith"; "ends_with"]%string n -> eval t c = Ok (VString s) -> argument c a (VString p) ->
    decides (eval (method t n (a :: more)) c) (exists r, s = r ++ p).
  Proof. intros c t s n a p more (name & I & S0) Hv Ha. destruct I as [<-|[<-|[]]]; method_call Hv S0; first_arg Ha; apply decides_reflect; apply ends_with_spec. Qed.
  Lemma text_split : forall c t s n a p more, spelled "split" n -> eval t c = Ok (VString s) -> argument c a (VString p) -> p <> [] ->
    exists parts, eval (method t n (a :: more)) c = Ok (VArray (map VString parts)) /\ Spec.cut_at p s parts.
  Proof.
    intros c t s n a p more S0 Hv Ha N0. exists (split_str p s). split; [method_call Hv S0; first_arg Ha; reflexivity|]. unfold split_str. destruct p; [congruence|]. eapply split_cut; eauto.
  Qed.
  Lemma text_split_characters : forall c t s n a more, spelled "split" n -> eval t c = Ok (VString s) -> argument c a (VString []) ->
    eval (method t n (a :: more)) c = Ok (VArray (VString [] :: map (fun ch => VString [ch]) s ++ [VString []])).
  Proof. intros c t s n a more S0 Hv Ha. method_call Hv S0; first_arg Ha. cbn [split_str]. cbn [map]. rewrite map_app, map_map. reflexivity. Qed.
  Lemma text_replace : forall c t s n a b old new more, spelled "replace" n -> eval t c = Ok (VString s) -> argument c a (VString old) -> argument c b (VString new) -> old <> [] ->
    exists out, eval (method t n (a :: b :: more)) c = Ok (VString out) /\ substituted old new s out.
  Proof.
    intros c t s n a b old new more S0 Hv Ha Hb N0. exists (replace_str old new s). split; [method_call Hv S0; first_arg Ha; unfold argument in Hb; rewrite Hb; reflexivity|].
    unfold replace_str. destruct old; [congruence|]. eapply replace_substituted; eauto.
  Qed.
  Lemma usize_whole : forall x, x <> f_inf -> f_to_usize x = Z.min cap (whole x).
  Proof.
    intros x Hx. pose proof (as_usize_whole x Hx) as H. unfold as_usize in H. assert (L : 0 <= f_to_usize x). { unfold f_to_usize, f_to_int. destruct x as [s|[]| |s m e]; lia. }
    pose proof (whole_nonneg x). apply (f_equal Z.of_N) in H. rewrite !Z2N.id in H by (unfold cap; lia). exact H.
  Qed.
  Lemma after_short : forall s z, Z.of_nat (length s) <= z -> after_chars z s = [].
  Proof. intros s z H. unfold after_chars. apply skipn_all2. lia. Qed.
  Lemma chars_after : forall s a, fits s -> 0 <= a -> chars_get s (Z.min cap a) (zlen s) = after_chars a s.
  Proof.
    intros s a F H. unfold chars_get, zlen, fits, size in *. assert (C : 2 ^ 63 < cap) by reflexivity. destruct (Z.leb_spec (Z.min cap a) (Z.of_nat (length s))) as [L|L].
    - rewrite Z.leb_refl. cbn [andb]. replace (Z.min cap a) with a in * by lia. unfold after_chars. apply firstn_all2. rewrite skipn_length. lia.
    - cbn [andb]. symmetry. apply after_short. lia.
  Qed.
  Lemma chars_between : forall s a b, fits s -> 0 <= a -> 0 <= b ->
    chars_get s (Z.min cap a) (Z.min (Z.min cap a) (zlen s) + Z.min (Z.min cap b) (zlen s - Z.min (Z.min cap a) (zlen s))) = first_chars b (after_chars a s).
  Proof.
    intros s a b F Ha Hb. unfold chars_get, zlen, fits, size in *. assert (C : 2 ^ 63 < cap) by reflexivity. destruct (Z.leb_spec a (Z.of_nat (length s))) as [L|L].
    - replace (Z.min cap a) with a by lia. rewrite (Z.min_l a) by lia. set (k := Z.min (Z.min cap b) (Z.of_nat (length s) - a)).
      replace (a <=? a + k) with true by (symmetry; apply Z.leb_le; lia). replace (a + k <=? Z.of_nat (length s)) with true by (symmetry; apply Z.leb_le; lia). cbn [andb].
      replace (a + k - a) with k by lia. unfold first_chars, after_chars. destruct (Z.leb_spec b (Z.of_nat (length s) - a)) as [K|K].
      + replace k with b by lia. reflexivity.
      + rewrite !firstn_all2 by (rewrite skipn_length; lia). reflexivity.
    - rewrite (after_short s a) by lia. unfold first_chars. rewrite firstn_nil. rewrite (Z.min_r _ (Z.of_nat (length s))) by lia.
      replace (Z.min cap a <=? _) with false; [reflexivity|]. symmetry. apply Z.leb_gt. lia.
  Qed.
  Lemma text_substring_from : forall c t s n a x, any_of ["substring"; "substr"]%string n -> eval t c = Ok (VString s) -> fits s -> argument c a (VNumber x) -> x <> f_inf ->
    eval (method t n [a]) c = Ok (VString (after_chars (whole x) s)).
  Proof.
    intros c t s n a x (name & I & S0) Hv F Ha Hx. destruct I as [<-|[<-|[]]]; method_call Hv S0; unfold m_substring; first_arg Ha; cbn [margs_of map]; rewrite usize_whole, chars_after by auto using whole_nonneg; reflexivity.
  Qed.
  Lemma text_substring : forall c t s n a b x y more, any_of ["substring"; "substr"]%string n -> eval t c = Ok (VString s) -> fits s -> argument c a (VNumber x) -> argument c b (VNumber y) -> x <> f_inf -> y <> f_inf ->
    eval (method t n (a :: b :: more)) c = Ok (VString (first_chars (whole y) (after_chars (whole x) s))).
  Proof.
    intros c t s n a b x y more (name & I & S0) Hv F Ha Hb Hx Hy. unfold argument in Hb. destruct I as [<-|[<-|[]]]; method_call Hv S0; unfold m_substring; first_arg Ha; cbn [margs_of map m_eval]; rewrite Hb; cbn [bind num_of];
      rewrite !usize_whole, chars_between by auto using whole_nonneg; reflexivity.
  Qed.
End MethodProofs.
