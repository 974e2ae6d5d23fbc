(** Text functions, BETWEEN, POW, JQ and the financial functions. *)
From Coq Require Import String List ZArith NArith Bool Lia QArith.
From Coq Require Import Floats.SpecFloat.
From Verif Require Import Base Base_proofs F64 F64Text Syntax Ext Json Utils Arrays Arith Logic Utf8 Strings Financial Dispatch Core Evaluator Api Spec Spec_syntax Spec_text Spec_numbers Spec_json Spec_http Spec_methods Spec_functions.
From Verif Require Import Float_proofs Text_proofs Display_proofs Logic_proofs Value_proofs HttpRead_proofs Rounding_proofs Number_proofs Json_proofs Object_proofs Debug_proofs Eval_proofs Compare_proofs Stats_proofs Method_proofs Method_array_proofs Method_value_proofs Method_object_proofs.
Import ListNotations.
Local Open Scope Z_scope.

Section Functions.
  Context {X : Ext}.
  (** ** Text *)
  Lemma display_number_text : forall x, representable x -> number_text x (f_display x).
  Proof.
    intros x R. split; [now apply display_text|]. intros z B ->. rewrite display_int by assumption. now apply written_unique.
  Qed.
  Lemma inlined_concat : forall v, doubles v -> inlined v (concat_text v).
  Proof.
    induction v as [x|xs IH|b|s| |x|t|s] using value_ind'; intros D; cbn [concat_text]; try constructor.
    - apply display_number_text. exact D.
    - apply doubles_array in D. replace (flat_map concat_text xs) with (concat (map concat_text xs)) by (symmetry; apply flat_map_concat_map). constructor.
      induction IH as [|v xs Hv IH IH2]; [constructor|]. inversion D; subst. constructor; auto.
  Qed.
  Lemma concat_call : forall c es vs, uncustomised c "CONCAT" -> evaluate_to c es vs -> Forall doubles vs ->
    exists ss, eval (call "CONCAT" es) c = Ok (VString (concat ss)) /\ Forall2 inlined vs ss.
  Proof.
    intros c es vs Hu He D. exists (map concat_text vs). split.
    - run_builtin. change (exec_builtin_fast (lit "CONCAT") vs) with (fn_concat vs). unfold fn_concat. now rewrite flat_map_concat_map.
    - clear He. induction D; constructor; auto using inlined_concat.
  Qed.
  Lemma concat_number : forall c e x, uncustomised c "CONCAT" -> eval e c = Ok (VNumber x) -> eval (call "CONCAT" [e]) c = eval (ETypeCast e TyString) c.
  Proof.
    intros c e x Hu Hv. assert (He : evaluate_to c [e] [VNumber x]) by (repeat constructor; assumption). run_builtin. cbn [eval]. rewrite Hv.
    change (exec_builtin_fast (lit "CONCAT") [VNumber x]) with (Ok (VString (f_display x ++ []))). now rewrite app_nil_r.
  Qed.
  Lemma length_call : forall c e v, uncustomised c "LENGTH" -> eval e c = Ok v ->
    match v with
    | VString s => eval (call "LENGTH" [e]) c = Ok (num (Z.of_nat (length s)))
    | VArray xs => eval (call "LENGTH" [e]) c = Ok (num (Z.of_nat (length xs)))
    | VNull => eval (call "LENGTH" [e]) c = Ok (num 0)
    | _ => fails (eval (call "LENGTH" [e]) c)
    end.
  Proof.
    intros c e v Hu Hv. assert (He : evaluate_to c [e] [v]) by (repeat constructor; assumption).
    destruct v; run_builtin; try (eexists; reflexivity); try reflexivity.
    change (exec_builtin_fast (lit "LENGTH") [VString s]) with (Ok (VNumber (f_of_Z (Z.of_N (N.of_nat (length s)))))). now rewrite nat_N_Z.
  Qed.
  Lemma case_call : forall c e s (up : bool), uncustomised c (if up then "UPPER" else "LOWER") -> eval e c = Ok (VString s) -> ascii s ->
    eval (call (if up then "UPPER" else "LOWER") [e]) c = Ok (VString (map (if up then upper_ascii else lower_ascii) s)).
  Proof.
    intros c e s up Hu Hv A. pose proof (text_case c e s (if up then lit "upper" else lit "lower") [] up) as K. rewrite <- K; auto.
    - destruct up; symmetry; apply (text_case_call c e s); auto; cbn; tauto.
    - destruct up; [exists "upper"%string|exists "lower"%string]; split; try reflexivity; now left.
  Qed.
  Lemma white_space : forall ch, is_whitespace ch = true <-> In ch unicode_white_space.
  Proof. intros ch. unfold unicode_white_space. cbn [In]. unfold is_whitespace. rewrite !orb_true_iff, !andb_true_iff, !N.leb_le, !N.eqb_eq. split; [intros; lia|]. intros I0.
    repeat (destruct I0 as [<-|I0]; [lia|]). contradiction I0. Qed.
  Lemma trim_call : forall c e s, uncustomised c "TRIM" -> eval e c = Ok (VString s) -> exists core, eval (call "TRIM" [e]) c = Ok (VString core) /\ trimmed s core.
  Proof.
    intros c e s Hu Hv. exists (trim s). split; [|apply trim_trimmed]. assert (He : evaluate_to c [e] [VString s]) by (repeat constructor; assumption). run_builtin. reflexivity.
  Qed.
  Lemma text_only : forall c e v name, In name ["UPPER"; "LOWER"; "TRIM"]%string -> uncustomised c name -> eval e c = Ok v -> (forall s, v <> VString s) ->
    fails (eval (call name [e]) c).
  Proof.
    intros c e v name I Hu Hv N0. assert (He : evaluate_to c [e] [v]) by (repeat constructor; assumption).
    destruct I as [<-|[<-|[<-|[]]]]; run_builtin; destruct v; try (eexists; reflexivity); exfalso; eapply N0; reflexivity.
  Qed.
  Lemma isblank_call : forall c e v, uncustomised c "ISBLANK" -> eval e c = Ok v -> decides (eval (call "ISBLANK" [e]) c) (blank v).
  Proof.
    intros c e v Hu Hv. assert (He : evaluate_to c [e] [v]) by (repeat constructor; assumption). run_builtin. exists (is_blank v). split; [reflexivity|apply blank_iff].
  Qed.
  Lemma isnumber_call : forall c e v, uncustomised c "ISNUMBER" -> eval e c = Ok v -> decides (eval (call "ISNUMBER" [e]) c) (exists x, v = VNumber x \/ v = VCurrency x).
  Proof.
    intros c e v Hu Hv. assert (He : evaluate_to c [e] [v]) by (repeat constructor; assumption). run_builtin.
    destruct v; eexists; (split; [reflexivity|]); split; try discriminate; try (intros (x & [H|H]); discriminate); eauto.
  Qed.
  Lemma istext_call : forall c e v, uncustomised c "ISTEXT" -> eval e c = Ok v -> decides (eval (call "ISTEXT" [e]) c) (exists s, v = VString s).
  Proof.
    intros c e v Hu Hv. assert (He : evaluate_to c [e] [v]) by (repeat constructor; assumption). run_builtin.
    destruct v; eexists; (split; [reflexivity|]); split; try discriminate; try (intros (x & H); discriminate); eauto.
  Qed.
  Lemma includes_call : forall c a b s p, uncustomised c "INCLUDES" -> eval a c = Ok (VString s) -> eval b c = Ok (VString p) -> decides (eval (call "INCLUDES" [a; b]) c) (occurs p s).
  Proof.
    intros c a b s p Hu Ha Hb. assert (He : evaluate_to c [a; b] [VString s; VString p]) by (repeat constructor; assumption). run_builtin.
    exists (contains_str p s). split; [reflexivity|apply contains_str_spec].
  Qed.
  (** ** BETWEEN and POW *)
  Lemma between_call : forall vars a b e lo hi x, ev a (Some vars) = Ok (VNumber lo) -> ev b (Some vars) = Ok (VNumber hi) -> ev e (Some vars) = Ok (VNumber x) ->
    decides (ev (call "BETWEEN" [a; b; e]) (Some vars)) (number_relation BLe lo x /\ number_relation BLe x hi).
  Proof.
    intros vars a b e lo hi x Ha Hb Hx. unfold call. rewrite (ev_call _ _ _ [VNumber lo; VNumber hi; VNumber x]); [|reflexivity|repeat constructor; assumption].
    change (exec_builtin (lit "BETWEEN") [VNumber lo; VNumber hi; VNumber x]) with (Ok (VBoolean (f_leb lo x && f_leb x hi))).
    apply decides_reflect. rewrite andb_true_iff. unfold f_leb, SFleb, number_relation. destruct (SFcompare lo x) as [[]|], (SFcompare x hi) as [[]|]; intuition congruence.
  Qed.
  Lemma pow_call : forall c a b x y name, In name ["POW"; "POWER"]%string -> uncustomised c name -> eval a c = Ok (VNumber x) -> eval b c = Ok (VNumber y) ->
    eval (call name [a; b]) c = Ok (VNumber (x_powf x y)) /\ eval (EBinary a BPow b) c = Ok (VNumber (x_powf x y)).
  Proof.
    intros c a b x y name I Hu Ha Hb. assert (He : evaluate_to c [a; b] [VNumber x; VNumber y]) by (repeat constructor; assumption). split.
    - destruct I as [<-|[<-|[]]]; run_builtin; reflexivity.
    - cbn [eval]. rewrite Ha, Hb. reflexivity.
  Qed.
  (** ** JQ *)
  Lemma i64_bounds : forall x, representable x -> is_finite x = true ->
    (f_leb (f_of_Z i64_min) x = true <-> (inject_Z (- 2 ^ 63) <= exact x)%Q) /\ (f_leb x (f_of_Z i64_max) = true <-> (exact x <= inject_Z (2 ^ 63))%Q).
  Proof.
    intros x R F.
    assert (A : is_finite (f_of_Z i64_min) = true /\ representable (f_of_Z i64_min) /\ (exact (f_of_Z i64_min) == inject_Z (- 2 ^ 63))%Q) by (vm_compute; repeat split).
    assert (B : is_finite (f_of_Z i64_max) = true /\ representable (f_of_Z i64_max) /\ (exact (f_of_Z i64_max) == inject_Z (2 ^ 63))%Q) by (vm_compute; repeat split).
    destruct A as (A1 & A2 & A3), B as (B1 & B2 & B3). rewrite !leb_exact by assumption. rewrite A3, B3. split; reflexivity.
  Qed.
  Lemma whole_json : forall x z, is_exactly x (inject_Z z) -> - 2 ^ 63 <= z < 2 ^ 63 -> value_to_json_path (VNumber x) = Ok (json_of_i64 z).
  Proof.
    intros x z (F & R & E) B. cbn [value_to_json_path]. destruct (i64_bounds x R F) as (L & H).
    assert (E0 : f_eqb (f_fract x) f_zero = true) by (apply fract_zero; [assumption|eauto]). rewrite E0.
    replace (f_leb (f_of_Z i64_min) x) with true by (symmetry; apply L; rewrite E, <- Zle_Qle; lia).
    replace (f_leb x (f_of_Z i64_max)) with true by (symmetry; apply H; rewrite E, <- Zle_Qle; lia). cbn [andb].
    unfold f_to_i64. rewrite (to_int_exact _ _ x z); [reflexivity|assumption|assumption|unfold i64_min, i64_max; lia].
  Qed.
  Lemma other_json : forall x, is_finite x = true -> representable x -> (forall z, - 2 ^ 63 <= z <= 2 ^ 63 -> ~ (exact x == inject_Z z)%Q) ->
    value_to_json_path (VNumber x) = Ok (JNum (JFlt x)).
  Proof.
    intros x F R N0. cbn [value_to_json_path]. unfold jnum_of_f64. rewrite F. destruct (i64_bounds x R F) as (L & H).
    destruct (f_eqb (f_fract x) f_zero) eqn:E; [|reflexivity]. apply fract_zero in E as (_ & z & E); [|assumption]. cbn [andb].
    destruct (f_leb (f_of_Z i64_min) x) eqn:E1; [|reflexivity]. destruct (f_leb x (f_of_Z i64_max)) eqn:E2; [|reflexivity]. exfalso.
    pose proof (proj1 L eq_refl) as L1. pose proof (proj1 H eq_refl) as H1. rewrite E, <- Zle_Qle in L1, H1. apply (N0 z); [lia|assumption].
  Qed.
  Lemma form_json : forall v j, json_form v j -> value_to_json_path v = Ok j.
  Proof.
    fix IH 3. intros v j H. destruct H; try reflexivity.
    - cbn [value_to_json_path]. replace (mapM value_to_json_path vs) with (Ok js); [reflexivity|]. induction H as [|v j vs js H1 H2 IH2]; [reflexivity|]. cbn [mapM]. rewrite (IH _ _ H1). cbn [bind]. rewrite <- IH2. reflexivity.
    - cbn [value_to_json_path]. rewrite H. reflexivity.
    - rewrite (whole_json x (Z.of_N n)); [|assumption|lia]. unfold json_of_i64. replace (0 <=? Z.of_N n) with true by (symmetry; apply Z.leb_le; lia). now rewrite N2Z.id.
    - rewrite (whole_json x z); [|assumption|lia]. unfold json_of_i64. replace (0 <=? z) with false by (symmetry; apply Z.leb_gt; lia). reflexivity.
    - now apply other_json.
    - cbn [value_to_json_path]. unfold jnum_of_f64. rewrite H. reflexivity.
  Qed.
  Lemma jq_call : forall c a b v j p rs, uncustomised c "JQ" -> eval a c = Ok v -> eval b c = Ok (VString (lit "$" ++ p)) -> json_form v j ->
    x_jsonpath j (lit "$" ++ p) = inl rs ->
    exists ws, Forall2 Spec_json.stands_for rs ws /\ eval (call "JQ" [a; b]) c = Ok (match ws with [w] => w | _ => VArray ws end).
  Proof.
    intros c a b v j p rs Hu Ha Hb F E. exists (map json_to_value rs). split.
    - clear. induction rs; constructor; auto. now apply stands_iff.
    - rewrite top_names by (auto; cbn; tauto). cbn [String.eqb Ascii.eqb Bool.eqb args_of map a_eval]. unfold top_jq. cbn [a_eval]. rewrite Ha, Hb. cbn [bind].
      change (is_jsonpath (lit "$" ++ p)) with true. cbv iota. unfold apply_jsonpath. rewrite (form_json v j F). cbn [bind]. rewrite E. destruct rs as [|r [|r2 rs]]; reflexivity.
  Qed.
  Lemma jq_fails : forall c a b v w, uncustomised c "JQ" -> eval a c = Ok v -> eval b c = Ok w ->
    (forall p, w <> VString (lit "$" ++ p)) \/ (exists j p e, w = VString p /\ json_form v j /\ x_jsonpath j p = inr e) -> fails (eval (call "JQ" [a; b]) c).
  Proof.
    intros c a b v w Hu Ha Hb K. rewrite top_names by (auto; cbn; tauto). cbn [String.eqb Ascii.eqb Bool.eqb args_of map a_eval]. unfold top_jq. cbn [a_eval]. rewrite Ha, Hb. cbn [bind].
    destruct w as [x|xs|t|s| |x|t|s]; try (eexists; reflexivity). destruct (is_jsonpath s) eqn:J; [|eexists; reflexivity]. destruct K as [K|(j & p & e & K & F & E)].
    - apply starts_with_spec in J as (r & J). exfalso. now apply (K r); rewrite J.
    - injection K as ->. unfold apply_jsonpath. rewrite (form_json v j F). cbn [bind]. rewrite E. eexists. reflexivity.
  Qed.
  Lemma jq_arguments : forall c es, uncustomised c "JQ" -> length es <> 2%nat -> fails (eval (call "JQ" es) c).
  Proof.
    intros c es Hu L. rewrite top_names by (auto; cbn; tauto). cbn [String.eqb Ascii.eqb Bool.eqb]. unfold top_jq. destruct es as [|a [|b [|d es]]]; cbn [args_of map]; try (eexists; reflexivity). now destruct L.
  Qed.
End Functions.
