(** Where evaluation can crash, and that its numbers are doubles. *)
From Coq Require Import String List ZArith NArith QArith Bool Lia Lqa.
From Coq Require Import Floats.SpecFloat.
From Verif Require Import Base Base_proofs F64 F64Text Syntax Parser Ext Json Registry Methods Core Evaluator Api Value_proofs Json_proofs Parse_proofs
  Spec Spec_numbers Spec_dates Spec_stats Spec_syntax Spec_grammar Spec_text Doubles_proofs Rounding_proofs Number_proofs Sqrt_proofs Float_proofs Nearest_proofs Compare_proofs Range_proofs Spec_eval Spec_http Spec_crash Closed_proofs.
Import ListNotations.

Local Opaque json_parse.
Lemma closed_anything : forall X : Ext, closed (fun _ => True).
Proof.
  intros X. assert (A : forall A (l : list A), Forall (fun _ => True) l) by (intros; apply Forall_forall; auto).
  assert (J : forall j, json_made (fun _ => True) j). { induction j as [|b|n|s|xs IH|kvs IH] using json_ind'; now constructor. }
  constructor; auto. intros. apply Forall_forall. auto.
Qed.
Lemma made_anything : forall v, made (fun _ => True) v.
Proof. induction v as [n|xs IH| | | |n| |s] using value_ind'; try exact I. now apply made_array. Qed.

Section Crash.
  Context {X : Ext}.
  Lemma eval_faults : forall reg e c w, eval e c = Panic w -> c_reg c = None \/ c_reg c = Some reg -> fault reg e.
  Proof.
    intros reg e c w H R. assert (K : keeps (fun _ => True) reg) by (intros n f vs v _ _ _; apply made_anything).
    destruct (eval_fine (fun _ => True) (closed_anything X) reg K e) as [P _]; [intros n _; exact I|]. specialize (P c). rewrite H in P. apply P. split; [|exact R]. intros k v _. apply made_anything.
  Qed.
  Lemma assign_faults : forall reg e vars w, eval_assign e vars = Panic w -> fault reg e.
  Proof.
    intros reg e vars w H. assert (K : keeps (fun _ => True) reg) by (intros n f vs v _ _ _; apply made_anything).
    pose proof (assign_sat (fun _ => True) (closed_anything X) reg K e vars) as P. rewrite H in P. apply P; [intros n _; exact I|]. intros k v _. apply made_anything.
  Qed.
  Lemma parse_faults : forall A reg input (k : expr -> res A) w, (e <- parse input ;; k e) = Panic w ->
    (forall e w, k e = Panic w -> fault reg e) -> can_crash reg input.
  Proof.
    intros A reg input k w H K. destruct (parse input) as [e|er|w'] eqn:P; cbn [bind] in H; [|discriminate|].
    - right. destruct (K e w H) as (s & Ps & Fs). exists e, s. auto.
    - left. apply parse_panic_iff. now exists w'.
  Qed.
  Lemma custom_located : forall reg input vars w, evaluate_with_custom reg input vars = Panic w -> can_crash reg input.
  Proof. intros reg input vars w H. eapply parse_faults; [exact H|]. intros e w'. cbv beta. intros E. eapply eval_faults; [exact E|now right]. Qed.
  Lemma with_located : forall input vars w, evaluate_with input vars = Panic w -> can_crash [] input.
  Proof. intros input vars w H. eapply parse_faults; [exact H|]. intros e w'. cbv beta. intros E. eapply eval_faults; [exact E|now left]. Qed.
  Lemma plain_located : forall input w, evaluate input = Panic w -> can_crash [] input.
  Proof. intros input w H. eapply parse_faults; [exact H|]. intros e w'. cbv beta. intros E. eapply eval_faults; [exact E|now left]. Qed.
  Lemma json_vars_no_panic : forall text w, json_vars text <> Panic w.
  Proof. intros text w H. unfold json_vars, parse_json, ok_or in H. destruct (json_parse text) as [j|]; [|discriminate]. destruct j; discriminate. Qed.
  Lemma json_located : forall input text w, evaluate_with_json input text = Panic w -> can_crash [] input.
  Proof. intros input text w H. unfold evaluate_with_json in H. destruct (json_vars text) eqn:J; cbn [bind] in H; [|discriminate|exfalso; eapply json_vars_no_panic; eassumption]. eapply with_located; eassumption. Qed.
  Lemma json_custom_located : forall reg input text w, evaluate_with_json_custom reg input text = Panic w -> can_crash reg input.
  Proof. intros reg input text w H. unfold evaluate_with_json_custom in H. destruct (json_vars text) eqn:J; cbn [bind] in H; [|discriminate|exfalso; eapply json_vars_no_panic; eassumption]. eapply custom_located; eassumption. Qed.
  Lemma context_located : forall input vars w, evaluate_with_assignments_and_context input vars = Panic w -> can_crash [] input.
  Proof. intros input vars w H. eapply parse_faults; [exact H|]. intros e w' E. eapply assign_faults; exact E. Qed.
  Lemma assignments_located : forall input vars w, evaluate_with_assignments input vars = Panic w -> can_crash [] input.
  Proof.
    intros input vars w H. eapply parse_faults; [exact H|]. intros e w'. cbv beta. intros E. destruct (eval_assign e vars) as [[v vs]|er|w2] eqn:A; cbn [bind] in E; try discriminate. eapply assign_faults; exact A.
  Qed.
  Lemma harmless_not_faulty : forall reg s, harmless reg s -> ~ faulty reg s.
  Proof.
    intros reg s H F. destruct F; cbn [harmless] in H; try contradiction.
    - destruct H as [_ H]. destruct H1.
      + apply (H "SORT"%string); [now left|reflexivity].
      + apply (H "MEDIAN"%string); [right; now left|reflexivity].
      + apply (H name); [apply in_or_app; now right|reflexivity].
      + apply (H "DATEADD"%string); [do 2 right; now left|reflexivity].
    - destruct H as [H _]. congruence.
  Qed.
  Lemma never_crashes : forall reg input vars e, parse input = Ok e -> (forall s, part s e -> harmless reg s) ->
    forall w, evaluate_with_custom reg input vars <> Panic w.
  Proof.
    intros reg input vars e P H w E. destruct (custom_located _ _ _ _ E) as [D|(e' & s & P' & Ps & Fs)].
    - apply (proj2 (parse_panic_iff input)) in D as (w' & D). rewrite P in D. discriminate.
    - rewrite P in P'. injection P' as <-. exact (harmless_not_faulty reg s (H s Ps) Fs).
  Qed.

  (** ** Doubles *)
  Lemma json_made_ok : forall j, json_ok j <-> json_made representable j.
  Proof.
    induction j as [|b|n|s|xs IH|kvs IH] using json_ind'; split; intros H; try constructor.
    - now inversion H. - now inversion H.
    - inversion H as [| | | |? Q|]; subst. rewrite Forall_forall in *. intros x Hx. apply IH; auto.
    - inversion H as [| | | |? Q|]; subst. rewrite Forall_forall in *. intros x Hx. apply IH; auto.
    - inversion H as [| | | | |? Q]; subst. rewrite Forall_forall in *. intros x Hx. apply IH; auto.
    - inversion H as [| | | | |? Q]; subst. rewrite Forall_forall in *. intros x Hx. apply IH; auto.
  Qed.
  Lemma doubles_made : forall v, doubles v <-> made representable v.
  Proof.
    induction v as [n|xs IH| | | |n| |s] using value_ind'; try reflexivity. rewrite made_array. split.
    - intros H. cbn in H. clear -H IH. induction IH as [|x xs Hx IH' I2]; constructor; [apply Hx, H|]. apply I2, H.
    - intros H. apply doubles_all. rewrite Forall_forall in *. intros x Hx. apply IH; auto.
  Qed.
  Lemma representable_abs : forall x, representable x -> representable (f_abs x).
  Proof. intros [s|s| |s m e] H; try reflexivity. exact H. Qed.
  Lemma representable_rem : forall x y, representable x -> representable y -> representable (f_rem x y).
  Proof.
    intros [a|a| |a m e] [b|b| |b m' e'] Rx Ry; try reflexivity; try exact Rx. apply rem_exact; try assumption; try reflexivity.
    intros E. rewrite exact_units in E. pose proof (units_pos m' e') as U. destruct b; [change (Zneg m') with (- Zpos m')%Z in E; rewrite units_neg in E|]; lra.
  Qed.
  Lemma representable_sqrt : forall x, representable x -> representable (f_sqrt x).
  Proof.
    intros [s|s| |[] m e] H; try reflexivity; try (destruct s; reflexivity). destruct (sqrt_nearest _ H eq_refl) as (_ & R & _); [|exact R]. rewrite exact_units. apply units_pos.
  Qed.
  Lemma closed_doubles : platform_doubles X -> closed representable.
  Proof.
    intros [P1 P2 P3 P4 P5 P6]. constructor; auto using representable_of_Z, representable_add, representable_sub, representable_mul, representable_div, representable_rem, representable_abs, representable_sqrt; try reflexivity.
    - intros x Hx. now apply representable_neg.
    - exact float_text_representable.
    - intros s j H. apply json_made_ok. eapply parse_ok; eassumption.
  Qed.

  Lemma number_double : forall s n, number s n -> representable n.
  Proof. intros s n H. destruct H; eapply rounded_representable; apply H0 || apply H1. Qed.
  Lemma expressible_inside : forall a e, argument e -> inside a e -> argument a.
  Proof.
    assert (A : forall x args, In x args -> Forall argument args -> argument x) by (intros x args H F; rewrite Forall_forall in F; auto).
    assert (B : forall x args, In x args -> Forall expressible args -> argument x) by (intros x args H F; rewrite Forall_forall in F; apply ok_plain; auto).
    intros a e H I1. inversion H as [e' E|e' E]; subst; [|inversion I1; subst; now apply ok_plain].
    inversion I1; subst; inversion E; subst; eauto using ok_plain.
    - eapply B; [|eassumption]. apply in_map_iff. now exists (k, a).
  Qed.
  Lemma program_lits : forall e, program e -> lits representable e.
  Proof.
    assert (A : forall e, argument e -> lits representable e).
    { intros e H n P. remember (ENumber n) as s. revert n Heqs. induction P as [e|a b e P IH I1]; intros n ->.
      - inversion H as [e' E|]; subst. inversion E; subst. eapply number_double; eassumption.
      - eapply IH; [|reflexivity]. eapply expressible_inside; eassumption. }
    intros e [H|(a & b & es & -> & H)]; [apply A; now constructor|]. intros n P. inversion P as [|a' b' e' P' I1]; subst. inversion I1; subst.
    apply (A b'); [|exact P']. rewrite Forall_forall in H. apply ok_plain. now apply H.
  Qed.
  Lemma keeps_doubles : forall reg, functions_double reg -> keeps representable reg.
  Proof.
    intros reg H name f vs v G A E. apply doubles_made. apply (H name f vs v G); [|exact E]. eapply Forall_impl; [|exact A]. intros x. apply doubles_made.
  Qed.
  Lemma env_doubles : forall vars, variables_double vars <-> env_made representable vars.
  Proof. intros vars. split; intros H k v G; apply doubles_made; apply (H k v G). Qed.
  Lemma doubles_eval : forall reg e c v, platform_doubles X -> functions_double reg -> program e -> c_reg c = None \/ c_reg c = Some reg -> variables_double (c_vars c) ->
    eval e c = Ok v -> doubles v.
  Proof.
    intros reg e c v PD FD Pr R VD H. destruct (eval_fine representable (closed_doubles PD) reg (keeps_doubles reg FD) e (program_lits e Pr)) as [P _]. specialize (P c (conj (proj1 (env_doubles _) VD) R)). rewrite H in P. now apply doubles_made.
  Qed.
  Lemma doubles_custom : forall reg input vars v, platform_doubles X -> functions_double reg -> variables_double vars ->
    evaluate_with_custom reg input vars = Ok v -> doubles v.
  Proof.
    intros reg input vars v PD FD VD H. unfold evaluate_with_custom in H. destruct (parse input) as [e| |] eqn:P; try discriminate. eapply doubles_eval; [exact PD|exact FD|eapply parse_range; exact P| | |exact H]; [now right|exact VD].
  Qed.
  Lemma no_functions_double : functions_double [].
  Proof. intros name f vs v H. discriminate. Qed.
  Lemma doubles_with : forall input vars v, platform_doubles X -> variables_double vars -> evaluate_with input vars = Ok v -> doubles v.
  Proof.
    intros input vars v PD VD H. unfold evaluate_with in H. destruct (parse input) as [e| |] eqn:P; try discriminate. eapply doubles_eval; [exact PD|exact no_functions_double|eapply parse_range; exact P| | |exact H]; [now left|exact VD].
  Qed.
  Lemma json_vars_double : forall text vars, json_vars text = Ok vars -> variables_double vars.
  Proof.
    intros text vars H. unfold json_vars, parse_json, ok_or in H. destruct (json_parse text) as [j|] eqn:J; [|discriminate]. cbn [bind] in H. destruct j; try discriminate. injection H as <-.
    apply parse_ok in J. inversion J as [| | | | |? Q]; subst. match goal with |- variables_double (fold_left _ _ ?m0) => assert (E : variables_double m0); [|revert E; generalize m0] end.
    { apply env_doubles. apply insert_env; [exact I|]. apply empty_env. }
    clear J. induction Q as [|kv kvs Hk Q IH]; intros m E; [exact E|]. cbn [fold_left]. apply IH. apply env_doubles. apply insert_env; [|now apply env_doubles]. apply doubles_made. now apply to_value_ok.
  Qed.
  Lemma doubles_json : forall reg input text v, platform_doubles X -> functions_double reg -> evaluate_with_json_custom reg input text = Ok v -> doubles v.
  Proof.
    intros reg input text v PD FD H. unfold evaluate_with_json_custom in H. destruct (json_vars text) as [vars| |] eqn:J; try discriminate. eapply doubles_custom; [exact PD|exact FD|eapply json_vars_double; exact J|exact H].
  Qed.
  Lemma doubles_plain_json : forall input text v, platform_doubles X -> evaluate_with_json input text = Ok v -> doubles v.
  Proof.
    intros input text v PD H. unfold evaluate_with_json in H. destruct (json_vars text) as [vars| |] eqn:J; try discriminate. eapply doubles_with; [exact PD|eapply json_vars_double; exact J|exact H].
  Qed.
  Lemma doubles_assignments : forall input vars v vars', platform_doubles X -> variables_double vars ->
    evaluate_with_assignments_and_context input vars = Ok (v, vars') -> doubles v /\ variables_double vars'.
  Proof.
    intros input vars v vars' PD VD H. unfold evaluate_with_assignments_and_context in H. destruct (parse input) as [e| |] eqn:P; try discriminate. cbn [bind] in H.
    pose proof (assign_sat representable (closed_doubles PD) [] (keeps_doubles [] no_functions_double) e vars (program_lits e (parse_range _ _ P)) (proj1 (env_doubles _) VD)) as Q. rewrite H in Q. destruct Q as [Q1 Q2]. split; [now apply doubles_made|now apply env_doubles].
  Qed.
  Lemma text_of_result : forall reg input vars e x, platform_doubles X -> functions_double reg -> variables_double vars -> parse input = Ok e ->
    evaluate_with_custom reg input vars = Ok (VNumber x) ->
    (exists s, eval (ETypeCast e TyString) (custom_ctx vars reg) = Ok (VString s) /\ float_text s x) /\
    eval (ETypeCast (ETypeCast e TyString) TyFloat) (custom_ctx vars reg) = Ok (VNumber x).
  Proof.
    intros reg input vars e x PD FD VD P H. assert (R := doubles_custom _ _ _ _ PD FD VD H). unfold evaluate_with_custom in H. rewrite P in H. now apply number_to_text.
  Qed.
End Crash.
