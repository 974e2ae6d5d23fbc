(** Examples of functions: proofs. *)
From Coq Require Import String List ZArith NArith Bool Lia QArith.
From Verif Require Import Base F64 F64Text Utf8 Syntax Ext Json Lines Host Multipart Registry JsPlugin HttpServer Spec Spec_syntax Spec_text Spec_args Spec_registry Spec_json Spec_http Spec_js Spec_form.
From Verif Require Import Base_proofs Rounding_proofs Number_proofs Display_proofs Text_proofs DateFn_proofs Method_value_proofs HttpRead_proofs HttpAuth_proofs Command_proofs JsPlugin_proofs Multipart_proofs Spec_cross Cross_proofs.
Import ListNotations.
Local Open Scope N_scope.

Section Result_ind.
  Variable P : value -> str -> Prop.
  Hypothesis P1 : forall s, P (VString s) s.
  Hypothesis P2 : forall s, P (VJson s) s.
  Hypothesis P3 : P (VBoolean true) (lit "true").
  Hypothesis P4 : P (VBoolean false) (lit "false").
  Hypothesis P5 : P VNull (lit "null").
  Hypothesis P6 : forall z t, (Z.abs z < 2 ^ 53)%Z -> integer_written z t -> P (num z) t.
  Hypothesis P7 : forall vs ts, Forall2 P vs ts -> P (VArray vs) (lit "[" ++ join (lit ", ") ts ++ lit "]").
  Fixpoint result_ind' v t (r : result_text v t) : P v t :=
    match r with
    | text_result s => P1 s
    | json_result s => P2 s
    | true_result => P3
    | false_result => P4
    | null_result => P5
    | whole_result z t L W => P6 z t L W
    | array_result vs ts F => P7 vs ts ((fix go vs ts (F : Forall2 result_text vs ts) : Forall2 P vs ts :=
        match F with Forall2_nil _ => Forall2_nil _ | Forall2_cons x y h r => Forall2_cons x y (result_ind' x y h) (go _ _ r) end) vs ts F)
    end.
End Result_ind.
Lemma result_read : forall v t, result_text v t -> format_value_for_comparison v = t.
Proof.
  apply result_ind'; try reflexivity.
  - intros z t L W. cbn [format_value_for_comparison num]. destruct (of_Z_exact z) as (Fi & R & E); [lia|]. assert (f_eqb (f_fract (f_of_Z z)) f_zero = true) as ->. { apply fract_zero; [assumption|]. split; [assumption|]. now exists z. }
    rewrite to_i64_exact by assumption. symmetry. now apply written_unique.
  - intros vs ts F. cbn [format_value_for_comparison]. do 3 f_equal. induction F as [|v t vs ts E F IH]; [reflexivity|]. cbn [map]. now rewrite E, IH.
Qed.

Lemma once_iff : forall p s a b, split_once p s = Some (a, b) <-> s = a ++ p ++ b /\ forall a' b', s = a' ++ p ++ b' -> (length a <= length a')%nat.
Proof.
  intros p s a b. split.
  - unfold split_once. destruct (find_str p s) as [i|] eqn:F; [|discriminate]. intros E. injection E as <- <-. destruct (find_str_some p s i F) as (r & Es & Li). split.
    + rewrite Es at 1. f_equal. f_equal. apply (f_equal (skipn (i + length p))) in Es. rewrite app_assoc in Es. rewrite Es. rewrite skipn_app. rewrite skipn_all2 by (rewrite app_length, firstn_length; lia). rewrite app_length, firstn_length. replace (i + length p - (Nat.min i (length s) + length p))%nat with 0%nat by lia. reflexivity.
    + intros a' b' E. rewrite firstn_length. pose proof (find_str_first p s i a' b' F E). lia.
  - intros [-> M]. now apply once_at.
Qed.
Lemma trim_nil : forall s, trim s = [] <-> white s.
Proof.
  intros s. split.
  - intros E. destruct (trim_trimmed s) as (w1 & w2 & Es & W1 & W2 & _). rewrite E in Es. cbn in Es. rewrite Es. now apply Forall_app.
  - intros W. pose proof (trim_pad s [] []) as T. rewrite app_nil_r in T. apply T; [assumption|constructor|]. split; [intros c r E; discriminate|intros r c E; destruct r; discriminate].
Qed.
Lemma suffix_iff : forall p s r, strip_suffix p s = Some r <-> s = r ++ p.
Proof.
  intros p s r. unfold strip_suffix. split.
  - destruct (strip_prefix _ _) as [q|] eqn:E; [|discriminate]. intros K. injection K as <-. apply strip_prefix_spec in E. apply (f_equal (@rev N)) in E. now rewrite rev_involutive, rev_app_distr, rev_involutive in E.
  - intros ->. rewrite rev_app_distr. rewrite (proj2 (strip_prefix_spec (rev p) (rev p ++ rev r) (rev r)) eq_refl). now rewrite rev_involutive.
Qed.
Lemma quoted_iff : forall a, starts_with [34] a && ends_with [34] a = true <-> a = [34] \/ exists s, a = [34] ++ s ++ [34].
Proof.
  intros a. split.
  - intros E. apply andb_true_iff in E as [E1 E2]. apply starts_with_spec in E1 as [r ->]. apply ends_with_iff in E2 as [q E2]. destruct r as [|c r]; [now left|right]. destruct q as [|d q]; [discriminate|]. injection E2 as <- E2. exists q. cbn [app]. now rewrite E2.
  - intros [-> |[s ->]]; [reflexivity|]. apply andb_true_iff. split; [reflexivity|]. apply ends_with_iff. now exists ([34] ++ s).
Qed.
Lemma float_unquoted : forall r x, ~ float_text (34 :: r) x.
Proof. intros r x F. apply float_text_iff in F. cbn in F. discriminate. Qed.
Lemma inside : forall s, match [34] ++ s ++ [34] with _ :: _ :: _ => Ok (VString (removelast (tl ([34] ++ s ++ [34])))) | _ => Panic "slice index starts at 1 but ends at 0" end = Ok (VString s).
Proof. intros s. change (tl ([34] ++ s ++ [34])) with (s ++ [34]). rewrite removelast_last. now destruct s. Qed.
Lemma argument_iff : forall p v, call_argument p = Ok v <-> example_argument p v.
Proof.
  intros p v. unfold call_argument. split.
  - destruct (starts_with [34] (trim p) && ends_with [34] (trim p)) eqn:E.
    + apply quoted_iff in E as [E|[s E]]; rewrite E; [discriminate|]. rewrite inside. intros K. injection K as <-. apply text_in_quotes. rewrite <- E. apply trim_trimmed.
    + destruct (str_eqb (trim p) (lit "true")) eqn:E1; [apply str_eqb_eq in E1; intros K; injection K as <-; apply true_word; rewrite <- E1; apply trim_trimmed|]. destruct (str_eqb (trim p) (lit "false")) eqn:E2; [apply str_eqb_eq in E2; intros K; injection K as <-; apply false_word; rewrite <- E2; apply trim_trimmed|].
      destruct (f_from_str (trim p)) as [x|] eqn:E3; [|discriminate]. intros K. injection K as <-. eapply number_word; [apply trim_trimmed|now apply float_text_iff].
  - intros E. destruct E as [p s T|p T|p T|p core x T F]; apply trimmed_iff in T; rewrite <- T.
    + rewrite (proj2 (quoted_iff _)) by (right; now exists s). apply inside.
    + reflexivity.
    + reflexivity.
    + destruct (starts_with [34] core && ends_with [34] core) eqn:E. { apply quoted_iff in E as [-> |[s ->]]; now apply float_unquoted in F. } apply float_text_iff in F. destruct (str_eqb core (lit "true")) eqn:E1; [apply str_eqb_eq in E1; subst core; rewrite E1 in F; discriminate|]. destruct (str_eqb core (lit "false")) eqn:E2; [apply str_eqb_eq in E2; subst core; rewrite E2 in F; discriminate|]. now rewrite F.
Qed.
Lemma argument_panics : forall p x, call_argument p = Panic x -> trimmed p [34].
Proof.
  intros p x. unfold call_argument. destruct (starts_with [34] (trim p) && ends_with [34] (trim p)) eqn:E.
  - apply quoted_iff in E as [E|[s E]]; [intros _; rewrite <- E; apply trim_trimmed|]. rewrite E. destruct s; discriminate.
  - destruct (str_eqb _ _); [discriminate|]. destruct (str_eqb _ _); [discriminate|]. destruct (f_from_str _); discriminate.
Qed.
Lemma mapM_iff : forall A B (f : A -> res B) xs ys, mapM f xs = Ok ys <-> Forall2 (fun x y => f x = Ok y) xs ys.
Proof.
  intros A B f xs. induction xs as [|x xs IH]; intros ys; cbn [mapM].
  - split; [intros E; injection E as <-; constructor|]. intros F. now inversion F.
  - split.
    + destruct (f x) as [y|e|q] eqn:E; cbn [bind]; try discriminate. destruct (mapM f xs) as [zs|e|q] eqn:M; cbn [bind]; try discriminate. intros K. injection K as <-. constructor; [assumption|now apply IH].
    + intros F. inversion F as [|? y ? zs E F']; subst. rewrite E. cbn [bind]. apply IH in F'. now rewrite F'.
Qed.
Lemma mapM_panics : forall A B (f : A -> res B) xs q, mapM f xs = Panic q -> exists x, In x xs /\ f x = Panic q.
Proof.
  intros A B f xs q. induction xs as [|x xs IH]; cbn [mapM]; [discriminate|]. destruct (f x) as [y|e|q'] eqn:E; cbn [bind]; [|discriminate|intros K; injection K as ->; exists x; split; [now left|assumption]].
  destruct (mapM f xs) as [zs|e|q'] eqn:M; cbn [bind]; try discriminate. intros K. destruct (IH K) as (x' & I & E'). exists x'. split; [now right|assumption].
Qed.
Lemma pieces_iff : forall args ps, comma_pieces args ps <-> ps = split_char 44 args.
Proof.
  intros args ps. split.
  - intros (Ne & -> & F). symmetry. now apply join_split_unique.
  - intros ->. destruct (split_join 44 args) as (items & -> & Ne & E & F). now split.
Qed.
Lemma Forall2_iff : forall A B (P Q : A -> B -> Prop) xs ys, (forall x y, P x y <-> Q x y) -> (Forall2 P xs ys <-> Forall2 Q xs ys).
Proof. intros A B P Q xs ys E. split; intros F; induction F; constructor; auto; now apply E. Qed.
Lemma arguments_iff : forall args vs, parse_function_arguments args = Ok vs <-> example_arguments args vs.
Proof.
  intros args vs. unfold parse_function_arguments. split.
  - destruct (trim args) eqn:E; [intros K; injection K as <-; constructor; now apply trim_nil|]. intros K. apply mapM_iff in K. apply some_arguments with (split_char 44 args); [rewrite <- trim_nil; congruence|now apply pieces_iff|]. exact (proj1 (Forall2_iff _ _ _ _ _ _ argument_iff) K).
  - intros E. destruct E as [W|ps vs W P F]; [apply trim_nil in W; now rewrite W|]. destruct (trim args) eqn:E; [exfalso; now apply W, trim_nil|]. apply pieces_iff in P as ->. apply mapM_iff. exact (proj2 (Forall2_iff _ _ _ _ _ _ argument_iff) F).
Qed.
Lemma arguments_panic : forall args x, parse_function_arguments args = Panic x -> exists ps p, comma_pieces args ps /\ In p ps /\ trimmed p [34].
Proof.
  intros args x. unfold parse_function_arguments. destruct (trim args); [discriminate|]. intros K. apply mapM_panics in K as (p & I & K). exists (split_char 44 args), p. split; [now apply pieces_iff|]. split; [assumption|]. now apply argument_panics in K.
Qed.
Definition call_in (f : js_function) (call : str) : option str := match strip_prefix (js_name f ++ lit "(") (trim call) with Some s => strip_suffix (lit ")") s | None => None end.
Lemma call_iff : forall f call args, call_in f call = Some args <-> trimmed call (js_name f ++ lit "(" ++ args ++ lit ")").
Proof.
  intros f call args. unfold call_in. rewrite trimmed_iff. split.
  - destruct (strip_prefix _ _) as [s|] eqn:E; [|discriminate]. apply strip_prefix_spec in E. intros K. apply suffix_iff in K. subst s. rewrite E, <- app_assoc. reflexivity.
  - intros E. rewrite <- E. rewrite app_assoc. rewrite (proj2 (strip_prefix_spec (js_name f ++ lit "(") _ (args ++ lit ")")) eq_refl). now apply suffix_iff.
Qed.
Lemma example_iff : forall f args expected, example_of f args expected <->
  exists ex call rest, js_example f = Some ex /\ split_once (lit " returns ") ex = Some (call, rest) /\ call_in f call = Some args /\ trim rest = expected.
Proof.
  intros f args expected. split.
  - intros (ex & call & rest & E & Ex & M & T & T'). exists ex, call, rest. split; [assumption|]. split; [now apply once_iff|]. split; [now apply call_iff|]. symmetry. now apply trimmed_iff.
  - intros (ex & call & rest & E & S1 & C & <-). exists ex, call, rest. apply once_iff in S1 as [Ex M]. split; [assumption|]. split; [assumption|]. split; [assumption|]. split; [now apply call_iff|apply trim_trimmed].
Qed.

Section Examples.
  Context {X : Ext} {H : Host}.
  Lemma example_unfold : forall f ex call rest, split_once (lit " returns ") ex = Some (call, rest) ->
    test_js_function_example f ex = match call_in f call with
      | None => Ok (inr (lit "Invalid example format: cannot parse function call"))
      | Some args =>
          match parse_function_arguments args with
          | Panic p => Panic p
          | Err e => Ok (inr (e_msg e))
          | Ok vs =>
              match js_execute (js_code f) vs with
              | Panic p => Panic p
              | Err e => Ok (inr (lit "Function execution failed: " ++ show_error e))
              | Ok v =>
                  let got := format_value_for_comparison v in
                  if str_eqb got (trim rest) || str_eqb (34 :: got ++ [34]) (trim rest)
                  then Ok (inl (lit "Expected: " ++ trim rest ++ lit ", Got: " ++ got ++ [32; 10003]))
                  else Ok (inr (lit "Expected: " ++ trim rest ++ lit ", Got: " ++ got))
              end
          end
      end.
  Proof. intros f ex call rest E. unfold test_js_function_example. rewrite E. reflexivity. Qed.
  Lemma reported : forall f source, parse_js_function source = Ok f -> js_returns -> ~ lone_quote f -> exists v, validate_js_function source = Ok (f, v) /\ report f (v_passed v).
  Proof.
    intros f source P R L. unfold validate_js_function. rewrite P. destruct (js_example f) as [ex|] eqn:Ex.
    2:{ eexists. split; [reflexivity|]. assert (forall args expected, ~ example_of f args expected) as No by (intros args expected (ex & call & rest & E & _); congruence). split; intros; try reflexivity; try congruence; exfalso; eapply No; eauto. }
    destruct (split_once (lit " returns ") ex) as [[call rest]|] eqn:E1.
    2:{ unfold test_js_function_example. rewrite E1. cbn [bind]. eexists. split; [reflexivity|]. assert (forall args expected, ~ example_of f args expected) as No. { intros args expected K. apply example_iff in K as (ex' & call & rest & E & E2 & _). congruence. }
        split; intros; try reflexivity; try congruence; exfalso; eapply No; eauto. }
    rewrite (example_unfold f ex call rest E1). destruct (call_in f call) as [args|] eqn:E2.
    2:{ cbn [bind]. eexists. split; [reflexivity|]. assert (forall args expected, ~ example_of f args expected) as No. { intros args expected K. apply example_iff in K as (ex' & call' & rest' & E & E3 & E4 & _). congruence. }
        split; intros; try reflexivity; try congruence; exfalso; eapply No; eauto. }
    assert (example_of f args (trim rest)) as Eo by (apply example_iff; exists ex, call, rest; auto).
    assert (forall args' expected', example_of f args' expected' -> args' = args /\ expected' = trim rest) as Un. { intros args' expected' K. apply example_iff in K as (ex' & call' & rest' & E & E3 & E4 & E5). split; congruence. }
    destruct (parse_function_arguments args) as [vs|e|x] eqn:E3.
    3:{ exfalso. apply L. apply arguments_panic in E3 as (ps & p & A & B & C). now exists args, (trim rest), ps, p. }
    2:{ cbn [bind]. eexists. split; [reflexivity|]. assert (forall args' expected' vs, example_of f args' expected' -> ~ example_arguments args' vs) as No. { intros args' expected' vs K A. apply Un in K as [-> _]. apply arguments_iff in A. congruence. }
        split; intros; try reflexivity; try congruence; exfalso; eapply No; eauto. }
    assert (forall args' expected' vs', example_of f args' expected' -> example_arguments args' vs' -> vs' = vs /\ expected' = trim rest) as Un'. { intros args' expected' vs' K A. apply Un in K as [-> ->]. apply arguments_iff in A. split; [congruence|reflexivity]. }
    assert (forall args', example_of f args' (trim rest) -> (forall vs, ~ example_arguments args' vs) -> False) as Ar. { intros args' K A. apply Un in K as [-> _]. apply (A vs). now apply arguments_iff. }
    destruct (js_execute (js_code f) vs) as [v|e|x] eqn:E4; [| |exfalso; now apply (execute_returns R (js_code f) vs x)].
    - cbn zeta. assert (str_eqb (format_value_for_comparison v) (trim rest) || str_eqb (34 :: format_value_for_comparison v ++ [34]) (trim rest) = true <-> trim rest = format_value_for_comparison v \/ trim rest = [34] ++ format_value_for_comparison v ++ [34]) as T.
      { rewrite orb_true_iff, !str_eqb_eq. cbn [app]. split; intros [A|A]; auto. }
      destruct (_ || _) eqn:Q; cbn [bind]; eexists; (split; [reflexivity|]); cbn [v_passed]; split.
      + congruence.
      + intros args' expected' vs' v' t K A Hj Rt. apply executed in Hj. destruct (Un' _ _ _ K A) as [-> ->]. assert (v' = v) as -> by congruence. apply result_read in Rt. subst t. now rewrite <- T.
      + intros args' expected' vs' K A Hj. destruct (Un' _ _ _ K A) as [-> ->]. exfalso. apply (Hj v), executed, E4.
      + intros args' expected' K A. exfalso. destruct (Un _ _ K) as [-> ->]. now apply (Ar args K).
      + intros _ No. exfalso. now apply (No args (trim rest)).
      + congruence.
      + intros args' expected' vs' v' t K A Hj Rt. apply executed in Hj. destruct (Un' _ _ _ K A) as [-> ->]. assert (v' = v) as -> by congruence. apply result_read in Rt. subst t. now rewrite <- T.
      + reflexivity.
      + reflexivity.
      + reflexivity.
    - cbn [bind]. eexists. split; [reflexivity|]. cbn [v_passed]. split; intros; try reflexivity; try congruence.
      exfalso. destruct (Un' args0 expected vs0) as [-> ->]; auto. match goal with J : js_gives _ _ _ |- _ => apply executed in J; congruence end.
  Qed.
End Examples.
