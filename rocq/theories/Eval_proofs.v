(** Lemmas about evaluation: scoping, laziness, failures, spread, indexing,
    comparison, assignments, safe navigation. *)
From Coq Require Import Floats.SpecFloat.
From Coq Require Import String List ZArith NArith Bool Lia.
From Verif Require Import Base Base_proofs F64 Utf8 Utf8_proofs Parse_proofs Syntax Ext Json Utils Dispatch Registry Methods Core Evaluator Lexer Parser Api Spec
  Value_proofs Float_proofs Env_proofs Logic_proofs.
Import ListNotations.

Section Eval.
  Context {X : Ext}.

  (** ** C07 *)
  Lemma eval_agree : forall e c1 c2, c_reg c1 = c_reg c2 -> agree_on (variables e) (c_vars c1) (c_vars c2) ->
    eval e c1 = eval e c2.
  Proof.
    intros e c1 c2 Hr Ha. apply (proj1 (eval_ok (fun x => In x (variables e)) e (fun x H => H))). split; auto.
  Qed.
  Lemma ev_agree : forall e v1 v2, agree_on (variables e) v1 v2 -> ev e (Some v1) = ev e (Some v2).
  Proof.
    intros e c1 c2 Ha. apply (proj1 (ev_ok (fun x => In x (variables e)) e (fun x H => H))). exact Ha.
  Qed.
  Lemma ev_custom_agree : forall reg e v1 v2, agree_on (variables e) v1 v2 -> ev_custom reg e v1 = ev_custom reg e v2.
  Proof.
    intros reg e c1 c2 Ha. apply (proj1 (ev_custom_ok (fun x => In x (variables e)) reg e (fun x H => H))). exact Ha.
  Qed.
  Lemma evaluate_with_agree : forall src e m1 m2, parse src = Ok e -> agree_on (variables e) m1 m2 ->
    evaluate_with src m1 = evaluate_with src m2
    /\ (forall reg, evaluate_with_custom reg src m1 = evaluate_with_custom reg src m2)
    /\ evaluate_with_assignments src m1 = evaluate_with_assignments src m2.
  Proof.
    intros src e m1 m2 Hp Ha. unfold evaluate_with, evaluate_with_custom, evaluate_with_assignments.
    rewrite Hp. cbn [bind]. split; [|split].
    - now apply eval_agree.
    - intros reg. now apply eval_agree.
    - pose proof (eval_assign_ok (fun x => In x (variables e)) e (fun x H => H) m1 m2 Ha) as E. unfold er in E.
      destruct (eval_assign e m1) as [[a v1]|x|x], (eval_assign e m2) as [[b v2]|y|y]; simpl; try contradiction; try congruence.
      destruct E as [-> _]. reflexivity.
  Qed.

  (** ** C08 *)
  Definition everything : str -> Prop := fun _ => True.
  Lemma ea_all : forall P v1 v2, ea everything v1 v2 -> ea P v1 v2.
  Proof. intros P v1 v2 H x _. now apply H. Qed.
  Definition except (p : str) : str -> Prop := fun x => x <> p.
  Lemma ea_cover : forall p x v1 v2, ea (except p) v1 v2 -> ea everything (minsert p x v1) (minsert p x v2).
  Proof.
    intros p x v1 v2 H y _. rewrite !mget_minsert. destruct (str_eqb y p) eqn:E; auto.
    apply str_eqb_neq in E. now apply H.
  Qed.
  Lemma ea_insert_except : forall p x v, ea (except p) (minsert p x v) v.
  Proof. intros p x v y Hy. now rewrite mget_minsert_other. Qed.
  Lemma lambda_all : forall e, respects (ea everything) (fun v => eval e (vars_ctx v)).
  Proof. intros e v1 v2 H. apply eval_agree; auto. intros x _. now apply H. Qed.
  Lemma lambda_arg : forall e sp, respects (ea everything) (lambda_ctx (mkArg (eval e) sp)).
  Proof. intros e sp. exact (lambda_all e). Qed.
  Lemma ev_all : forall e, respects (ea everything) (fun v => ev e (Some v)).
  Proof. intros e v1 v2 H. apply ev_agree; auto. intros x _. now apply H. Qed.
  Lemma ev_custom_all : forall reg e, respects (ea everything) (ev_custom reg e).
  Proof. intros reg e v1 v2 H. apply ev_custom_agree; auto. intros x _. now apply H. Qed.
  Section Shadow.
    Variable f : env -> res value.
    Hypothesis Hf : respects (ea everything) f.
    Lemma filter_shadow : forall p items v1 v2, ea (except p) v1 v2 -> filter_loop f p v1 items = filter_loop f p v2 items.
    Proof.
      intros p [|it items] v1 v2 H; auto. cbn [filter_loop]. pose proof (ea_cover p it _ _ H) as C.
      rewrite (Hf _ _ C). pose proof (filter_ok everything f p items Hf _ _ C) as E. cbv beta in E. now rewrite E.
    Qed.
    Lemma map_shadow : forall p items v1 v2, ea (except p) v1 v2 -> map_loop f p v1 items = map_loop f p v2 items.
    Proof.
      intros p [|it items] v1 v2 H; auto. cbn [map_loop]. pose proof (ea_cover p it _ _ H) as C.
      rewrite (Hf _ _ C). pose proof (map_ok everything f p items Hf _ _ C) as E. cbv beta in E. now rewrite E.
    Qed.
    Lemma find_shadow : forall p items v1 v2, ea (except p) v1 v2 -> find_loop f p v1 items = find_loop f p v2 items.
    Proof.
      intros p [|it items] v1 v2 H; auto. cbn [find_loop]. pose proof (ea_cover p it _ _ H) as C.
      rewrite (Hf _ _ C). pose proof (find_ok everything f p items Hf _ _ C) as E. cbv beta in E. now rewrite E.
    Qed.
    Lemma reduce_shadow : forall p q items acc v1 v2,
      (forall x, x <> p -> x <> q -> mget x v1 = mget x v2) ->
      reduce_loop f p q v1 acc items = reduce_loop f p q v2 acc items.
    Proof.
      intros p q [|it items] acc v1 v2 H; auto. cbn [reduce_loop].
      assert (C : ea everything (minsert q acc (minsert p it v1)) (minsert q acc (minsert p it v2))).
      { intros y _. rewrite !mget_minsert. destruct (str_eqb y q) eqn:E1; auto. destruct (str_eqb y p) eqn:E2; auto.
        apply str_eqb_neq in E1, E2. now apply H. }
      rewrite (Hf _ _ C). destruct (f _) as [a| |]; auto. cbn [bind].
      exact (reduce_ok everything f p q items a Hf _ _ C).
    Qed.
    Lemma countif_shadow : forall items n v1 v2, ea (except (lit "x")) v1 v2 -> countif_loop f v1 n items = countif_loop f v2 n items.
    Proof.
      intros [|it items] n v1 v2 H; auto. cbn [countif_loop]. pose proof (ea_cover (lit "x") it _ _ H) as C.
      rewrite (Hf _ _ C). destruct (f _) as [a| |]; auto. cbn [bind].
      exact (countif_ok everything f items _ Hf _ _ C).
    Qed.
    Lemma avgif_shadow : forall items acc n v1 v2, ea (except (lit "x")) v1 v2 ->
      avgif_loop f v1 acc n items = avgif_loop f v2 acc n items.
    Proof.
      intros [|it items] acc n v1 v2 H; auto. cbn [avgif_loop]. pose proof (ea_cover (lit "x") it _ _ H) as C.
      rewrite (Hf _ _ C). destruct (f _) as [a| |]; auto. cbn [bind].
      destruct (is_true a), (addend it); exact (avgif_ok everything f items _ _ Hf _ _ C).
    Qed.
  End Shadow.

  Lemma eval_rebind : forall e p v c, ~ In p (variables e) -> eval e (rebind p v c) = eval e c.
  Proof.
    intros e p v c H. apply eval_agree; auto. intros x Hx. cbn [rebind c_vars]. apply mget_minsert_other. congruence.
  Qed.
  (** calls that are not custom, as the built-in handler *)
  Lemma top_names : forall c name es, uncustomised c name -> In name ["FILTER"; "FIND"; "MAP"; "REDUCE"; "SUMIF"; "AVGIF"; "COUNTIF"; "JQ"]%string ->
    eval (call name es) c =
      (if String.eqb name "FILTER" then top_filter c (args_of es)
       else if String.eqb name "FIND" then top_find c (args_of es)
       else if String.eqb name "MAP" then top_map c (args_of es)
       else if String.eqb name "REDUCE" then top_reduce c (args_of es)
       else if String.eqb name "SUMIF" then top_sumif c (args_of es)
       else if String.eqb name "AVGIF" then top_avgif c (args_of es)
       else if String.eqb name "COUNTIF" then top_countif c (args_of es)
       else top_jq c (args_of es)).
  Proof.
    intros c name es Hu Hn. unfold call. rewrite eval_call. unfold top_call. rewrite uncustomised_hit by auto.
    repeat (destruct Hn as [<-|Hn]; [reflexivity|]). destruct Hn.
  Qed.
  Lemma uncustomised_rebind : forall c name p v, uncustomised c name -> uncustomised (rebind p v c) name.
  Proof. auto. Qed.
  Lemma shadow3 : forall name c a body p v, In name ["FILTER"; "FIND"; "MAP"]%string -> uncustomised c name ->
    ~ In p (variables a) ->
    eval (call name [a; body; EStringLit p]) (rebind p v c) = eval (call name [a; body; EStringLit p]) c.
  Proof.
    intros name c a body p v Hn Hu Hp.
    assert (Hn' : In name ["FILTER"; "FIND"; "MAP"; "REDUCE"; "SUMIF"; "AVGIF"; "COUNTIF"; "JQ"]%string)
      by (simpl in *; tauto).
    rewrite !top_names by (auto using uncustomised_rebind).
    assert (Hx : ea (except p) (c_vars (rebind p v c)) (c_vars c)) by apply ea_insert_except.
    destruct Hn as [<-|[<-|[<-|[]]]]; cbn [String.eqb Ascii.eqb Bool.eqb args_of map a_eval];
      unfold top_filter, top_find, top_map; cbn [a_eval nth_error get_param eval param_of bind];
      rewrite (eval_rebind a) by auto; destruct (eval a c) as [arr| |]; auto; cbn [bind];
      destruct (as_array arr _) as [items| |]; auto; cbn [bind].
    - rewrite (filter_shadow _ (lambda_arg body _) p items _ _ Hx). reflexivity.
    - rewrite (find_shadow _ (lambda_arg body _) p items _ _ Hx). reflexivity.
    - rewrite (map_shadow _ (lambda_arg body _) p items _ _ Hx). reflexivity.
  Qed.
  Lemma shadow2 : forall name c a body v, In name ["FILTER"; "FIND"; "MAP"; "AVGIF"; "COUNTIF"]%string -> uncustomised c name ->
    ~ In (lit "x") (variables a) ->
    eval (call name [a; body]) (rebind (lit "x") v c) = eval (call name [a; body]) c.
  Proof.
    intros name c a body v Hn Hu Hp.
    assert (Hn' : In name ["FILTER"; "FIND"; "MAP"; "REDUCE"; "SUMIF"; "AVGIF"; "COUNTIF"; "JQ"]%string)
      by (simpl in *; tauto).
    rewrite !top_names by (auto using uncustomised_rebind).
    assert (Hx : ea (except (lit "x")) (c_vars (rebind (lit "x") v c)) (c_vars c)) by apply ea_insert_except.
    destruct Hn as [<-|[<-|[<-|[<-|[<-|[]]]]]]; cbn [String.eqb Ascii.eqb Bool.eqb args_of map a_eval];
      unfold top_filter, top_find, top_map, top_avgif, top_countif, two_args; cbn [a_eval nth_error get_param eval param_of bind];
      rewrite (eval_rebind a) by auto; destruct (eval a c) as [arr| |]; auto; cbn [bind];
      unfold avgif_with, countif_with;
      destruct (as_array arr _) as [items| |]; auto; cbn [bind].
    - rewrite (filter_shadow _ (lambda_arg body _) _ items _ _ Hx). reflexivity.
    - rewrite (find_shadow _ (lambda_arg body _) _ items _ _ Hx). reflexivity.
    - rewrite (map_shadow _ (lambda_arg body _) _ items _ _ Hx). reflexivity.
    - rewrite (avgif_shadow _ (lambda_arg body _) items _ _ _ _ Hx). reflexivity.
    - rewrite (countif_shadow _ (lambda_arg body _) items _ _ _ Hx). reflexivity.
  Qed.
  Lemma shadow_reduce : forall c a body init p q r v, uncustomised c "REDUCE" -> r = p \/ r = q ->
    ~ In r (variables a) -> ~ In r (variables init) ->
    eval (call "REDUCE" [a; body; init; EStringLit p; EStringLit q]) (rebind r v c)
    = eval (call "REDUCE" [a; body; init; EStringLit p; EStringLit q]) c.
  Proof.
    intros c a body init p q r v Hu Hr Ha Hi.
    assert (Hn' : In "REDUCE"%string ["FILTER"; "FIND"; "MAP"; "REDUCE"; "SUMIF"; "AVGIF"; "COUNTIF"; "JQ"]%string)
      by (simpl; tauto).
    rewrite !top_names by (auto using uncustomised_rebind).
    cbn [String.eqb Ascii.eqb Bool.eqb args_of map a_eval].
    unfold top_reduce; cbn [a_eval nth_error get_param eval param_of bind].
    rewrite (eval_rebind a) by auto; destruct (eval a c) as [arr| |]; auto; cbn [bind].
    rewrite (eval_rebind init) by auto; destruct (eval init c) as [i| |]; auto; cbn [bind].
    destruct (as_array arr _) as [items| |]; auto; cbn [bind].
    apply (reduce_shadow _ (lambda_arg body _)). intros x H1 H2. cbn [rebind c_vars]. apply mget_minsert_other. destruct Hr; congruence.
  Qed.
  (** methods *)
  Lemma method_lambda_ok : forall c body, respects (ea everything)
    (match c_reg c with Some reg => ev_custom reg body | None => fun vars => ev body (Some vars) end).
  Proof. intros c body. destruct (c_reg c); [apply ev_custom_all|apply ev_all]. Qed.
  Lemma shadow_method : forall name c t body p v, In name ["filter"; "map"; "find"]%string -> ~ In p (variables t) ->
    eval (EMethodCall t (lit name) [body; EStringLit p] false) (rebind p v c)
    = eval (EMethodCall t (lit name) [body; EStringLit p] false) c.
  Proof.
    intros name c t body p v Hn Hp.
    assert (Hx : ea (except p) (c_vars (rebind p v c)) (c_vars c)) by apply ea_insert_except.
    cbn [eval]. rewrite (eval_rebind t) by auto. destruct (eval t c) as [recv| |]; auto. cbn [bind].
    change (margs_of (rebind p v c)) with (margs_of c).
    assert (Hnot : forall r bv1 bv2, (forall xs, r <> VArray xs) ->
      exec_method (lit name) false r (margs_of c [body; EStringLit p]) (Some bv1) =
      exec_method (lit name) false r (margs_of c [body; EStringLit p]) (Some bv2)).
    { intros r bv1 bv2 Hr. destruct Hn as [<-|[<-|[<-|[]]]]; destruct r; try reflexivity; now destruct (Hr xs). }
    destruct recv as [n|xs| | | | | |]; try (apply Hnot; discriminate). clear Hnot.
    pose proof (method_lambda_ok c body) as Hl.
    destruct Hn as [<-|[<-|[<-|[]]]].
    - exact (f_equal (fun r => out <- r ;; Ok (VArray out)) (filter_shadow _ Hl p xs _ _ Hx)).
    - exact (f_equal (fun r => out <- r ;; Ok (VArray out)) (map_shadow _ Hl p xs _ _ Hx)).
    - exact (find_shadow _ Hl p xs _ _ Hx).
  Qed.
  (** a lambda parameter does not survive the call *)
  Lemma call_restores : forall name es p v r c, mget p (c_vars c) = Some v -> eval (EFunctionCall name es) c = Ok r ->
    eval (EArray [EVariable p; EFunctionCall name es; EVariable p]) c = Ok (VArray [v; r; v]).
  Proof.
    intros name es p v r c Hp Hr. change (eval (EArray [EVariable p; EFunctionCall name es; EVariable p]) c) with
      (vs <- mapM (fun a => eval a c) [EVariable p; EFunctionCall name es; EVariable p] ;; Ok (VArray vs)).
    cbn [mapM]. rewrite Hr. cbn [eval bind]. rewrite Hp. reflexivity.
  Qed.

  (** ** C09 *)
  Lemma ternary_eval : forall e a b c, eval (call "__TERNARY__" [e; a; b]) c =
    match eval e c with
    | Ok (VBoolean true) => eval a c
    | Ok (VBoolean false) => eval b c
    | Ok _ => Err (err "Ternary condition must be boolean")
    | Err x => Err x
    | Panic w => Panic w
    end.
  Proof.
    intros e a b c. unfold call. rewrite eval_call. unfold top_call.
    change (is (lit "__TERNARY__") "__TERNARY__") with true. cbv iota. cbn [args_of map ternary a_eval].
    destruct (eval e c) as [v| |]; auto. cbn [bind]. destruct v as [| |[]| | | | |]; reflexivity.
  Qed.

  (** ** C10 *)
  Lemma bind_fails : forall A B (r : res A) (k : A -> res B), (forall a, r <> Ok a) -> fails_like r (bind r k).
  Proof. intros A B [a|x|w] k H; simpl; auto. now destruct (H a). Qed.
  Lemma fails_trans : forall A B C (r1 : res A) (r2 : res B) (r3 : res C), fails_like r1 r2 -> fails_like r2 r3 -> fails_like r1 r3.
  Proof. intros A B C [a|x|w] [b|y|u] [d|z|t]; simpl; try tauto; congruence. Qed.
  Lemma fails_not_ok : forall A B (r1 : res A) (r2 : res B) a, fails_like r1 r2 -> r2 <> Ok a.
  Proof. intros A B [b|x|w] [d|y|u] a; simpl; try tauto; congruence. Qed.
  Lemma fails_bind : forall A B C (r1 : res A) (r2 : res B) (k : B -> res C), fails_like r1 r2 -> fails_like r1 (bind r2 k).
  Proof. intros A B C [a|x|w] [b|y|u] k; simpl; tauto. Qed.

  Lemma unary_fails : forall op e c, (forall v, eval e c <> Ok v) -> fails_like (eval e c) (eval (EUnary op e) c).
  Proof. intros op e c H. cbn [eval]. now apply bind_fails. Qed.
  Lemma binary_fails_l : forall l op r c, (forall v, eval l c <> Ok v) -> fails_like (eval l c) (eval (EBinary l op r) c).
  Proof. intros l op r c H. cbn [eval]. now apply bind_fails. Qed.
  Lemma binary_fails_r : forall l op r c v, eval l c = Ok v -> (forall v, eval r c <> Ok v) ->
    fails_like (eval r c) (eval (EBinary l op r) c).
  Proof. intros l op r c v Hl H. cbn [eval]. rewrite Hl. cbn [bind]. now apply bind_fails. Qed.
  Lemma mapM_fails : forall (f : expr -> res value) before e after vs, Forall2 (fun x v => f x = Ok v) before vs -> (forall v, f e <> Ok v) ->
    fails_like (f e) (mapM f (before ++ e :: after)).
  Proof.
    intros f before e after vs Hb He. induction Hb as [|x v before vs Hx Hb IH]; cbn [app mapM].
    - now apply bind_fails.
    - rewrite Hx. cbn [bind]. now apply fails_bind.
  Qed.
  Lemma array_fails : forall before e after vs c, evaluate_to c before vs -> (forall v, eval e c <> Ok v) ->
    fails_like (eval e c) (eval (EArray (before ++ e :: after)) c).
  Proof.
    intros before e after vs c Hb He. cbn [eval]. apply fails_bind. now apply (mapM_fails (fun a => eval a c) before e after vs).
  Qed.
  Lemma object_fails : forall before k e after c, Forall (fun kv => exists v j, eval (snd kv) c = Ok v /\ value_to_json v = Ok j) before ->
    (forall v, eval e c <> Ok v) ->
    fails_like (eval e c) (eval (EObjectLiteral (before ++ (k, e) :: after)) c).
  Proof.
    intros before k e after c Hb He. cbn [eval]. unfold build_object. apply fails_bind. rewrite map_app. cbn [map].
    generalize (@nil (str * json)) as acc. induction Hb as [|kv before (v & j & Hv & Hj) Hb IH]; intros acc; cbn [app map foldM fst snd].
    - apply fails_bind. now apply bind_fails.
    - rewrite Hv. cbn [bind]. rewrite Hj. cbn [bind]. apply IH.
  Qed.
  Lemma collect_fails : forall before e after vs c, evaluate_to c before vs -> (forall v, eval e c <> Ok v) ->
    (forall i, e <> ESpread i) ->
    fails_like (eval e c) (collect_args c (args_of (before ++ e :: after))).
  Proof.
    intros before e after vs c Hb He Hs. induction Hb as [|x v before vs Hx Hb IH]; cbn [app args_of map collect_args a_spread a_eval].
    - assert (E : match e with ESpread i => Some (eval i) | _ => None end = None) by (destruct e; auto; now destruct (Hs e)).
      rewrite E. now apply bind_fails.
    - assert (E : match x with ESpread i => Some (eval i) | _ => None end = None) by (destruct x; auto; discriminate Hx).
      rewrite E, Hx. cbn [bind]. now apply fails_bind.
  Qed.
  (** a call that evaluates its arguments eagerly *)
  Lemma lazy_false : forall name, (forall n, In n lazy_names -> name <> lit n) -> forall n, In n lazy_names -> is name n = false.
  Proof.
    intros name H n Hn. unfold is. destruct (str_eqb name (lit n)) eqn:E; auto. apply str_eqb_eq in E. now destruct (H n Hn).
  Qed.
  Lemma eager_call : forall name c, (forall n, In n lazy_names -> name <> lit n) ->
    exists k, forall es', eval (EFunctionCall name es') c = bind (collect_args c (args_of es')) k.
  Proof.
    intros name c Hn. pose proof (lazy_false name Hn) as K.
    exists (match custom_hit c name with Some reg => reg_execute reg name | None => exec_builtin_fast name end).
    intros es'. rewrite eval_call. unfold top_call.
    rewrite !K by (apply in_names; vm_compute; reflexivity). destruct (custom_hit c name); auto.
  Qed.
  (** a custom function is eager under any name but the three internal ones *)
  Lemma eager_custom : forall name reg vars, (forall n, In n ["__TERNARY__"; "__CONST_TRUE__"; "__CONST_FALSE__"]%string -> name <> lit n) ->
    has_custom_function reg name = true ->
    forall es, eval (EFunctionCall name es) (custom_ctx vars reg)
      = bind (collect_args (custom_ctx vars reg) (args_of es)) (reg_execute reg name).
  Proof.
    intros name reg vars Hn Hr es. rewrite eval_call. unfold top_call.
    assert (K : forall n, In n ["__TERNARY__"; "__CONST_TRUE__"; "__CONST_FALSE__"]%string -> is name n = false).
    { intros n H. unfold is. destruct (str_eqb name (lit n)) eqn:E; auto. apply str_eqb_eq in E. now destruct (Hn n H). }
    rewrite !K by (simpl; tauto). unfold custom_hit. cbn [c_reg custom_ctx]. unfold has_custom_function in Hr. now rewrite Hr.
  Qed.
  Lemma call_fails : forall name before e after vs c, (forall n, In n lazy_names -> name <> lit n) ->
    evaluate_to c before vs -> (forall v, eval e c <> Ok v) -> (forall i, e <> ESpread i) ->
    fails_like (eval e c) (eval (EFunctionCall name (before ++ e :: after)) c).
  Proof.
    intros name before e after vs c Hn Hb He Hs. destruct (eager_call name c Hn) as [k Hk]. rewrite Hk.
    apply fails_bind. now apply (collect_fails before e after vs).
  Qed.
  (** ** C15 *)
  Lemma collect_app : forall C (c : C) l1 l2, collect_args c (l1 ++ l2) =
    bind (collect_args c l1) (fun a => bind (collect_args c l2) (fun b => Ok (a ++ b))).
  Proof.
    intros C c l1 l2. induction l1 as [|x l1 IH]; cbn [app collect_args].
    - cbn [bind]. destruct (collect_args c l2); reflexivity.
    - destruct (a_spread x) as [f|].
      + destruct (f c) as [v| |]; auto. cbn [bind]. destruct v; auto. rewrite IH.
        destruct (collect_args c l1); auto. cbn [bind]. destruct (collect_args c l2); auto. cbn [bind]. now rewrite app_assoc.
      + destruct (a_eval x c) as [v| |]; auto. cbn [bind]. rewrite IH.
        destruct (collect_args c l1); auto. cbn [bind]. destruct (collect_args c l2); auto.
  Qed.
  Lemma args_of_app : forall a b, args_of (a ++ b) = args_of a ++ args_of b.
  Proof. intros. unfold args_of. apply map_app. Qed.
  Lemma collect_spread : forall before s after vs es c, eval s c = Ok (VArray vs) -> evaluate_to c es vs ->
    collect_args c (args_of (before ++ ESpread s :: after)) = collect_args c (args_of (before ++ es ++ after)).
  Proof.
    intros before s after vs es c Hs He. rewrite !args_of_app, !collect_app.
    destruct (collect_args c (args_of before)) as [a| |]; auto. cbn [bind].
    rewrite (collect_ok _ _ _ He). cbn [args_of map collect_args a_spread]. rewrite Hs. cbn [bind].
    fold (args_of after). destruct (collect_args c (args_of after)); reflexivity.
  Qed.
  Lemma spread_call : forall name before s after vs es c, (forall n, In n lazy_names -> name <> lit n) ->
    eval s c = Ok (VArray vs) -> evaluate_to c es vs ->
    eval (EFunctionCall name (before ++ ESpread s :: after)) c = eval (EFunctionCall name (before ++ es ++ after)) c.
  Proof.
    intros name before s after vs es c Hn Hs He. destruct (eager_call name c Hn) as [k Hk]. rewrite !Hk.
    now rewrite (collect_spread before s after vs es).
  Qed.
  Lemma spread_custom : forall name before s after vs es vars reg,
    (forall n, In n ["__TERNARY__"; "__CONST_TRUE__"; "__CONST_FALSE__"]%string -> name <> lit n) ->
    has_custom_function reg name = true ->
    eval s (custom_ctx vars reg) = Ok (VArray vs) -> evaluate_to (custom_ctx vars reg) es vs ->
    eval (EFunctionCall name (before ++ ESpread s :: after)) (custom_ctx vars reg)
    = eval (EFunctionCall name (before ++ es ++ after)) (custom_ctx vars reg).
  Proof.
    intros name before s after vs es vars reg Hn Hr Hs He. rewrite !eager_custom by auto.
    now rewrite (collect_spread before s after vs es).
  Qed.
  Lemma spread_non_array : forall name before s after v c, (forall n, In n lazy_names -> name <> lit n) ->
    eval s c = Ok v -> (forall xs, v <> VArray xs) ->
    forall r, eval (EFunctionCall name (before ++ ESpread s :: after)) c <> Ok r.
  Proof.
    intros name before s after v c Hn Hs Hv r. destruct (eager_call name c Hn) as [k Hk]. rewrite Hk.
    rewrite args_of_app, collect_app. destruct (collect_args c (args_of before)) as [a| |]; try discriminate. cbn [bind].
    cbn [args_of map collect_args a_spread]. rewrite Hs. cbn [bind]. destruct v; try discriminate. now destruct (Hv xs).
  Qed.

  (** ** C16 *)
  Lemma trunc_whole : forall x, trunc_Z x = whole_part x.
  Proof. intros [s|s| |s m e]; try destruct s; reflexivity. Qed.
  Lemma isize_whole : forall x, finite x -> (- 2 ^ 63 <= whole_part x < 2 ^ 63)%Z -> f_to_isize x = whole_part x.
  Proof.
    intros x Hf Hr. unfold f_to_isize, f_to_i64, f_to_int, i64_min, i64_max. rewrite <- trunc_whole in *.
    destruct x; try discriminate Hf; lia.
  Qed.
  Lemma index_cases : forall t i c xs n, eval t c = Ok (VArray xs) -> eval i c = Ok (VNumber n) -> finite n ->
    (- 2 ^ 63 < whole_part n < 2 ^ 63)%Z ->
    let z := whole_part n in let len := Z.of_nat (length xs) in
    ((0 <= z < len)%Z -> exists v, nth_error xs (Z.to_nat z) = Some v /\ eval (EIndex t i) c = Ok v)
    /\ ((- len <= z < 0)%Z -> exists v, nth_error xs (Z.to_nat (len + z)) = Some v /\ eval (EIndex t i) c = Ok v)
    /\ ((len <= z \/ z < - len)%Z -> fails (eval (EIndex t i) c)).
  Proof.
    intros t i c xs n Ht Hi Hf Hr z len. cbn [eval]. rewrite Ht, Hi. cbn [bind]. unfold index_value. cbn [as_number ok_or bind].
    rewrite isize_whole by (auto; lia). fold z in Hr |- *. unfold index_array, clamp_index, zlen, i64_min. fold len.
    assert (Hnth : forall k, (0 <= k < len)%Z -> exists v, nth_error xs (Z.to_nat k) = Some v).
    { intros k Hk. destruct (nth_error xs (Z.to_nat k)) as [v|] eqn:E; eauto. apply nth_error_None in E. lia. }
    split; [|split].
    - intros Hz. destruct (Hnth z Hz) as [v Hv]. exists v. split; auto.
      destruct (Z.leb_spec 0 z); [|lia]. destruct (Z.ltb_spec z len); [|lia]. cbn [bind]. unfold znth. now rewrite Hv.
    - intros Hz. destruct (Hnth (len + z)%Z ltac:(lia)) as [v Hv]. exists v. split; auto.
      destruct (Z.leb_spec 0 z); [lia|]. destruct (Z.eqb_spec z (- 2 ^ 63)); [lia|].
      destruct (Z.leb_spec (- z) len); [|lia]. cbn [bind]. unfold znth. replace (len - - z)%Z with (len + z)%Z by lia. now rewrite Hv.
    - intros Hz. destruct (Z.leb_spec 0 z).
      + destruct (Z.ltb_spec z len); [lia|]. cbn [bind]. eexists; reflexivity.
      + destruct (Z.eqb_spec z (- 2 ^ 63)); [lia|]. destruct (Z.leb_spec (- z) len); [lia|]. eexists; reflexivity.
  Qed.
  Lemma index_huge : forall t i c xs n, eval t c = Ok (VArray xs) -> eval i c = Ok (VNumber n) -> fits_list xs ->
    n = f_inf \/ (finite n /\ (2 ^ 63 <= whole_part n)%Z) -> fails (eval (EIndex t i) c).
  Proof.
    intros t i c xs n Ht Hi Hfit Hn. cbn [eval]. rewrite Ht, Hi. cbn [bind]. unfold index_value. cbn [as_number ok_or bind].
    assert (E : f_to_isize n = i64_max).
    { destruct Hn as [-> | [Hf Hw]]; auto. rewrite <- trunc_whole in Hw. unfold f_to_isize, f_to_i64, f_to_int, i64_min, i64_max in *.
      destruct n; try discriminate Hf; lia. }
    rewrite E. unfold index_array, clamp_index, zlen. unfold fits_list in Hfit.
    destruct (Z.leb_spec 0 i64_max) as [H|H]; [|unfold i64_max in *; lia].
    destruct (Z.ltb_spec i64_max (Z.of_nat (length xs))) as [H1|H1]; [unfold i64_max in *; lia|]. eexists; reflexivity.
  Qed.
  Lemma index_overflow : forall t i c xs n, eval t c = Ok (VArray xs) -> eval i c = Ok (VNumber n) ->
    n = S754_infinity true \/ (finite n /\ (whole_part n <= - 2 ^ 63)%Z) ->
    exists w, eval (EIndex t i) c = Panic w.
  Proof.
    intros t i c xs n Ht Hi Hn. cbn [eval]. rewrite Ht, Hi. cbn [bind]. unfold index_value. cbn [as_number ok_or bind].
    assert (E : f_to_isize n = i64_min).
    { destruct Hn as [-> | [Hf Hw]]; auto. rewrite <- trunc_whole in Hw. unfold f_to_isize, f_to_i64, f_to_int, i64_min, i64_max in *.
      destruct n; try discriminate Hf; lia. }
    rewrite E. eexists. reflexivity.
  Qed.
  Lemma index_nan : forall t i c xs, eval t c = Ok (VArray xs) -> eval i c = Ok (VNumber f_nan) ->
    match xs with x :: _ => eval (EIndex t i) c = Ok x | [] => fails (eval (EIndex t i) c) end.
  Proof.
    intros t i c xs Ht Hi. cbn [eval]. rewrite Ht, Hi. destruct xs; [eexists|]; reflexivity.
  Qed.
  Lemma index_type : forall t i c v w, eval t c = Ok v -> eval i c = Ok w ->
    (forall xs, v <> VArray xs) \/ (forall n, w <> VNumber n) -> fails (eval (EIndex t i) c).
  Proof.
    intros t i c v w Ht Hi H. cbn [eval]. rewrite Ht, Hi. cbn [bind]. unfold index_value.
    destruct w; try (eexists; reflexivity). destruct H as [H|H]; [|now destruct (H n)].
    destruct v; try (eexists; reflexivity). now destruct (H xs).
  Qed.
  Lemma slice_cases : forall t i j c xs m n, eval t c = Ok (VArray xs) -> fits_list xs ->
    match i with Some e => eval e c = Ok (VNumber m) | None => m = S754_zero false end ->
    match j with Some e => eval e c = Ok (VNumber n) | None => True end ->
    finite m -> finite n ->
    let len := Z.of_nat (length xs) in
    let a := clamped len (whole_part m) in
    let b := match j with Some _ => clamped len (whole_part n) | None => len end in
    eval (ESlice t i j) c = Ok (VArray (firstn (Z.to_nat (b - a)) (skipn (Z.to_nat a) xs))).
  Proof.
    intros t i j c xs m n Ht Hfit Hi Hj Hm Hn len a b. cbn [eval]. rewrite Ht. cbn [bind]. unfold slice_value.
    assert (S : forall e x d, eval e c = Ok (VNumber x) ->
       (v <- eval e c ;; Ok (Some v)) = Ok (Some (VNumber x)) /\ slice_bound (Some (VNumber x)) d = Ok (f_to_isize x)).
    { intros e x d ->. split; reflexivity. }
    assert (C : forall x, finite x -> Z.min (Z.max (if (f_to_isize x <? 0)%Z then (len + f_to_isize x)%Z else f_to_isize x) 0) len
                          = clamped len (whole_part x)).
    { intros x Hx. unfold clamped, fits_list in *. rewrite <- trunc_whole.
      assert (E : f_to_isize x = Z.max i64_min (Z.min i64_max (trunc_Z x))) by (destruct x; auto; discriminate Hx).
      rewrite E. unfold i64_min, i64_max in *. fold len in Hfit.
      destruct (Z.ltb_spec (Z.max (- 2 ^ 63) (Z.min (2 ^ 63 - 1) (trunc_Z x))) 0); destruct (Z.ltb_spec (trunc_Z x) 0); lia. }
    assert (E1 : match i with Some r => Some (eval r c) | None => None end = match i with Some _ => Some (Ok (VNumber m)) | None => None end).
    { destruct i; auto. now rewrite Hi. }
    assert (E2 : match j with Some r => Some (eval r c) | None => None end = match j with Some _ => Some (Ok (VNumber n)) | None => None end).
    { destruct j; auto. now rewrite Hj. }
    rewrite E1, E2. clear E1 E2.
    assert (F : forall (s e : Z), Z.min (Z.max (if (s <? 0)%Z then (len + s)%Z else s) 0) len = a ->
                Z.min (Z.max (if (e <? 0)%Z then (len + e)%Z else e) 0) len = b ->
      (if (Z.min (Z.max (if (e <? 0)%Z then (len + e)%Z else e) 0) len <? Z.min (Z.max (if (s <? 0)%Z then (len + s)%Z else s) 0) len)%Z
       then Ok (VArray []) else Ok (VArray (firstn (Z.to_nat (Z.min (Z.max (if (e <? 0)%Z then (len + e)%Z else e) 0) len - Z.min (Z.max (if (s <? 0)%Z then (len + s)%Z else s) 0) len)) (skipn (Z.to_nat (Z.min (Z.max (if (s <? 0)%Z then (len + s)%Z else s) 0) len)) xs))))
      = Ok (VArray (firstn (Z.to_nat (b - a)) (skipn (Z.to_nat a) xs)))).
    { intros s e -> ->. destruct (Z.ltb_spec b a); auto. replace (Z.to_nat (b - a)) with 0%nat by lia. reflexivity. }
    assert (L : Z.min (Z.max (if (len <? 0)%Z then (len + len)%Z else len) 0) len = len).
    { destruct (Z.ltb_spec len 0); lia. }
    destruct i as [i|], j as [j|]; cbn [bind]; unfold slice_array, slice_bound; cbn [bind]; unfold zlen; fold len; apply F; unfold a, b; auto; subst m; auto;
      try (exact (C f_zero eq_refl)).
  Qed.
  Lemma slice_type : forall t i j c v, eval t c = Ok v -> (forall xs, v <> VArray xs) -> fails (eval (ESlice t i j) c).
  Proof.
    intros t i j c v Ht Hv. cbn [eval]. rewrite Ht. destruct v; try (eexists; reflexivity). now destruct (Hv xs).
  Qed.

  (** ** C17 *)
  Lemma compare_eval : forall l op r c a b, eval l c = Ok a -> eval r c = Ok b ->
    In op [BEq; BNe; BLt; BLe; BGt; BGe] ->
    eval (EBinary l op r) c = compare_values op a b.
  Proof.
    intros l op r c a b Hl Hr Hop. cbn [eval]. rewrite Hl, Hr. cbn [bind].
    repeat (destruct Hop as [<-|Hop]; [reflexivity|]). destruct Hop.
  Qed.

  Lemma before_iff : forall s t, before s t <-> str_cmp s t = Lt.
  Proof.
    intros s t. split.
    - induction 1 as [y t|x y s t H|x s t H IH]; auto.
      + simpl. now rewrite (proj2 (N.compare_lt_iff x y) H).
      + simpl. now rewrite N.compare_refl.
    - revert t. induction s as [|x s IH]; intros [|y t] H; try discriminate H.
      + constructor.
      + simpl in H. destruct (N.compare_spec x y) as [->|L|L]; try discriminate H.
        * apply before_tail. auto.
        * now apply before_head.
  Qed.
  Lemma ltb_before : forall s t, str_ltb s t = true <-> before s t.
  Proof.
    intros s t. rewrite before_iff. unfold str_ltb. destruct (str_cmp s t); split; congruence.
  Qed.
  Lemma nltb_before : forall s t, negb (str_ltb s t) = true <-> before t s \/ s = t.
  Proof.
    intros s t. rewrite before_iff, (str_cmp_antisym s t), <- str_cmp_eq. unfold str_ltb.
    destruct (str_cmp s t) eqn:E; simpl; split; intros H; auto; try discriminate H; try (destruct H; discriminate).
  Qed.
  Lemma before_total : forall s t : str, (before s t /\ s <> t /\ ~ before t s) \/ (s = t /\ ~ before s t /\ ~ before t s) \/ (before t s /\ s <> t /\ ~ before s t).
  Proof.
    intros s t. rewrite !before_iff, (str_cmp_antisym s t), <- str_cmp_eq.
    destruct (str_cmp s t) eqn:E; simpl; [right; left|left|right; right]; split; auto; split; congruence.
  Qed.
  Lemma compare_swap : forall x y, SFcompare y x = match SFcompare x y with Some o => Some (CompOpp o) | None => None end.
  Proof.
    intros x y. destruct x as [[|]|[|]| |[|] m e], y as [[|]|[|]| |[|] m' e']; try reflexivity; cbn [SFcompare];
      rewrite (Z.compare_antisym e e');
      change (Pos.compare_cont Eq m m') with (Pos.compare m m'); change (Pos.compare_cont Eq m' m) with (Pos.compare m' m);
      rewrite (Pos.compare_antisym m m'); destruct (e ?= e')%Z; cbn; auto; destruct (Pos.compare m m'); reflexivity.
  Qed.
  Lemma compare_numbers : forall l op r c x y, eval l c = Ok (VNumber x) -> eval r c = Ok (VNumber y) ->
    In op comparisons -> decides (eval (EBinary l op r) c) (number_relation op x y).
  Proof.
    intros l op r c x y Hl Hr Hop. rewrite (compare_eval l op r c _ _ Hl Hr Hop). cbn [compare_values].
    eexists; split; [reflexivity|].
    assert (S : SFcompare y x = match SFcompare x y with Some o => Some (CompOpp o) | None => None end).
    { apply compare_swap. }
    destruct Hop as [<-|[<-|[<-|[<-|[<-|[<-|[]]]]]]]; cbn [cmp_numbers number_relation];
      unfold f_eqb, f_ltb, f_leb, SFeqb, SFltb, SFleb; rewrite ?S;
      destruct (SFcompare x y) as [[| |]|]; simpl; split; intros H; auto; try discriminate H; try congruence;
      try (destruct H; discriminate).
  Qed.
  Lemma compare_texts : forall l op r c s t, eval l c = Ok (VString s) -> eval r c = Ok (VString t) ->
    In op comparisons -> decides (eval (EBinary l op r) c) (text_relation op s t).
  Proof.
    intros l op r c s t Hl Hr Hop. rewrite (compare_eval l op r c _ _ Hl Hr Hop). cbn [compare_values].
    eexists; split; [reflexivity|].
    destruct Hop as [<-|[<-|[<-|[<-|[<-|[<-|[]]]]]]]; cbn [cmp_strings text_relation].
    - apply str_eqb_eq.
    - rewrite negb_true_iff. apply str_eqb_neq.
    - apply ltb_before.
    - rewrite nltb_before. intuition.
    - apply ltb_before.
    - rewrite nltb_before. intuition.
  Qed.
  Lemma compare_booleans : forall l op r c x y, eval l c = Ok (VBoolean x) -> eval r c = Ok (VBoolean y) ->
    In op comparisons ->
    decides (eval (EBinary l op r) c) (match op with BEq => x = y | BNe => x <> y | _ => False end).
  Proof.
    intros l op r c x y Hl Hr Hop. rewrite (compare_eval l op r c _ _ Hl Hr Hop). cbn [compare_values].
    eexists; split; [reflexivity|].
    destruct Hop as [<-|[<-|[<-|[<-|[<-|[<-|[]]]]]]]; destruct x, y; simpl; split; intros H; auto; try discriminate H; try contradiction; try congruence.
  Qed.
  Lemma compare_others : forall l op r c a b, eval l c = Ok a -> eval r c = Ok b -> ~ comparable a b ->
    In op comparisons ->
    match op with
    | BEq => eval (EBinary l op r) c = Ok (VBoolean false)
    | BNe => eval (EBinary l op r) c = Ok (VBoolean true)
    | _ => fails (eval (EBinary l op r) c)
    end.
  Proof.
    intros l op r c a b Hl Hr Hc Hop. rewrite (compare_eval l op r c _ _ Hl Hr Hop).
    destruct Hop as [<-|[<-|[<-|[<-|[<-|[<-|[]]]]]]]; destruct a, b;
      solve [reflexivity | eexists; reflexivity | exfalso; apply Hc; exact I].
  Qed.

  (** ** C18 *)
  Lemma assign_step : forall e vars, (forall es, e <> ESequence es) ->
    eval_assign e vars = (v <- eval (body_of e) (vars_ctx vars) ;;
                          Ok (v, match e with EAssignment x _ => minsert x v vars | _ => vars end)).
  Proof. intros e vars H. destruct e; try reflexivity. now destruct (H es). Qed.
  Lemma runs_sound : forall es vars v vars', runs es vars v vars' -> flat es -> forall w,
    foldM (fun acc x => eval_assign x (snd acc)) es (w, vars) = Ok (v, vars').
  Proof.
    induction 1 as [e vars v Ha He|x e vars v He|e e2 es vars v0 v vars' Ha He Hr IH|x e e2 es vars v0 v vars' He Hr IH];
      intros Hf w; inversion Hf as [|? ? H1 H2]; subst.
    - cbn [foldM snd]. rewrite assign_step by assumption.
      assert (B : body_of e = e) by (destruct e; try reflexivity; now destruct (Ha variable e)).
      rewrite B, He. cbn [bind]. destruct e; try reflexivity. now destruct (Ha variable e).
    - cbn [foldM snd eval_assign]. rewrite He. reflexivity.
    - cbn [foldM snd]. rewrite assign_step by assumption.
      assert (B : body_of e = e) by (destruct e; try reflexivity; now destruct (Ha variable e)).
      rewrite B, He. cbn [bind]. fold (foldM (fun acc x => eval_assign x (snd acc))).
      assert (M : match e with EAssignment x _ => minsert x v0 vars | _ => vars end = vars) by (destruct e; try reflexivity; now destruct (Ha variable e)).
      rewrite M. apply IH. assumption.
    - cbn [foldM snd eval_assign]. rewrite He. cbn [bind]. apply IH. assumption.
  Qed.
  Lemma is_assign_dec : forall e, (exists x e', e = EAssignment x e') \/ (forall x e', e <> EAssignment x e').
  Proof. intros e. destruct e; try (right; discriminate). left. eauto. Qed.
  Lemma runs_complete : forall es vars v vars' w, flat es -> es <> [] ->
    foldM (fun acc x => eval_assign x (snd acc)) es (w, vars) = Ok (v, vars') -> runs es vars v vars'.
  Proof.
    induction es as [|e es IH]; intros vars v vars' w Hf Hn H; [congruence|]. inversion Hf as [|? ? H1 H2]; subst.
    cbn [foldM snd] in H. rewrite assign_step in H by assumption.
    destruct (is_assign_dec e) as [(x & e' & ->)|Ha].
    - cbn [body_of] in H. destruct (eval e' (vars_ctx vars)) as [v0|er|er] eqn:E; try discriminate H. cbn [bind] in H.
      destruct es as [|e2 es].
      + cbn [foldM] in H. injection H as <- <-. now constructor.
      + eapply runs_next_assign; [eassumption|]. eapply IH; [assumption|discriminate|eassumption].
    - assert (B : body_of e = e) by (destruct e; try reflexivity; now destruct (Ha variable e)).
      assert (M : forall v0, match e with EAssignment x _ => minsert x v0 vars | _ => vars end = vars) by (intros; destruct e; try reflexivity; now destruct (Ha variable e)).
      rewrite B in H. destruct (eval e (vars_ctx vars)) as [v0|er|er] eqn:E; try discriminate H. cbn [bind] in H. rewrite M in H.
      destruct es as [|e2 es].
      + cbn [foldM] in H. injection H as <- <-. now constructor.
      + eapply runs_next; [assumption|eassumption|]. eapply IH; [assumption|discriminate|eassumption].
  Qed.
  Lemma assign_runs : forall es vars v vars', flat es -> es <> [] ->
    (eval_assign (ESequence es) vars = Ok (v, vars') <-> runs es vars v vars').
  Proof.
    intros es vars v vars' Hf Hn. cbn [eval_assign]. split.
    - now apply runs_complete.
    - intros H. now apply runs_sound.
  Qed.
  Lemma foldM_app : forall A B (f : B -> A -> res B) xs ys a,
    foldM f (xs ++ ys) a = (b <- foldM f xs a ;; foldM f ys b).
  Proof. intros A B f xs ys. induction xs as [|x xs IH]; intros a; auto. cbn [app foldM]. destruct (f a x); cbn [bind]; auto. Qed.
  Lemma assign_fails : forall pre e post vars v vars0, flat (pre ++ e :: post) ->
    (pre = [] /\ vars0 = vars \/ runs pre vars v vars0) ->
    (forall w, eval (body_of e) (vars_ctx vars0) <> Ok w) ->
    fails_like (eval (body_of e) (vars_ctx vars0)) (eval_assign (ESequence (pre ++ e :: post)) vars).
  Proof.
    intros pre e post vars v vars0 Hf Hp He. apply Forall_app in Hf. destruct Hf as [F1 F2]. inversion F2 as [|? ? H1 H2]; subst.
    cbn [eval_assign]. rewrite foldM_app.
    assert (G : exists w, foldM (fun acc x => eval_assign x (snd acc)) pre (VNull, vars) = Ok (w, vars0)).
    { destruct Hp as [[-> ->]|Hp]; [eexists; reflexivity|]. exists v. now apply runs_sound. }
    destruct G as (w & ->). cbn [bind foldM snd]. rewrite assign_step by assumption.
    destruct (eval (body_of e) (vars_ctx vars0)) as [v1|er|er]; cbn; auto. now destruct (He v1).
  Qed.
  Lemma runs_untouched : forall es vars v vars' x, runs es vars v vars' -> Forall (fun e => ~ assigns e x) es ->
    mget x vars' = mget x vars.
  Proof.
    induction 1 as [e vars v Ha He|y e vars v He|e e2 es vars v0 v vars' Ha He Hr IH|y e e2 es vars v0 v vars' He Hr IH];
      intros F; inversion F as [|? ? H1 H2]; subst; auto.
    - rewrite mget_minsert_other; auto. intros ->. apply H1. eexists; reflexivity.
    - rewrite IH by assumption. rewrite mget_minsert_other; auto. intros ->. apply H1. eexists; reflexivity.
  Qed.
  Lemma runs_last_wins : forall pre x e post vars v vars', runs (pre ++ EAssignment x e :: post) vars v vars' ->
    Forall (fun e => ~ assigns e x) post ->
    exists vars0 w, (pre = [] /\ vars0 = vars \/ exists u, runs pre vars u vars0)
      /\ eval e (vars_ctx vars0) = Ok w /\ mget x vars' = Some w.
  Proof.
    induction pre as [|p pre IH]; intros x e post vars v vars' H F.
    - cbn [app] in H. exists vars. inversion H as [? ? ? Ha He|? ? ? ? He|? ? ? ? ? ? ? Ha He Hr|? ? ? ? ? ? ? ? He Hr]; subst.
      + now destruct (Ha x e).
      + exists v. split; [auto|]. split; [assumption|]. apply mget_minsert_same.
      + now destruct (Ha x e).
      + exists v0. split; [auto|]. split; [assumption|].
        rewrite (runs_untouched _ _ _ _ x Hr F). apply mget_minsert_same.
    - assert (exists q qs, pre ++ EAssignment x e :: post = q :: qs) as (q & qs & Eq) by (destruct pre; simpl; eauto).
      cbn [app] in H. rewrite Eq in H.
      inversion H as [? ? ? Ha He|? ? ? ? He|? ? ? ? ? ? ? Ha He Hr|? ? ? ? ? ? ? ? He Hr]; subst; rewrite <- Eq in Hr;
        destruct (IH _ _ _ _ _ _ Hr F) as (vars0 & w & [[-> ->]|[u Hu]] & E1 & E2); eexists; exists w; (split; [|split; [eassumption|assumption]]).
      + right. exists v0. constructor; assumption.
      + right. exists u. destruct pre as [|p2 pre]; [inversion Hu|]. eapply runs_next; eassumption.
      + right. exists v0. constructor; assumption.
      + right. exists u. destruct pre as [|p2 pre]; [inversion Hu|]. eapply runs_next_assign; eassumption.
  Qed.

  (** ** C19 *)
  Lemma safe_null : forall e c p m args, eval e c = Ok VNull ->
    eval (ESafePropertyAccess e p) c = Ok VNull /\ eval (ESafeMethodCall e m args) c = Ok VNull.
  Proof. intros e c p m args H. cbn [eval]. rewrite H. split; reflexivity. Qed.
  Lemma safe_method : forall e c v m args, eval e c = Ok v -> v <> VNull ->
    eval (ESafeMethodCall e m args) c = eval (EMethodCall e m args false) c.
  Proof. intros e c v m args H Hv. cbn [eval]. rewrite H. cbn [bind]. destruct v; try reflexivity. congruence. Qed.
  Lemma safe_property : forall e c v p, eval e c = Ok v -> v <> VNull ->
    eval (ESafePropertyAccess e p) c = eval (EPropertyAccess e p) c
    \/ ((exists text j, v = VJson text /\ parse_json text = Ok j /\ jget p j = None)
        /\ eval (ESafePropertyAccess e p) c = Ok VNull /\ fails (eval (EPropertyAccess e p) c)).
  Proof.
    intros e c v p H Hv. cbn [eval]. rewrite H. cbn [bind]. destruct v; auto; try congruence. cbn [property].
    destruct (parse_json s) as [j| |] eqn:E; cbn [bind]; auto. destruct (jget p j) eqn:G; auto.
    right. split; [exists s, j; auto|]. split; [reflexivity|eexists; reflexivity].
  Qed.
  Lemma safe_fails : forall e c p m args, (forall v, eval e c <> Ok v) ->
    fails_like (eval e c) (eval (ESafePropertyAccess e p) c) /\ fails_like (eval e c) (eval (ESafeMethodCall e m args) c).
  Proof. intros e c p m args H. cbn [eval]. destruct (eval e c) as [v|er|er]; cbn; auto. now destruct (H v). Qed.

  (** ** the public functions *)
  Lemma sequence_runs : forall src es vars v vars', parse src = Ok (ESequence es) ->
    (evaluate_with_assignments_and_context src vars = Ok (v, vars') <-> runs es vars v vars').
  Proof.
    intros src es vars v vars' Hp. destruct (parse_flat src es Hp) as [Hl Hf].
    unfold evaluate_with_assignments_and_context. rewrite Hp. cbn [bind]. apply assign_runs; [exact Hf|].
    intros ->. simpl in Hl. lia.
  Qed.
  Lemma sequence_value : forall src es vars v, parse src = Ok (ESequence es) ->
    (evaluate_with_assignments src vars = Ok v <-> exists vars', runs es vars v vars').
  Proof.
    intros src es vars v Hp. pose proof (fun w => sequence_runs src es vars v w Hp) as H.
    unfold evaluate_with_assignments, evaluate_with_assignments_and_context in *. rewrite Hp in *. cbn [bind] in *.
    destruct (eval_assign (ESequence es) vars) as [[a w]|x|x]; cbn [bind]; split.
    - intros [= ->]. exists w. now apply H.
    - intros (w' & Hw). apply H in Hw. now injection Hw as -> ->.
    - discriminate.
    - intros (w' & Hw). apply H in Hw. discriminate Hw.
    - discriminate.
    - intros (w' & Hw). apply H in Hw. discriminate Hw.
  Qed.
  Lemma single_runs : forall src e vars v vars', parse src = Ok e -> (forall es, e <> ESequence es) ->
    (evaluate_with_assignments_and_context src vars = Ok (v, vars') <-> runs [e] vars v vars').
  Proof.
    intros src e vars v vars' Hp He. unfold evaluate_with_assignments_and_context. rewrite Hp. cbn [bind].
    rewrite <- (assign_runs [e]); [|repeat constructor; assumption|discriminate]. cbn [eval_assign foldM snd].
    destruct (eval_assign e vars) as [[a w]|x|x]; cbn [bind]; split; intros H; assumption.
  Qed.
  Lemma sequence_fails : forall src pre e post vars v vars0,
    parse src = Ok (ESequence (pre ++ e :: post)) ->
    (pre = [] /\ vars0 = vars \/ runs pre vars v vars0) ->
    (forall w, eval (body_of e) (vars_ctx vars0) <> Ok w) ->
    fails_like (eval (body_of e) (vars_ctx vars0)) (evaluate_with_assignments_and_context src vars).
  Proof.
    intros src pre e post vars v vars0 Hp H He. destruct (parse_flat src _ Hp) as [Hl Hf].
    unfold evaluate_with_assignments_and_context. rewrite Hp. cbn [bind]. now apply (assign_fails pre e post vars v vars0).
  Qed.
  Lemma if_strict : forall e1 e2 e3 v1 v2 c,
    eval e1 c = Ok v1 -> eval e2 c = Ok v2 -> (forall v, eval e3 c <> Ok v) -> (forall i, e3 <> ESpread i) ->
    fails_like (eval e3 c) (eval (call "IF" [e1; e2; e3]) c).
  Proof.
    intros e1 e2 e3 v1 v2 c H1 H2 H3 Hs. apply (call_fails (lit "IF") [e1; e2] e3 [] [v1; v2]); auto.
    - intros n Hn. assert (E : forallb (fun n => negb (str_eqb (lit "IF") (lit n))) lazy_names = true) by reflexivity.
      rewrite forallb_forall in E. apply E in Hn. apply negb_true_iff in Hn. now apply str_eqb_neq.
    - repeat constructor; assumption.
  Qed.
  Lemma sumif_sees_caller : exists a body v1 v2,
    ~ In (lit "x") (variables a)
    /\ (exists r1 r2, eval (call "SUMIF" [a; body]) (vars_ctx [(lit "x", v1)]) = Ok r1
         /\ eval (call "SUMIF" [a; body]) (vars_ctx [(lit "x", v2)]) = Ok r2 /\ r1 <> r2).
  Proof.
    exists (EArray [ENumber (f_of_Z 1); ENumber (f_of_Z 2)]), (EVariable (lit "x")), (num 1), (num 2).
    split; [intros []|]. exists (num 1), (num 2). split; [reflexivity|]. split; [reflexivity|discriminate].
  Qed.
  Lemma sumif_masks : exists a body c, fails (eval body c) /\ exists r, eval (call "SUMIF" [a; body]) c = Ok r.
  Proof.
    exists (EArray [ENumber (f_of_Z 1); ENumber (f_of_Z 2)]), (EBinary (EVariable (lit "x")) BGt (ENumber (f_of_Z 1))), empty_ctx.
    split; [eexists; reflexivity|]. eexists. reflexivity.
  Qed.
  Lemma before_bytes : forall s t, valid_str s -> valid_str t -> (before (encode s) (encode t) <-> before s t).
  Proof. intros s t Hs Ht. rewrite !before_iff. now rewrite encode_compare. Qed.
End Eval.

(** ** Variables *)
Lemma variable_value : forall (X : Ext) x v,
  (forall c, eval (EVariable x) c = Ok v <-> mget x (c_vars c) = Some v)
  /\ (forall vars, ev (EVariable x) (Some vars) = Ok v <-> mget x vars = Some v)
  /\ (forall reg vars, ev_custom reg (EVariable x) vars = Ok v <-> mget x vars = Some v).
Proof.
  intros X x v. split; [|split]; intros; cbn.
  - destruct (mget x (c_vars c)) as [w|]; cbn; split; congruence.
  - destruct (mget x vars) as [w|]; cbn; split; congruence.
  - destruct (mget x vars) as [w|]; cbn; split; congruence.
Qed.
Lemma variable_missing : forall (X : Ext) x,
  (forall c, mget x (c_vars c) = None -> eval (EVariable x) c = Err (mkErr (lit "Missing variable: :" ++ x) None))
  /\ (forall vars, mget x vars = None -> ev (EVariable x) (Some vars) = Err (mkErr (lit "Missing variable: :" ++ x) None))
  /\ (forall reg vars, mget x vars = None -> ev_custom reg (EVariable x) vars = Err (mkErr (lit "Undefined variable: " ++ x) None)).
Proof. intros X x. split; [|split]; intros; cbn [eval ev ev_custom]; match goal with K : mget _ _ = None |- _ => rewrite K; reflexivity end. Qed.
