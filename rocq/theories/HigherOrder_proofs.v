(** Lemmas about FILTER, FIND, MAP, REDUCE, SUMIF, AVGIF, COUNTIF and the
    lambda methods. *)
From Coq Require Import Floats.SpecFloat.
From Coq Require Import String List ZArith NArith Bool Lia.
From Verif Require Import Base Base_proofs F64 F64Text Syntax Ext Json Utils Dispatch Registry Methods Core Evaluator Api Spec
  Value_proofs Float_proofs Env_proofs Logic_proofs Eval_proofs.
Import ListNotations.

Lemma Forall2_impl : forall A B (P Q : A -> B -> Prop) xs ys, (forall a b, P a b -> Q a b) -> Forall2 P xs ys -> Forall2 Q xs ys.
Proof. induction 2; constructor; auto. Qed.

Section HigherOrder.
  Context {X : Ext}.

  (** ** The loops *)
  Section Loops.
    Variable f : env -> res value.
    Hypothesis Hf : respects (ea everything) f.
    Variable p : str.
    Lemma again : forall vars old it, f (minsert p it (minsert p old vars)) = f (minsert p it vars).
    Proof. intros vars old it. apply Hf. apply ea_cover. apply ea_insert_except. Qed.
    Lemma mapM_again : forall vars old items,
      mapM (fun it => f (minsert p it (minsert p old vars))) items = mapM (fun it => f (minsert p it vars)) items.
    Proof. intros vars old items. apply mapM_ext. intros it _. apply again. Qed.
    Lemma map_loop_eq : forall items vars, map_loop f p vars items = mapM (fun it => f (minsert p it vars)) items.
    Proof.
      induction items as [|it items IH]; intros vars; auto. cbn [map_loop mapM]. destruct (f _) as [v| |]; auto. cbn [bind].
      now rewrite IH, mapM_again.
    Qed.
    Lemma filter_loop_eq : forall items vars, filter_loop f p vars items =
      (vs <- mapM (fun it => f (minsert p it vars)) items ;; Ok (selected items vs)).
    Proof.
      induction items as [|it items IH]; intros vars; auto. cbn [filter_loop mapM]. destruct (f _) as [v| |]; auto. cbn [bind].
      rewrite IH, mapM_again. destruct (mapM _ items) as [vs| |]; auto. cbn [bind selected]. destruct v; auto. destruct b; auto.
    Qed.
    Lemma selected_true : forall it items v vs, selected (it :: items) (v :: vs) = if is_true v then it :: selected items vs else selected items vs.
    Proof. intros it items v vs. destruct v; auto. destruct b; auto. Qed.
    Lemma find_none : forall items vars vs, Forall2 (fun it v => f (minsert p it vars) = Ok v) items vs ->
      ~ In (VBoolean true) vs -> find_loop f p vars items = Ok VNull.
    Proof.
      induction items as [|it items IH]; intros vars vs H Hn; auto. inversion H as [|? v ? vs' Hv Hr]; subst.
      cbn [find_loop]. rewrite Hv. cbn [bind]. assert (T : is_true v = false).
      { destruct v; auto. destruct b; auto. exfalso. apply Hn. now left. }
      rewrite T. apply (IH _ vs').
      - eapply Forall2_impl; [|exact Hr]. cbv beta. intros a b Hab. now rewrite again.
      - intros Hi. apply Hn. now right.
    Qed.
    Lemma find_at : forall before vars vs it after, Forall2 (fun it v => f (minsert p it vars) = Ok v) before vs ->
      ~ In (VBoolean true) vs ->
      find_loop f p vars (before ++ it :: after) =
        (v <- f (minsert p it vars) ;; if is_true v then Ok it else find_loop f p (minsert p it vars) after).
    Proof.
      induction before as [|b before IH]; intros vars vs it after H Hn; auto. inversion H as [|? v ? vs' Hv Hr]; subst.
      cbn [app find_loop]. rewrite Hv. cbn [bind]. assert (T : is_true v = false).
      { destruct v; auto. destruct b0; auto. exfalso. apply Hn. now left. }
      rewrite T. rewrite (IH _ vs').
      - rewrite again. destruct (f (minsert p it vars)) as [w| |]; auto. cbn [bind]. destruct (is_true w); auto.
        apply find_shadow; auto. intros x Hx. rewrite !mget_minsert. apply str_eqb_neq in Hx. now rewrite Hx.
      - eapply Forall2_impl; [|exact Hr]. cbv beta. intros a c Hab. now rewrite again.
      - intros Hi. apply Hn. now right.
    Qed.
    Lemma countif_loop_eq : forall items n vars, p = lit "x" -> countif_loop f vars n items =
      (vs <- mapM (fun it => f (minsert p it vars)) items ;; Ok (n + Z.of_nat (length (selected items vs)))%Z).
    Proof.
      intros items n vars Hp. revert n vars. induction items as [|it items IH]; intros n vars.
      { cbn. f_equal. lia. }
      cbn [countif_loop mapM]. rewrite <- Hp. destruct (f _) as [v| |]; auto. cbn [bind].
      rewrite IH, mapM_again. destruct (mapM _ items) as [vs| |]; auto. cbn [bind]. rewrite selected_true.
      destruct (is_true v); cbn [length]; f_equal; lia.
    Qed.
    Lemma sumif_loop_eq : forall items acc vars, p = lit "x" -> sumif_loop f vars acc items =
      (vs <- mapM (fun it => f (minsert p it vars)) items ;; Ok (fold_left f_add (flat_map amount (selected items vs)) acc)).
    Proof.
      intros items acc vars Hp. revert acc vars. induction items as [|it items IH]; intros acc vars; auto.
      cbn [sumif_loop mapM]. rewrite <- Hp. destruct (f _) as [v| |]; auto. cbn [bind].
      rewrite IH, mapM_again. destruct (mapM _ items) as [vs| |]; auto. cbn [bind]. rewrite selected_true.
      destruct (is_true v); auto. cbn [flat_map]. rewrite fold_left_app. destruct it; reflexivity.
    Qed.
    Lemma avgif_loop_eq : forall items acc n vars, p = lit "x" -> avgif_loop f vars acc n items =
      (vs <- mapM (fun it => f (minsert p it vars)) items ;;
       let ns := flat_map amount (selected items vs) in Ok (fold_left f_add ns acc, n + Z.of_nat (length ns))%Z).
    Proof.
      intros items acc n vars Hp. revert acc n vars. induction items as [|it items IH]; intros acc n vars.
      { cbn. do 2 f_equal. lia. }
      cbn [avgif_loop mapM]. rewrite <- Hp. destruct (f _) as [v| |]; auto. cbn [bind].
      assert (E : match is_true v, addend it with
          | true, Some k => avgif_loop f (minsert p it vars) (f_add acc k) (n + 1) items
          | _, _ => avgif_loop f (minsert p it vars) acc n items
          end = avgif_loop f (minsert p it vars) (if is_true v then fold_left f_add (amount it) acc else acc)
                  (if is_true v then n + Z.of_nat (length (amount it)) else n)%Z items).
      { destruct (is_true v); auto. destruct it; cbn; auto; f_equal; lia. }
      rewrite E, IH, mapM_again. destruct (mapM _ items) as [vs| |]; auto. cbn [bind]. rewrite selected_true.
      cbv zeta. destruct (is_true v); auto. cbn [flat_map]. rewrite fold_left_app, app_length. do 2 f_equal. lia.
    Qed.
    Variable q : str.
    Lemma reduce_again : forall vars o1 o2 it acc,
      f (minsert q acc (minsert p it (minsert q o2 (minsert p o1 vars)))) = f (minsert q acc (minsert p it vars)).
    Proof.
      intros vars o1 o2 it acc. apply Hf. intros x _. rewrite !mget_minsert.
      destruct (str_eqb x q); auto. destruct (str_eqb x p); auto.
    Qed.
    Lemma reduce_loop_iff : forall items acc vars r, reduce_loop f p q vars acc items = Ok r <->
      folds (fun acc it => f (minsert q acc (minsert p it vars))) acc items r.
    Proof.
      induction items as [|it items IH]; intros acc vars r; cbn [reduce_loop]; split; intros H.
      - injection H as <-. constructor.
      - inversion H; subst. reflexivity.
      - destruct (f _) as [acc'| |] eqn:E; try discriminate H. cbn [bind] in H. econstructor; [exact E|].
        apply IH in H. clear IH E. induction H as [a|a i a' its r' Hs Hr IHr]; [constructor|].
        econstructor; [|exact IHr]. now rewrite reduce_again in Hs.
      - inversion H as [|? ? acc' ? ? Hs Hr]; subst. rewrite Hs. cbn [bind]. apply IH.
        clear IH Hs H. induction Hr as [a|a i a' its r' Hs Hr IHr]; [constructor|].
        econstructor; [|exact IHr]. now rewrite reduce_again.
    Qed.
    Lemma reduce_loop_fails : forall before acc vars acc' it after,
      folds (fun acc it => f (minsert q acc (minsert p it vars))) acc before acc' ->
      (forall r, f (minsert q acc' (minsert p it vars)) <> Ok r) ->
      fails_like (f (minsert q acc' (minsert p it vars))) (reduce_loop f p q vars acc (before ++ it :: after)).
    Proof.
      induction before as [|b before IH]; intros acc vars acc' it after H Hn; inversion H as [|? ? a ? ? Hs Hr]; subst; cbn [app reduce_loop].
      - now apply bind_fails.
      - rewrite Hs. cbn [bind]. rewrite <- (reduce_again vars b acc it acc'). apply IH.
        + clear IH H Hs Hn. induction Hr as [a1|a1 i a' its r' Hs Hr IHr]; [constructor|].
          econstructor; [|exact IHr]. now rewrite reduce_again.
        + intros r. rewrite reduce_again. apply Hn.
    Qed.
  End Loops.
  Lemma mapM_iff_fails : forall A B (g : A -> res B) before it after vs, Forall2 (fun x v => g x = Ok v) before vs ->
    (forall v, g it <> Ok v) -> fails_like (g it) (mapM g (before ++ it :: after)).
  Proof.
    intros A B g before it after vs Hb Hn. induction Hb as [|x v before vs Hx Hb IH]; cbn [app mapM].
    - now apply bind_fails.
    - rewrite Hx. cbn [bind]. now apply fails_bind.
  Qed.

  (** ** Calls at top level *)
  Lemma params : forall c es n d, nth_error es n = None ->
    get_param c (nth_error (args_of es) n) d = Ok (lit d).
  Proof. intros c es n d H. unfold args_of. rewrite nth_error_map, H. reflexivity. Qed.
  Lemma param_lit : forall c es n d s, nth_error es n = Some (EStringLit s) ->
    get_param c (nth_error (args_of es) n) d = Ok s.
  Proof. intros c es n d s H. unfold args_of. rewrite nth_error_map, H. reflexivity. Qed.

  Lemma param_tail : forall c a b op, get_param c (nth_error (args_of (a :: b :: tail_of op)) 2) "x" = Ok (name_of op "x").
  Proof. intros c a b [p|]; reflexivity. Qed.
  Lemma lambda_eq : forall e p it c, lambda_ctx (mkArg (eval e) None) (minsert p it (c_vars c)) = eval e (bound p it c).
  Proof. reflexivity. Qed.
  Lemma top8 : forall name, In name ["FILTER"; "FIND"; "MAP"; "REDUCE"; "SUMIF"; "AVGIF"; "COUNTIF"; "JQ"]%string ->
    In name ["FILTER"; "FIND"; "MAP"; "REDUCE"; "SUMIF"; "AVGIF"; "COUNTIF"; "JQ"]%string.
  Proof. auto. Qed.
  Ltac top n := rewrite (top_names _ n) by (auto; vm_compute; tauto); cbn [String.eqb Ascii.eqb Bool.eqb andb].

  Lemma filter_call : forall c a body op items out, uncustomised c "FILTER" -> eval a c = Ok (VArray items) ->
    (eval (call "FILTER" (a :: body :: tail_of op)) c = Ok out <->
     exists vs, body_values body (name_of op "x") c items vs /\ out = VArray (selected items vs)).
  Proof.
    intros c a body op items out Hu Ha. top "FILTER"%string. unfold top_filter. rewrite param_tail.
    cbn [args_of map a_eval]. rewrite Ha. cbn [bind as_array]. set (p := name_of op "x").
    rewrite filter_loop_eq by apply lambda_arg. unfold body_values. split.
    - intros H. destruct (mapM _ items) as [vs| |] eqn:E; try discriminate H. exists vs. apply mapM_ok in E.
      split; [exact E|]. cbn [bind] in H. now injection H as <-.
    - intros (vs & H & ->). apply mapM_ok in H.
      assert (E : mapM (fun it => lambda_ctx (mkArg (eval body) match body with ESpread i => Some (eval i) | _ => None end) (minsert p it (c_vars c))) items = Ok vs) by exact H.
      now rewrite E.
  Qed.
  Lemma filter_call_fails : forall c a body op before it after vs, uncustomised c "FILTER" ->
    eval a c = Ok (VArray (before ++ it :: after)) -> body_values body (name_of op "x") c before vs ->
    (forall v, eval body (bound (name_of op "x") it c) <> Ok v) ->
    fails_like (eval body (bound (name_of op "x") it c)) (eval (call "FILTER" (a :: body :: tail_of op)) c).
  Proof.
    intros c a body op before it after vs Hu Ha Hb Hn. top "FILTER"%string. unfold top_filter. rewrite param_tail.
    cbn [args_of map a_eval]. rewrite Ha. cbn [bind as_array]. rewrite filter_loop_eq by apply lambda_arg.
    apply fails_bind, fails_bind. now apply (mapM_iff_fails _ _ (fun it => eval body (bound (name_of op "x") it c)) before it after vs).
  Qed.
  Lemma map_call : forall c a body op items out, uncustomised c "MAP" -> eval a c = Ok (VArray items) ->
    (eval (call "MAP" (a :: body :: tail_of op)) c = Ok out <->
     exists vs, body_values body (name_of op "x") c items vs /\ out = VArray vs).
  Proof.
    intros c a body op items out Hu Ha. top "MAP"%string. unfold top_map. rewrite param_tail.
    cbn [args_of map a_eval]. rewrite Ha. cbn [bind as_array].
    rewrite map_loop_eq by apply lambda_arg. unfold body_values. set (p := name_of op "x").
    change (mapM _ items) with (mapM (fun it => eval body (bound p it c)) items). split.
    - intros H. destruct (mapM _ items) as [vs| |] eqn:E; try discriminate H. exists vs. apply mapM_ok in E.
      split; [exact E|]. cbn [bind] in H. now injection H as <-.
    - intros (vs & H & ->). apply mapM_ok in H. now rewrite H.
  Qed.
  Lemma map_call_fails : forall c a body op before it after vs, uncustomised c "MAP" ->
    eval a c = Ok (VArray (before ++ it :: after)) -> body_values body (name_of op "x") c before vs ->
    (forall v, eval body (bound (name_of op "x") it c) <> Ok v) ->
    fails_like (eval body (bound (name_of op "x") it c)) (eval (call "MAP" (a :: body :: tail_of op)) c).
  Proof.
    intros c a body op before it after vs Hu Ha Hb Hn. top "MAP"%string. unfold top_map. rewrite param_tail.
    cbn [args_of map a_eval]. rewrite Ha. cbn [bind as_array]. rewrite map_loop_eq by apply lambda_arg.
    apply fails_bind. now apply (mapM_iff_fails _ _ (fun it => eval body (bound (name_of op "x") it c)) before it after vs).
  Qed.
  Lemma find_call_none : forall c a body op items vs, uncustomised c "FIND" -> eval a c = Ok (VArray items) ->
    body_values body (name_of op "x") c items vs -> ~ In (VBoolean true) vs ->
    eval (call "FIND" (a :: body :: tail_of op)) c = Ok VNull.
  Proof.
    intros c a body op items vs Hu Ha Hb Hn. top "FIND"%string. unfold top_find. rewrite param_tail.
    cbn [args_of map a_eval]. rewrite Ha. cbn [bind as_array]. apply (find_none _ (lambda_arg _ _) _ _ _ vs); assumption.
  Qed.
  Lemma find_call_at : forall c a body op before it after vs, uncustomised c "FIND" ->
    eval a c = Ok (VArray (before ++ it :: after)) ->
    body_values body (name_of op "x") c before vs -> ~ In (VBoolean true) vs ->
    (eval body (bound (name_of op "x") it c) = Ok (VBoolean true) -> eval (call "FIND" (a :: body :: tail_of op)) c = Ok it)
    /\ ((forall v, eval body (bound (name_of op "x") it c) <> Ok v) ->
        fails_like (eval body (bound (name_of op "x") it c)) (eval (call "FIND" (a :: body :: tail_of op)) c)).
  Proof.
    intros c a body op before it after vs Hu Ha Hb Hn. top "FIND"%string. unfold top_find. rewrite param_tail.
    cbn [args_of map a_eval]. rewrite Ha. cbn [bind as_array]. rewrite (find_at _ (lambda_arg _ _) _ _ _ vs) by assumption.
    rewrite lambda_eq with (p := name_of op "x") || idtac.
    change (lambda_ctx _ (minsert (name_of op "x") it (c_vars c))) with (eval body (bound (name_of op "x") it c)).
    split.
    - intros ->. reflexivity.
    - intros H. now apply bind_fails.
  Qed.
  Lemma reduce_call : forall c a body init p q items i r, uncustomised c "REDUCE" -> eval a c = Ok (VArray items) ->
    eval init c = Ok i ->
    (eval (call "REDUCE" [a; body; init; EStringLit p; EStringLit q]) c = Ok r <->
     folds (fun acc it => eval body (vars_ctx (minsert q acc (minsert p it (c_vars c))))) i items r).
  Proof.
    intros c a body init p q items i r Hu Ha Hi. top "REDUCE"%string. unfold top_reduce.
    cbn [args_of map a_eval nth_error get_param]. rewrite Ha, Hi. cbn [bind as_array eval param_of].
    rewrite (reduce_loop_iff _ (lambda_arg _ _)). reflexivity.
  Qed.
  Lemma reduce_call_default : forall c a body init items i r, uncustomised c "REDUCE" -> eval a c = Ok (VArray items) ->
    eval init c = Ok i ->
    (eval (call "REDUCE" [a; body; init]) c = Ok r <->
     folds (fun acc it => eval body (vars_ctx (minsert (lit "acc") acc (minsert (lit "x") it (c_vars c))))) i items r).
  Proof.
    intros c a body init items i r Hu Ha Hi. top "REDUCE"%string. unfold top_reduce.
    cbn [args_of map a_eval nth_error get_param]. rewrite Ha, Hi. cbn [bind as_array eval param_of].
    rewrite (reduce_loop_iff _ (lambda_arg _ _)). reflexivity.
  Qed.
  Lemma reduce_call_fails : forall c a body init p q before it after i acc, uncustomised c "REDUCE" ->
    eval a c = Ok (VArray (before ++ it :: after)) -> eval init c = Ok i ->
    folds (fun acc it => eval body (vars_ctx (minsert q acc (minsert p it (c_vars c))))) i before acc ->
    let step := eval body (vars_ctx (minsert q acc (minsert p it (c_vars c)))) in
    (forall v, step <> Ok v) ->
    fails_like step (eval (call "REDUCE" [a; body; init; EStringLit p; EStringLit q]) c).
  Proof.
    intros c a body init p q before it after i acc Hu Ha Hi Hb step Hn. top "REDUCE"%string. unfold top_reduce.
    cbn [args_of map a_eval nth_error get_param]. rewrite Ha, Hi. cbn [bind as_array eval param_of].
    apply (reduce_loop_fails _ (lambda_arg _ _) p q before i (c_vars c) acc it after Hb Hn).
  Qed.
  Lemma reduce_init_fails : forall c a body init rest items, uncustomised c "REDUCE" ->
    eval a c = Ok (VArray items) -> (forall v, eval init c <> Ok v) ->
    fails_like (eval init c) (eval (call "REDUCE" (a :: body :: init :: rest)) c).
  Proof.
    intros c a body init rest items Hu Ha Hn. top "REDUCE"%string. unfold top_reduce. cbn [args_of map a_eval].
    rewrite Ha. cbn [bind]. now apply bind_fails.
  Qed.

  (** COUNTIF, AVGIF, SUMIF with a lambda *)
  Lemma countif_call : forall c a body items out, uncustomised c "COUNTIF" -> eval a c = Ok (VArray items) ->
    (eval (call "COUNTIF" [a; body]) c = Ok out <->
     exists vs, body_values body (lit "x") c items vs /\ out = VNumber (f_of_Z (Z.of_nat (length (selected items vs))))).
  Proof.
    intros c a body items out Hu Ha. top "COUNTIF"%string. unfold top_countif, two_args, countif_with.
    cbn [args_of map a_eval]. rewrite Ha. cbn [bind as_array].
    rewrite (countif_loop_eq _ (lambda_arg _ _) (lit "x")) by reflexivity. unfold body_values.
    change (mapM _ items) with (mapM (fun it => eval body (bound (lit "x") it c)) items). split.
    - intros H. destruct (mapM _ items) as [vs| |] eqn:E; try discriminate H. exists vs. apply mapM_ok in E.
      split; [exact E|]. cbn [bind] in H. injection H as <-. reflexivity.
    - intros (vs & H & ->). apply mapM_ok in H. rewrite H. reflexivity.
  Qed.
  Lemma mean_eq : forall ns, VNumber (if (0 + Z.of_nat (length ns) =? 0)%Z then f_zero else f_div (fold_left f_add ns f_zero) (f_of_Z (0 + Z.of_nat (length ns))))
    = VNumber (mean ns).
  Proof. intros [|n ns]; reflexivity. Qed.
  Lemma avgif_call : forall c a body items out, uncustomised c "AVGIF" -> eval a c = Ok (VArray items) ->
    (eval (call "AVGIF" [a; body]) c = Ok out <->
     exists vs, body_values body (lit "x") c items vs /\ out = VNumber (mean (flat_map amount (selected items vs)))).
  Proof.
    intros c a body items out Hu Ha. top "AVGIF"%string. unfold top_avgif, two_args, avgif_with.
    cbn [args_of map a_eval]. rewrite Ha. cbn [bind as_array].
    rewrite (avgif_loop_eq _ (lambda_arg _ _) (lit "x")) by reflexivity. unfold body_values.
    change (mapM _ items) with (mapM (fun it => eval body (bound (lit "x") it c)) items). split.
    - intros H. destruct (mapM _ items) as [vs| |] eqn:E; try discriminate H. exists vs. apply mapM_ok in E.
      split; [exact E|]. cbn [bind] in H. injection H as <-. apply mean_eq.
    - intros (vs & H & ->). apply mapM_ok in H. rewrite H. cbn [bind]. f_equal. apply mean_eq.
  Qed.
  Lemma sumif_lambda : forall c a body items out, uncustomised c "SUMIF" -> eval a c = Ok (VArray items) ->
    (fails (eval body c) \/ exists v, eval body c = Ok v /\ (forall s, v <> VString s) /\ (forall n, v <> VNumber n)) ->
    (eval (call "SUMIF" [a; body]) c = Ok out <->
     exists vs, body_values body (lit "x") c items vs /\ out = VNumber (total (flat_map amount (selected items vs)))).
  Proof.
    intros c a body items out Hu Ha Hb. top "SUMIF"%string. unfold top_sumif, sumif_tail.
    cbn [args_of map a_eval]. rewrite Ha. cbn [bind].
    set (lam := sumif_with _ _ _).
    assert (E : match eval body c with
                | Ok crit => match crit with VString _ | VNumber _ => Ok (VNumber (sum_if (VArray items) (VArray items) crit)) | _ => lam end
                | Err _ => lam
                | Panic w => Panic w
                end = lam).
    { destruct Hb as [(er & ->)|(v & -> & Hs & Hn)]; auto. destruct v; auto; [now destruct (Hn n)|now destruct (Hs s)]. }
    rewrite E. unfold lam, sumif_with. cbn [bind as_array].
    rewrite (sumif_loop_eq _ (lambda_arg _ _) (lit "x")) by reflexivity. unfold body_values.
    change (mapM _ items) with (mapM (fun it => eval body (bound (lit "x") it c)) items). clear E lam. split.
    - intros H. destruct (mapM _ items) as [vs| |] eqn:E; try discriminate H. exists vs. apply mapM_ok in E.
      split; [exact E|]. cbn [bind] in H. injection H as <-. reflexivity.
    - intros (vs & H & ->). apply mapM_ok in H. rewrite H. reflexivity.
  Qed.
  Lemma if_call_fails : forall name c a body before it after vs, In name ["AVGIF"; "COUNTIF"]%string -> uncustomised c name ->
    eval a c = Ok (VArray (before ++ it :: after)) -> body_values body (lit "x") c before vs ->
    (forall v, eval body (bound (lit "x") it c) <> Ok v) ->
    fails_like (eval body (bound (lit "x") it c)) (eval (call name [a; body]) c).
  Proof.
    intros name c a body before it after vs Hname Hu Ha Hb Hn.
    destruct Hname as [<-|[<-|[]]].
    - top "AVGIF"%string. unfold top_avgif, two_args, avgif_with.
      cbn [args_of map a_eval]. rewrite Ha. cbn [bind as_array].
      rewrite (avgif_loop_eq _ (lambda_arg _ _) (lit "x")) by reflexivity.
      apply fails_bind, fails_bind. now apply (mapM_iff_fails _ _ (fun it => eval body (bound (lit "x") it c)) before it after vs).
    - top "COUNTIF"%string. unfold top_countif, two_args, countif_with.
      cbn [args_of map a_eval]. rewrite Ha. cbn [bind as_array].
      rewrite (countif_loop_eq _ (lambda_arg _ _) (lit "x")) by reflexivity.
      apply fails_bind, fails_bind. now apply (mapM_iff_fails _ _ (fun it => eval body (bound (lit "x") it c)) before it after vs).
  Qed.

  (** ** Criteria *)
  Lemma from_str_op : forall x s, In x [61; 60; 62]%N -> f_from_str (x :: s) = None.
  Proof. intros x s [<-|[<-|[<-|[]]]]; reflexivity. Qed.
  Lemma f_leb_rel : forall x y, f_leb x y = true <-> number_relation BLe x y.
  Proof.
    intros x y. unfold f_leb, SFleb. cbn [number_relation]. destruct (SFcompare x y) as [[| |]|]; split; intros H; auto;
      try discriminate H; destruct H; discriminate.
  Qed.
  Lemma f_ltb_rel : forall x y, f_ltb x y = true <-> number_relation BLt x y.
  Proof. intros x y. unfold f_ltb, SFltb. cbn [number_relation]. destruct (SFcompare x y) as [[| |]|]; split; congruence. Qed.
  Lemma f_eqb_rel : forall x y, f_eqb x y = true <-> number_relation BEq x y.
  Proof. intros x y. unfold f_eqb, SFeqb. cbn [number_relation]. destruct (SFcompare x y) as [[| |]|]; split; congruence. Qed.
  Lemma ge_rel : forall x y, f_leb y x = true <-> number_relation BGe x y.
  Proof.
    intros x y. unfold f_leb, SFleb. cbn [number_relation]. rewrite (compare_swap x y).
    destruct (SFcompare x y) as [[| |]|]; cbn; split; intros H; auto; try discriminate H; destruct H; discriminate.
  Qed.
  Lemma gt_rel : forall x y, f_ltb y x = true <-> number_relation BGt x y.
  Proof.
    intros x y. unfold f_ltb, SFltb. cbn [number_relation]. rewrite (compare_swap x y).
    destruct (SFcompare x y) as [[| |]|]; cbn; split; congruence.
  Qed.
  Lemma ne_rel : forall x y, negb (f_eqb x y) = true <-> number_relation BNe x y.
  Proof. intros x y. unfold f_eqb, SFeqb. cbn [number_relation]. destruct (SFcompare x y) as [[| |]|]; cbn; split; congruence. Qed.
  Lemma same_text_iff : forall v s, same_text v s = true <-> v = VString s.
  Proof.
    intros v s. destruct v; cbn; try (split; discriminate). rewrite str_eqb_eq. split; congruence.
  Qed.
  Lemma cmp_rel : forall g op t v, (forall n, g n = true <-> number_relation op n t) -> op <> BNe ->
    (cmp_addend v g false = true <-> compares op t v).
  Proof.
    intros g op t v Hg Ho. destruct v; cbn [cmp_addend compares]; auto; split; intros H; try discriminate H; contradiction.
  Qed.
  Lemma strip_none : forall o s, (forall q, s <> lit o ++ q) -> strip_prefix (lit o) s = None.
  Proof.
    intros o s H. destruct (strip_prefix (lit o) s) as [r|] eqn:E; auto. apply strip_prefix_spec in E. now destruct (H r).
  Qed.
  Lemma meets_stands : forall crit P v, stands_for crit P -> (meets_criteria v crit = true <-> P v).
  Proof.
    intros crit P v H. destruct H as [t|r t Hr|o op r t Ho Hr|r Hr Ho|r Hr|r Hr|o op r Ho Hr Hq].
    - cbn [meets_criteria]. apply cmp_rel; [|discriminate]. intros n. apply f_eqb_rel.
    - cbn [meets_criteria]. assert (Z : forall x s, In x [61; 60; 62]%N -> r <> x :: s).
      { intros x s Hx ->. rewrite from_str_op in Hr by assumption. discriminate Hr. }
      rewrite !strip_none, Hr by (intros q; apply Z; simpl; tauto).
      apply cmp_rel; [|discriminate]. intros n. apply f_eqb_rel.
    - assert (Z : forall x s, In x [61; 60; 62]%N -> r <> x :: s).
      { intros x s Hx ->. rewrite from_str_op in Hr by assumption. discriminate Hr. }
      assert (R : forall o', strip_prefix (lit o') (lit o' ++ r) = Some r) by (intros; apply strip_prefix_app).
      unfold meets_criteria.
      destruct Ho as [Ho|[Ho|[Ho|[Ho|[Ho|[Ho|[]]]]]]]; injection Ho as <- <-.
      + rewrite R, Hr. apply cmp_rel; [|discriminate]. intros n. apply ge_rel.
      + change (strip_prefix (lit ">=") (lit "<=" ++ r)) with (@None str). rewrite R, Hr.
        apply cmp_rel; [|discriminate]. intros n. apply f_leb_rel.
      + change (strip_prefix (lit ">=") (lit "<>" ++ r)) with (@None str).
        change (strip_prefix (lit "<=") (lit "<>" ++ r)) with (@None str). rewrite R, Hr.
        destruct v; cbn [cmp_addend compares]; try (split; reflexivity); apply ne_rel.
      + rewrite (strip_none ">=") by (intros q [= E]; eapply Z; [|exact E]; simpl; tauto).
        change (strip_prefix (lit "<=") (lit ">" ++ r)) with (@None str).
        change (strip_prefix (lit "<>") (lit ">" ++ r)) with (@None str). rewrite R, Hr.
        apply cmp_rel; [|discriminate]. intros n. apply gt_rel.
      + change (strip_prefix (lit ">=") (lit "<" ++ r)) with (@None str).
        rewrite (strip_none "<=") by (intros q [= E]; eapply Z; [|exact E]; simpl; tauto).
        rewrite (strip_none "<>") by (intros q [= E]; eapply Z; [|exact E]; simpl; tauto).
        change (strip_prefix (lit ">") (lit "<" ++ r)) with (@None str). rewrite R, Hr.
        apply cmp_rel; [|discriminate]. intros n. apply f_ltb_rel.
      + change (strip_prefix (lit ">=") (lit "=" ++ r)) with (@None str).
        change (strip_prefix (lit "<=") (lit "=" ++ r)) with (@None str).
        change (strip_prefix (lit "<>") (lit "=" ++ r)) with (@None str).
        change (strip_prefix (lit ">") (lit "=" ++ r)) with (@None str).
        change (strip_prefix (lit "<") (lit "=" ++ r)) with (@None str). rewrite R, Hr.
        apply cmp_rel; [|discriminate]. intros n. apply f_eqb_rel.
    - unfold meets_criteria. rewrite !strip_none, Hr by (intros q; eapply Ho; vm_compute; tauto). apply same_text_iff.
    - unfold meets_criteria.
      change (strip_prefix (lit ">=") (lit "=" ++ r)) with (@None str).
      change (strip_prefix (lit "<=") (lit "=" ++ r)) with (@None str).
      change (strip_prefix (lit "<>") (lit "=" ++ r)) with (@None str).
      change (strip_prefix (lit ">") (lit "=" ++ r)) with (@None str).
      change (strip_prefix (lit "<") (lit "=" ++ r)) with (@None str). rewrite strip_prefix_app, Hr. apply same_text_iff.
    - unfold meets_criteria.
      change (strip_prefix (lit ">=") (lit "<>" ++ r)) with (@None str).
      change (strip_prefix (lit "<=") (lit "<>" ++ r)) with (@None str). rewrite strip_prefix_app, Hr.
      rewrite negb_true_iff. rewrite <- not_true_iff_false. now rewrite same_text_iff.
    - assert (R : forall o', strip_prefix (lit o') (lit o' ++ r) = Some r) by (intros; apply strip_prefix_app).
      assert (F : false = true <-> False) by (split; [discriminate|contradiction]).
      unfold meets_criteria.
      destruct Ho as [Ho|[Ho|[Ho|[Ho|[]]]]]; injection Ho as <- <-.
      + rewrite R, Hr. exact F.
      + change (strip_prefix (lit ">=") (lit "<=" ++ r)) with (@None str). rewrite R, Hr. exact F.
      + rewrite (strip_none ">=") by (intros q [= E]; destruct (Hq q) as [H _]; specialize (H E); destruct H; discriminate).
        change (strip_prefix (lit "<=") (lit ">" ++ r)) with (@None str).
        change (strip_prefix (lit "<>") (lit ">" ++ r)) with (@None str). rewrite R, Hr. exact F.
      + change (strip_prefix (lit ">=") (lit "<" ++ r)) with (@None str).
        rewrite (strip_none "<=") by (intros q [= E]; destruct (Hq q) as [H _]; specialize (H E); destruct H; discriminate).
        rewrite (strip_none "<>") by (intros q [= E]; destruct (Hq q) as [_ H]; now apply (H E)).
        change (strip_prefix (lit ">") (lit "<" ++ r)) with (@None str). rewrite R, Hr. exact F.
  Qed.
  Lemma sum_pairs_picks : forall crit P, stands_for crit P -> forall rs ss acc,
    exists ns, picks P rs ss ns /\ sum_pairs acc crit rs ss = fold_left f_add ns acc.
  Proof.
    intros crit P HP. induction rs as [|x rs IH]; intros ss acc; [exists []; split; [constructor|reflexivity]|].
    destruct ss as [|s ss]; [exists []; split; [constructor|reflexivity]|]. cbn [sum_pairs].
    pose proof (meets_stands crit P x HP) as M. destruct (meets_criteria x crit).
    - destruct (IH ss (match addend s with Some n => f_add acc n | None => acc end)) as (ns & Hn & E).
      exists (amount s ++ ns). split; [constructor; [now apply M|assumption]|]. rewrite E, fold_left_app. destruct s; reflexivity.
    - destruct (IH ss acc) as (ns & Hn & E). exists ns. split; [|assumption]. apply picks_no; [|assumption].
      intros Hx. apply M in Hx. discriminate Hx.
  Qed.
  Lemma picks_fun : forall P rs ss ns ns', picks P rs ss ns -> picks P rs ss ns' -> ns = ns'.
  Proof.
    intros P rs ss ns ns' H. revert ns'. induction H as [ss|rs|x rs s ss ns Hx H IH|x rs s ss ns Hx H IH]; intros ns' H'; inversion H'; subst; auto;
      try contradiction. f_equal. auto.
  Qed.
  Lemma sumif_criterion : forall c a e rs crit P, uncustomised c "SUMIF" -> eval a c = Ok (VArray rs) ->
    eval e c = Ok crit -> stands_for crit P ->
    exists ns, picks P rs rs ns /\ eval (call "SUMIF" [a; e]) c = Ok (VNumber (total ns)).
  Proof.
    intros c a e rs crit P Hu Ha He HP. destruct (sum_pairs_picks crit P HP rs rs f_zero) as (ns & Hn & E).
    exists ns. split; [assumption|]. top "SUMIF"%string. unfold top_sumif, sumif_tail. cbn [args_of map a_eval].
    rewrite Ha, He. cbn [bind]. unfold sum_if, total. rewrite E. now destruct HP.
  Qed.
  Lemma sumif_criterion3 : forall c a e b rs ss crit P, uncustomised c "SUMIF" -> eval a c = Ok (VArray rs) ->
    eval e c = Ok crit -> eval b c = Ok (VArray ss) -> stands_for crit P ->
    exists ns, picks P rs ss ns /\ eval (call "SUMIF" [a; e; b]) c = Ok (VNumber (total ns)).
  Proof.
    intros c a e b rs ss crit P Hu Ha He Hb HP. destruct (sum_pairs_picks crit P HP rs ss f_zero) as (ns & Hn & E).
    exists ns. split; [assumption|]. top "SUMIF"%string. unfold top_sumif, sumif_tail. cbn [args_of map a_eval].
    rewrite Ha, He, Hb. cbn [bind]. unfold sum_if, total. rewrite E. now destruct HP.
  Qed.

  (** ** Methods *)
  Lemma method_lambda_eq : forall c body p it,
    match c_reg c with Some reg => ev_custom reg body | None => fun vars => ev body (Some vars) end (minsert p it (c_vars c))
    = method_body c body p it.
  Proof. intros c body p it. unfold method_body. destruct (c_reg c); reflexivity. Qed.
  Lemma lit_param_tail : forall c body op, lit_param (margs_of c (body :: tail_of op)) 1 "x" = name_of op "x".
  Proof. intros c body [p|]; reflexivity. Qed.
  Lemma filter_method : forall c t body op items out, eval t c = Ok (VArray items) ->
    (eval (EMethodCall t (lit "filter") (body :: tail_of op) false) c = Ok out <->
     exists vs, method_values body (name_of op "x") c items vs /\ out = VArray (selected items vs)).
  Proof.
    intros c t body op items out Ht. cbn [eval]. rewrite Ht. cbn [bind].
    change (exec_method (lit "filter") false (VArray items) (margs_of c (body :: tail_of op)) (Some (c_vars c)))
      with (m_filter items (margs_of c (body :: tail_of op)) (Some (c_vars c))).
    unfold m_filter. rewrite lit_param_tail. cbn [margs_of map m_lambda base_of].
    rewrite filter_loop_eq by apply method_lambda_ok. unfold method_values.
    rewrite (mapM_ext _ _ _ (method_body c body (name_of op "x")) items) by (intros; apply method_lambda_eq). split.
    - intros H. destruct (mapM _ items) as [vs| |] eqn:E; try discriminate H. exists vs. apply mapM_ok in E.
      split; [exact E|]. cbn [bind] in H. now injection H as <-.
    - intros (vs & H & ->). apply mapM_ok in H. now rewrite H.
  Qed.
  Lemma map_method : forall c t body op items out, eval t c = Ok (VArray items) ->
    (eval (EMethodCall t (lit "map") (body :: tail_of op) false) c = Ok out <->
     exists vs, method_values body (name_of op "x") c items vs /\ out = VArray vs).
  Proof.
    intros c t body op items out Ht. cbn [eval]. rewrite Ht. cbn [bind].
    change (exec_method (lit "map") false (VArray items) (margs_of c (body :: tail_of op)) (Some (c_vars c)))
      with (m_map items (margs_of c (body :: tail_of op)) (Some (c_vars c))).
    unfold m_map. rewrite lit_param_tail. cbn [margs_of map m_lambda base_of].
    rewrite map_loop_eq by apply method_lambda_ok. unfold method_values.
    rewrite (mapM_ext _ _ _ (method_body c body (name_of op "x")) items) by (intros; apply method_lambda_eq). split.
    - intros H. destruct (mapM _ items) as [vs| |] eqn:E; try discriminate H. exists vs. apply mapM_ok in E.
      split; [exact E|]. cbn [bind] in H. now injection H as <-.
    - intros (vs & H & ->). apply mapM_ok in H. now rewrite H.
  Qed.
  Lemma find_method : forall c t body op, eval (EMethodCall t (lit "find") (body :: tail_of op) false) c =
    (recv <- eval t c ;;
     exec_method (lit "find") false recv (margs_of c (body :: tail_of op)) (Some (c_vars c))).
  Proof. reflexivity. Qed.
  Lemma find_method_none : forall c t body op items vs, eval t c = Ok (VArray items) ->
    method_values body (name_of op "x") c items vs -> ~ In (VBoolean true) vs ->
    eval (EMethodCall t (lit "find") (body :: tail_of op) false) c = Ok VNull.
  Proof.
    intros c t body op items vs Ht Hb Hn. rewrite find_method, Ht. cbn [bind].
    change (exec_method (lit "find") false (VArray items) (margs_of c (body :: tail_of op)) (Some (c_vars c)))
      with (m_find items (margs_of c (body :: tail_of op)) (Some (c_vars c))).
    unfold m_find. rewrite lit_param_tail. cbn [margs_of map m_lambda base_of].
    apply (find_none _ (method_lambda_ok _ _) _ _ _ vs); [|assumption].
    eapply Forall2_impl; [|exact Hb]. cbv beta. intros a b Hab. now rewrite method_lambda_eq.
  Qed.
  Lemma find_method_at : forall c t body op before it after vs, eval t c = Ok (VArray (before ++ it :: after)) ->
    method_values body (name_of op "x") c before vs -> ~ In (VBoolean true) vs ->
    (method_body c body (name_of op "x") it = Ok (VBoolean true) ->
     eval (EMethodCall t (lit "find") (body :: tail_of op) false) c = Ok it)
    /\ ((forall v, method_body c body (name_of op "x") it <> Ok v) ->
        fails_like (method_body c body (name_of op "x") it) (eval (EMethodCall t (lit "find") (body :: tail_of op) false) c)).
  Proof.
    intros c t body op before it after vs Ht Hb Hn. rewrite find_method, Ht. cbn [bind].
    change (exec_method (lit "find") false (VArray (before ++ it :: after)) (margs_of c (body :: tail_of op)) (Some (c_vars c)))
      with (m_find (before ++ it :: after) (margs_of c (body :: tail_of op)) (Some (c_vars c))).
    unfold m_find. rewrite lit_param_tail. cbn [margs_of map m_lambda base_of].
    rewrite (find_at _ (method_lambda_ok _ _) _ _ _ vs); [|eapply Forall2_impl; [|exact Hb]; cbv beta; intros a b Hab; now rewrite method_lambda_eq|assumption].
    rewrite method_lambda_eq. split.
    - intros ->. reflexivity.
    - intros H. now apply bind_fails.
  Qed.
  Lemma reduce_method : forall c t body init p q items i r, eval t c = Ok (VArray items) -> method_init c init = Ok i ->
    (eval (EMethodCall t (lit "reduce") [body; init; EStringLit p; EStringLit q] false) c = Ok r <->
     folds (method_step c body p q) i items r).
  Proof.
    intros c t body init p q items i r Ht Hi. cbn [eval]. rewrite Ht. cbn [bind].
    set (args := margs_of c [body; init; EStringLit p; EStringLit q]).
    change (exec_method (lit "reduce") false (VArray items) args (Some (c_vars c))) with (m_reduce items args (Some (c_vars c))).
    unfold m_reduce, args. cbn [margs_of map m_lambda base_of].
    change (lit_param _ 2 "x") with p. change (lit_param _ 3 "acc") with q.
    assert (E : match c_reg c with Some reg => ev_custom reg init | None => fun vars => ev init (Some vars) end (c_vars c) = Ok i).
    { unfold method_init in Hi. destruct (c_reg c); exact Hi. }
    rewrite E. cbn [bind]. rewrite (reduce_loop_iff _ (method_lambda_ok _ _)). clear E Hi Ht args.
    assert (S : forall acc it, match c_reg c with Some reg => ev_custom reg body | None => fun vars => ev body (Some vars) end
       (minsert q acc (minsert p it (c_vars c))) = method_step c body p q acc it).
    { intros acc it. unfold method_step. destruct (c_reg c); reflexivity. }
    split; induction 1 as [a|a it a' its r' Hs Hr IH]; try constructor; (econstructor; [|exact IH]); [now rewrite <- S|now rewrite S].
  Qed.
  Lemma lambda_method_fails : forall name c t body op before it after vs, In name ["filter"; "map"]%string ->
    eval t c = Ok (VArray (before ++ it :: after)) -> method_values body (name_of op "x") c before vs ->
    (forall v, method_body c body (name_of op "x") it <> Ok v) ->
    fails_like (method_body c body (name_of op "x") it) (eval (EMethodCall t (lit name) (body :: tail_of op) false) c).
  Proof.
    intros name c t body op before it after vs Hname Ht Hb Hn. cbn [eval]. rewrite Ht. cbn [bind].
    destruct Hname as [<-|[<-|[]]].
    - change (exec_method (lit "filter") false (VArray (before ++ it :: after)) (margs_of c (body :: tail_of op)) (Some (c_vars c)))
        with (m_filter (before ++ it :: after) (margs_of c (body :: tail_of op)) (Some (c_vars c))).
      unfold m_filter. rewrite lit_param_tail. cbn [margs_of map m_lambda base_of].
      rewrite filter_loop_eq by apply method_lambda_ok.
      rewrite (mapM_ext _ _ _ (method_body c body (name_of op "x"))) by (intros; apply method_lambda_eq).
      apply fails_bind, fails_bind. now apply (mapM_iff_fails _ _ _ before it after vs).
    - change (exec_method (lit "map") false (VArray (before ++ it :: after)) (margs_of c (body :: tail_of op)) (Some (c_vars c)))
        with (m_map (before ++ it :: after) (margs_of c (body :: tail_of op)) (Some (c_vars c))).
      unfold m_map. rewrite lit_param_tail. cbn [margs_of map m_lambda base_of].
      rewrite map_loop_eq by apply method_lambda_ok.
      rewrite (mapM_ext _ _ _ (method_body c body (name_of op "x"))) by (intros; apply method_lambda_eq).
      apply fails_bind. now apply (mapM_iff_fails _ _ _ before it after vs).
  Qed.
End HigherOrder.
