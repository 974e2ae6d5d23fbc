(** The result cache never changes an answer, whatever the threads do. *)
From Coq Require Import String List ZArith NArith Bool Lia Permutation.
From Verif Require Import Base Struct F64 F64Text Syntax Utf8 Ext Json Registry Methods Core Evaluator Parser Api Lines Host HttpRead HttpAuth HttpCache JsPlugin Multipart HttpServer HttpThreads Spec Spec_syntax Spec_text Spec_http
  Base_proofs Value_proofs Env_proofs Shared_proofs HttpRead_proofs HttpAuth_proofs HttpServer_proofs HttpIds_proofs Doubles_proofs CacheKey_proofs.
From Verif Require StructRead_proofs.
Import ListNotations.
Local Open Scope N_scope.

(** ** Evaluation depends on the variables only *)
Section Same.
  Context {X : Ext}.
  Definition same_vars (m1 m2 : env) : Prop := forall k, mget k m1 = mget k m2.
  Lemma eval_same : forall e m1 m2 reg, same_vars m1 m2 -> eval e (custom_ctx m1 reg) = eval e (custom_ctx m2 reg).
  Proof. intros e m1 m2 reg S0. apply (proj1 (eval_ok (fun _ => True) e (fun _ _ => I))). split; [|reflexivity]. intros x _. apply S0. Qed.
  Lemma assign_same : forall e m1 m2, same_vars m1 m2 -> er (fun _ => True) (eval_assign e m1) (eval_assign e m2).
  Proof. intros e m1 m2 S0. apply (eval_assign_ok (fun _ => True) e (fun _ _ => I)). intros x _. apply S0. Qed.
  Lemma custom_same : forall reg src m1 m2, same_vars m1 m2 -> evaluate_with_custom reg src m1 = evaluate_with_custom reg src m2.
  Proof. intros reg src m1 m2 S0. unfold evaluate_with_custom. destruct (parse src); cbn [bind]; [|reflexivity..]. now apply eval_same. Qed.
  Lemma context_same : forall src m1 m2, same_vars m1 m2 ->
    match evaluate_with_assignments_and_context src m1, evaluate_with_assignments_and_context src m2 with
    | Ok (a, c1), Ok (b, c2) => a = b /\ same_vars c1 c2
    | Err a, Err b => a = b
    | Panic a, Panic b => a = b
    | _, _ => False
    end.
  Proof.
    intros src m1 m2 S0. unfold evaluate_with_assignments_and_context. destruct (parse src) as [e| |]; cbn [bind]; [|reflexivity..]. pose proof (assign_same e m1 m2 S0) as E. unfold er in E.
    destruct (eval_assign e m1) as [[a c1]| |], (eval_assign e m2) as [[b c2]| |]; try contradiction; try assumption. destruct E as [-> E]. split; [reflexivity|]. intros k. now apply E.
  Qed.
  Lemma assignments_same : forall src m1 m2, same_vars m1 m2 -> evaluate_with_assignments src m1 = evaluate_with_assignments src m2.
  Proof.
    intros src m1 m2 S0. unfold evaluate_with_assignments. destruct (parse src) as [e| |]; cbn [bind]; [|reflexivity..]. pose proof (assign_same e m1 m2 S0) as E. unfold er in E.
    destruct (eval_assign e m1) as [[a c1]| |], (eval_assign e m2) as [[b c2]| |]; try contradiction; cbn [bind]; try congruence. destruct E as [-> _]. reflexivity.
  Qed.
  Lemma assign_nodup : forall e m v m', NoDup (mkeys m) -> eval_assign e m = Ok (v, m') -> NoDup (mkeys m').
  Proof.
    assert (D : forall e m v m', NoDup (mkeys m) -> (x <- eval e (vars_ctx m) ;; Ok (x, m)) = Ok (v, m') -> NoDup (mkeys m')).
    { intros e m v m' N. destruct (eval e (vars_ctx m)); cbn [bind]; [|discriminate..]. intros [= _ <-]. assumption. }
    induction e using expr_ind'; intros m v m' N0; cbn [eval_assign]; try (exact (D _ _ _ _ N0)).
    - destruct (eval e (vars_ctx m)); cbn [bind]; [|discriminate..]. intros [= _ <-]. now apply NoDup_minsert.
    - generalize VNull as a. revert m N0. induction H as [|e es He F IH]; intros m N0 a; cbn [foldM]; [intros [= _ <-]; assumption|]. cbn [snd]. destruct (eval_assign e m) as [[b c]| |] eqn:E; cbn [bind]; [|discriminate..]. apply IH. now apply He in E.
  Qed.
  Lemma context_nodup : forall src m v m', NoDup (mkeys m) -> evaluate_with_assignments_and_context src m = Ok (v, m') -> NoDup (mkeys m').
  Proof. intros src m v m' N0. unfold evaluate_with_assignments_and_context. destruct (parse src); cbn [bind]; [|discriminate..]. now apply assign_nodup. Qed.
  Lemma contains_iff : forall p s, contains p s = true <-> exists a b, s = a ++ p ++ b.
  Proof.
    intros p s. unfold contains. destruct (find_str p s) as [i|] eqn:F.
    - split; [|reflexivity]. intros _. apply find_str_some in F as (r & E & _). eauto.
    - split; [discriminate|]. intros (a & b & E). now apply find_str_none with (a := a) (b := b) in F.
  Qed.
  Lemma statements_iff : forall s, contains (lit ";") s || contains (lit ":=") s = true <-> has_statements s.
  Proof.
    intros s. rewrite orb_true_iff, !contains_iff. split.
    - intros [(a & b & E)|(a & b & E)]; exists a, b; [now left|now right].
    - intros (a & b & [E|E]); [left|right]; eauto.
  Qed.
  Lemma request_gives : forall reg s m flag, match evaluate_request reg s m flag with
    | Ok (v, c) => gives reg s m (Ok v) /\ (forall ctx, c = Some ctx -> has_statements s /\ evaluate_with_assignments_and_context s m = Ok (v, ctx)) /\ (c = None -> flag = false \/ ~ has_statements s)
    | Err e => gives reg s m (Err e)
    | Panic _ => True
    end.
  Proof.
    intros reg s m flag. unfold evaluate_request, gives. destruct (_ || _) eqn:C.
    - apply statements_iff in C. destruct flag; unfold evaluate_with_assignments, evaluate_with_assignments_and_context.
      + destruct (parse s) as [e| |]; cbn [bind]; [|left; now split|exact I]. destruct (eval_assign e m) as [[v c]| |]; cbn [bind]; [|left; now split|exact I]. split; [left; now split|]. split; [intros ctx [= <-]; now split|discriminate].
      + destruct (parse s) as [e| |]; cbn [bind]; [|left; now split|exact I]. destruct (eval_assign e m) as [[v c]| |]; cbn [bind]; [|left; now split|exact I]. split; [left; now split|]. split; [discriminate|now left].
    - assert (C' : ~ has_statements s) by (rewrite <- statements_iff; congruence). destruct (evaluate_with_custom reg s m) as [v| |] eqn:E; cbn [bind]; [|right; now split|exact I]. split; [right; now split|]. split; [discriminate|now right].
  Qed.
  Lemma gives_same : forall reg s m1 m2 r, same_vars m1 m2 -> gives reg s m1 r -> gives reg s m2 r.
  Proof. intros reg s m1 m2 r S0 [[A ->]|[A ->]]; [left|right]; (split; [assumption|]); [now apply assignments_same|now apply custom_same]. Qed.
End Same.

(** ** What a request asks for, and what it may get *)
Section Asked.
  Context {X : Ext} {H : Host}.
  (** the text is a request for the evaluation of [req]: by POST with a body, or by GET with a query *)
  Inductive eval_of : str -> eval_request -> Prop :=
  | by_post : forall text l ls q v more req, lines text = l :: ls -> split_whitespace l = lit "POST" :: (lit "/eval" ++ q) :: v :: more -> q = [] \/ hd 0 q = 63 ->
      parse_json_body eval_names eval_request_of text = inl req -> eval_of text req
  | by_get : forall text l ls q v more, lines text = l :: ls -> split_whitespace l = lit "GET" :: (lit "/eval" ++ 63 :: q) :: v :: more ->
      q_expression (parse_query q) <> [] -> eval_of text (query_request (parse_query q)).
  (** the result as the request wants it *)
  Definition result_json (req : eval_request) (id : N) (v : value) : json :=
    match r_output_json req with Some true => format_structured_output v (h_ms id) | _ => format_simple_output v end.
  (** the "variables" of an answer: none, or variables after the evaluation, of those that are new or changed *)
  Definition variables_of (unasked : Prop) (req : eval_request) (vars : env) (vs : option (list (str * json))) : Prop :=
    match vs with
    | None => unasked \/ ~ has_statements (r_expression req) \/ exists v ctx, evaluate_with_assignments_and_context (r_expression req) vars = Ok (v, ctx) /\ forall k x, mget k ctx = Some x -> shown (r_include req) vars k x = false
    | Some kvs => kvs <> [] /\ NoDup (map fst kvs) /\ has_statements (r_expression req) /\ exists v ctx, evaluate_with_assignments_and_context (r_expression req) vars = Ok (v, ctx)
        /\ forall k j, In (k, j) kvs <-> exists x, mget k ctx = Some x /\ shown (r_include req) vars k x = true /\ j = format_simple_output x
    end.
  (** the answers [req], with number [id], may get when the functions are [reg] *)
  Inductive answer_of (unasked : Prop) (reg : registry) (req : eval_request) (id : N) : str -> Prop :=
  | success : forall v vs, gives reg (r_expression req) (request_vars id (r_arguments req)) (Ok v) -> variables_of unasked req (request_vars id (r_arguments req)) vs ->
      answer_of unasked reg req id (http_response 200 json_type (response_json (mkResp true (Some (result_json req id v)) vs None (h_ms id) id)))
  | failure : forall e, gives reg (r_expression req) (request_vars id (r_arguments req)) (Err e) ->
      answer_of unasked reg req id (http_response 400 json_type (response_json (mkResp false None None (Some (show_error e)) (h_ms id) id))).
End Asked.

Section Cache.
  Context {X : Ext} {H : Host} (token admin : option str) (w0 : world).
  Let run := serving token admin w0.
  Lemma run_snoc : forall evs ev, run (evs ++ [ev]) = sv_step token admin (run evs) ev.
  Proof. intros evs ev. unfold run, serving, sv_run. now rewrite fold_left_app. Qed.

  (** ** The program of an evaluation *)
  Definition vars_of (req : eval_request) (id : N) : env := request_vars id (r_arguments req).
  Definition key_of (req : eval_request) (id : N) : str := generate_cache_key (r_expression req) (vars_of req id).
  Definition after_put (req : eval_request) (id : N) (vc : value * option env) : prog := finish req (vars_of req id) id (inl vc).
  Definition after_ok (req : eval_request) (id : N) (vc : value * option env) : prog :=
    act (fun w => (set_cache (cache_put (key_of req id) (mkEntry (fst vc) (snd vc) (h_eval_ms id)) (w_cache w)) w, tt)) (fun _ => after_put req id vc).
  Definition after_eval (req : eval_request) (id : N) (r : res (value * option env)) : prog :=
    unless_panic r (after_ok req id) (fun e => finish req (vars_of req id) id (inr e)).
  Definition evaluates (reg : registry) (req : eval_request) (id : N) : res (value * option env) :=
    evaluate_request reg (r_expression req) (vars_of req id) (wants_variables (r_include req)).
  Definition after_miss (req : eval_request) (id : N) : prog := act (fun w => (w, evaluates (w_registry w) req id)) (after_eval req id).
  Definition after_id (req : eval_request) (id : N) : prog :=
    act (fun w => let (r, c) := cache_get (key_of req id) (w_cache w) in (set_cache c w, r))
        (fun hit => match hit with Some e => after_put req id (e_result e, e_vars e) | None => after_miss req id end).
  Lemma process_shape : forall req, process_eval_request req = act (fun w => (set_counter (u64_wrap (w_counter w + 1)) w, w_counter w)) (after_id req).
  Proof. reflexivity. Qed.
  Definition final (req : eval_request) (id : N) (r : (value * option env) + error) : prog :=
    let p := eval_answer req (vars_of req id) id r in reply (if p_success p then 200 else 400) (response_json p).
  Definition last_act (req : eval_request) (id : N) (r : (value * option env) + error) : prog :=
    act (fun w => (set_micros (u64_wrap (w_micros w + u64_wrap (h_micros id))) w, tt)) (fun _ => final req id r).
  Lemma finish_shape : forall req id r, finish req (vars_of req id) id r = act (fun w => (set_processed (u64_wrap (w_processed w + 1)) w, tt)) (fun _ => last_act req id r).
  Proof. reflexivity. Qed.

  (** ** What the cache holds *)
  Definition genuine (evs : list event) (k : str) (e : entry) : Prop :=
    exists text req id reg, In (Arrive (inl text)) evs /\ eval_of text req /\ registry_during token admin w0 evs reg
      /\ k = key_of req id /\ evaluates reg req id = Ok (e_result e, e_vars e).
  Record cache_ok (evs : list event) (c : cache) : Prop := mkOk {
    ok_genuine : forall k e, In (k, e) (c_lru c) -> genuine evs k e;
    ok_keys : NoDup (mkeys (c_lru c));
    ok_size : (length (c_lru c) <= cache_capacity)%nat;
    ok_entries : cs_entries (c_stats c) = N.of_nat (length (c_lru c)) }.
  Definition justified (evs : list event) (req : eval_request) (id : N) (r : (value * option env) + error) : Prop :=
    match r with
    | inl vc => exists e, genuine evs (key_of req id) e /\ vc = (e_result e, e_vars e)
    | inr x => exists reg, registry_during token admin w0 evs reg /\ evaluates reg req id = Err x
    end.
  Inductive stage (evs : list event) (req : eval_request) : prog -> Prop :=
  | s_start : stage evs req (process_eval_request req)
  | s_get id : stage evs req (after_id req id)
  | s_eval id : stage evs req (after_miss req id)
  | s_put id vc : (forall ms, genuine evs (key_of req id) (mkEntry (fst vc) (snd vc) ms)) -> stage evs req (after_ok req id vc)
  | s_finish id r : justified evs req id r -> stage evs req (finish req (vars_of req id) id r)
  | s_last id r : justified evs req id r -> stage evs req (last_act req id r)
  | s_reply id r : justified evs req id r -> stage evs req (final req id r)
  | s_dead : stage evs req (Reply None).
  Lemma during_more : forall evs ev reg, registry_during token admin w0 evs reg -> registry_during token admin w0 (evs ++ [ev]) reg.
  Proof. intros evs ev reg (b & a & -> & E). exists b, (a ++ [ev]). now rewrite app_assoc. Qed.
  Lemma during_now : forall evs ev, registry_during token admin w0 (evs ++ [ev]) (w_registry (sv_world (run evs))).
  Proof. intros evs ev. now exists evs, [ev]. Qed.
  Lemma genuine_more : forall evs ev k e, genuine evs k e -> genuine (evs ++ [ev]) k e.
  Proof. intros evs ev k e (text & req & id & reg & I & A & D & K & E). exists text, req, id, reg. repeat split; auto using during_more. apply in_or_app. now left. Qed.
  Lemma justified_more : forall evs ev req id r, justified evs req id r -> justified (evs ++ [ev]) req id r.
  Proof. intros evs ev req id [vc|x]; [intros (e & G & E); exists e; auto using genuine_more|intros (reg & D & E); exists reg; auto using during_more]. Qed.
  Lemma stage_more : forall evs ev req p, stage evs req p -> stage (evs ++ [ev]) req p.
  Proof. intros evs ev req p K. destruct K; try (constructor; auto using justified_more, genuine_more). Qed.
  Lemma cache_more : forall evs ev c, cache_ok evs c -> cache_ok (evs ++ [ev]) c.
  Proof. intros evs ev c [A K B C]. constructor; auto using genuine_more. Qed.
  Lemma cleared_ok : forall evs c, cache_ok evs (cache_clear c).
  Proof. intros evs c. constructor; [intros k e []|constructor|apply Nat.le_0_l|reflexivity]. Qed.
  Lemma mremove_length : forall V k (m : smap V), (length (mremove k m) <= length m)%nat.
  Proof. intros V k m. induction m as [|[k' v] m IH]; cbn; [lia|]. destruct (str_eqb k k'); cbn; lia. Qed.
  Lemma mremove_in : forall V k (m : smap V) x, In x (mremove k m) -> In x m.
  Proof. intros V k m x. induction m as [|[k' v] m IH]; cbn; [auto|]. destruct (str_eqb k k'); cbn; tauto. Qed.
  Lemma mget_found : forall V k (m : smap V) v, mget k m = Some v -> In (k, v) m.
  Proof. intros V k m v. induction m as [|[k' v'] m IH]; cbn; [discriminate|]. destruct (str_eqb k k') eqn:E; [|auto]. apply str_eqb_eq in E. intros [= ->]. left. now rewrite E. Qed.
  Lemma removelast_in : forall A (l : list A) x, In x (removelast l) -> In x l.
  Proof. intros A l x. induction l as [|y l IH]; [auto|]. cbn [removelast]. destruct l; [intros []|]. intros [->|K]; [now left|right; auto]. Qed.
  Lemma removelast_length : forall A (l : list A), length (removelast l) = pred (length l).
  Proof. intros A l. induction l as [|y l IH]; [reflexivity|]. cbn [removelast]. destruct l; [reflexivity|]. cbn [length] in *. now rewrite IH. Qed.
  Lemma mremove_shorter : forall V k (m : smap V) v, mget k m = Some v -> (length (mremove k m) < length m)%nat.
  Proof. intros V k m v. induction m as [|[k' v'] m IH]; cbn; [discriminate|]. destruct (str_eqb k k') eqn:E; cbn; [pose proof (mremove_length V k m); lia|]. intros K. apply IH in K. lia. Qed.

  Lemma mremove_absent : forall V k (m : smap V), ~ In k (mkeys m) -> mremove k m = m.
  Proof. intros V k m. induction m as [|[k' v] m IH]; cbn; [reflexivity|]. intros N0. destruct (str_eqb k k') eqn:E; [apply str_eqb_eq in E; subst; tauto|]. f_equal. apply IH. tauto. Qed.
  Lemma mremove_exact : forall V k (m : smap V) v, NoDup (mkeys m) -> mget k m = Some v -> S (length (mremove k m)) = length m.
  Proof.
    intros V k m v. induction m as [|[k' v'] m IH]; cbn; [discriminate|]. intros N0. inversion N0 as [|? ? N1 N2]; subst. destruct (str_eqb k k') eqn:E; cbn.
    - apply str_eqb_eq in E. subst. intros _. now rewrite mremove_absent.
    - intros K. f_equal. now apply IH.
  Qed.
  Lemma nodup_front : forall A (a b : list A), NoDup (a ++ b) -> NoDup a.
  Proof. intros A a b. induction a as [|x a IH]; intros N0; [constructor|]. inversion N0 as [|? ? N1 N2]; subst. constructor; [|auto]. intros K. apply N1, in_or_app. now left. Qed.
  Lemma put_ok : forall evs k e c, cache_ok evs c -> genuine evs k e -> cache_ok evs (cache_put k e c).
  Proof.
    intros evs k e c [A B C D] G. unfold cache_put, lru_put. destruct (mget k (c_lru c)) as [old|] eqn:M; cbn [c_lru c_stats cs_entries].
    - constructor; cbn [c_lru c_stats cs_entries].
      + intros k' e' [[= <- <-]|I0]; [assumption|]. apply mremove_in in I0. auto.
      + exact (NoDup_minsert k e _ B).
      + cbn [length]. rewrite (mremove_exact _ _ _ _ B M). assumption.
      + reflexivity.
    - constructor; cbn [c_lru c_stats cs_entries].
      + intros k' e' [[= <- <-]|I0]; [assumption|]. apply A. destruct (_ <? _)%nat; [assumption|]. now apply removelast_in.
      + cbn [mkeys map fst]. apply mget_none in M. constructor.
        * destruct (_ <? _)%nat; [assumption|]. intros I0. apply M. apply in_map_iff in I0 as (x & E & I0). apply removelast_in in I0. apply in_map_iff. eauto.
        * destruct (_ <? _)%nat; [assumption|]. destruct (c_lru c) as [|x l] eqn:L; [constructor|]. assert (Ne : x :: l <> []) by discriminate. pose proof (app_removelast_last x Ne) as R. unfold mkeys in B. rewrite R, map_app in B. now apply nodup_front in B.
      + cbn [length]. destruct (Nat.ltb_spec (length (c_lru c)) cache_capacity) as [L|L]; [assumption|]. rewrite removelast_length. unfold cache_capacity in *. lia.
      + reflexivity.
  Qed.
  Lemma get_ok : forall evs k c, cache_ok evs c -> cache_ok evs (snd (cache_get k c)) /\ forall e, fst (cache_get k c) = Some e -> genuine evs k e.
  Proof.
    intros evs k c [A B C D]. unfold cache_get. destruct (mget k (c_lru c)) as [e|] eqn:M; cbn [fst snd].
    - pose proof (mget_found _ _ _ _ M) as F. split; [|intros e' [= <-]; auto]. constructor; cbn [c_lru c_stats cs_entries].
      + intros k' e' [[= <- <-]|I0]; [auto|]. apply mremove_in in I0. auto.
      + exact (NoDup_minsert k e _ B).
      + cbn [length]. rewrite (mremove_exact _ _ _ _ B M). assumption.
      + cbn [length]. now rewrite (mremove_exact _ _ _ _ B M).
    - split; [|discriminate]. constructor; assumption.
  Qed.

  (** ** Which requests are evaluated *)
  Definition cquiet (w w' : world) : Prop := w_cache w' = w_cache w \/ w_cache w' = cache_clear (w_cache w).
  Lemma cquiet_refl : forall w, cquiet w w. Proof. now left. Qed.
  Lemma cquiet_file : forall p w w', changes_file p w w' -> cquiet w w'. Proof. unfold changes_file, cquiet. tauto. Qed.
  Lemma cquiet_functions : forall w w', changes_functions w w' -> cquiet w w'. Proof. unfold changes_functions, cquiet. tauto. Qed.
  Lemma path_of : forall p q, q = [] \/ hd 0 q = 63 -> ~ In 63 p -> hd [] (split_char 63 (p ++ q)) = p.
  Proof. intros p q [->|Q] K; [now rewrite app_nil_r, split_char_none|]. destruct q as [|c q]; [discriminate|]. cbn in Q. subst c. now rewrite split_char_app. Qed.
  Lemma eval_unmarked : ~ In 63 (lit "/eval").
  Proof. intros K; cbn in K; repeat destruct K as [K|K]; discriminate || contradiction. Qed.
  Lemma question_split : forall q, split_once [63] (lit "/eval" ++ 63 :: q) = Some (lit "/eval", q).
  Proof. reflexivity. Qed.
  Lemma eval_of_route : forall text req, eval_of text req -> eval_route text = true.
  Proof.
    intros text req E. apply eval_route_spec. destruct E as [text l ls q v more req L W Q _|text l ls q v more L W _].
    - exists text, l, ls, "POST"%string, "/eval"%string, q, v, more. repeat split; auto. now left.
    - exists text, l, ls, "GET"%string, "/eval"%string, (63 :: q), v, more. repeat split; auto. right; now left.
  Qed.
  Lemma eval_of_unique : forall text req req', eval_of text req -> eval_of text req' -> req = req'.
  Proof.
    intros text req req' A B. destruct A as [text l ls q v more req L W Q P|text l ls q v more L W N1]; inversion B as [? l' ls' q' v' more' ? L' W' Q' P'|? l' ls' q' v' more' L' W' N1']; subst; rewrite L in L'; injection L' as <- <-; rewrite W in W'.
    - congruence.
    - discriminate.
    - discriminate.
    - injection W' as E _ _. now rewrite E.
  Qed.
  Lemma cases_guarded : forall m text cfg k (P : prog -> Prop), (forall b, P (reply 401 b)) -> P (Reply None) -> P k -> P (guarded (check_token m text cfg) k).
  Proof. intros m text cfg k P A B C. unfold guarded. destruct (check_token m text cfg) as [[b|]| |]; cbn [unless_panic]; auto. Qed.
  Lemma handler_cases : forall r, unicode X ->
    (exists text req, r = inl text /\ eval_of text req /\ handle_http_request token admin r = process_eval_request req)
    \/ (within cquiet (handle_http_request token admin r) /\ forall text req, r = inl text -> eval_of text req -> ~ authorised token text).
  Proof.
    intros [text|e] U; [|right; split; [constructor|discriminate]]. destruct (eval_route text) eqn:R.
    - (* a request to evaluate *)
      assert (A : (exists req, eval_of text req /\ exists k, k = process_eval_request req /\ handle_http_request token admin (inl text) = guarded (check_authentication text token) k)
        \/ ((forall req, ~ eval_of text req) /\ exists k, within cquiet k /\ handle_http_request token admin (inl text) = guarded (check_authentication text token) k)).
      { cbn [handle_http_request]. unfold route, eval_route in *. destruct (lines text) as [|l ls] eqn:L; [discriminate|]. destruct (split_whitespace l) as [|m [|p [|v more]]] eqn:W; try discriminate.
        cbv zeta in *. destruct (split_char_hd 63 p) as (q & Eq & Q). set (p0 := hd [] (split_char 63 p)) in *. apply orb_true_iff in R as [R|R]; apply is_route_eq in R as [-> Ep]; rewrite Ep; rewrite Ep in Eq; subst p.
        + change (is_route (lit "POST") (lit "/eval") "GET" "/health") with false. change (is_route (lit "POST") (lit "/eval") "GET" "/") with false. change (is_route (lit "POST") (lit "/eval") "GET" "/docs") with false. change (is_route (lit "POST") (lit "/eval") "GET" "/openapi.yml") with false. change (is_route (lit "POST") (lit "/eval") "POST" "/eval") with true. cbn iota. unfold handle_eval_post.
          destruct (parse_json_body eval_names eval_request_of text) as [req|e] eqn:P.
          * left. exists req. split; [eapply by_post; eassumption|]. eauto.
          * right. split; [|eexists; split; [|reflexivity]; constructor]. intros req K. inversion K as [? l' ls' q' v' more' ? L' W' Q' P'|? l' ls' q' v' more' L' W' N1]; subst; [congruence|]. rewrite L in L'. injection L' as <- <-. rewrite W in W'. discriminate.
        + change (is_route (lit "GET") (lit "/eval") "GET" "/health") with false. change (is_route (lit "GET") (lit "/eval") "GET" "/") with false. change (is_route (lit "GET") (lit "/eval") "GET" "/docs") with false. change (is_route (lit "GET") (lit "/eval") "GET" "/openapi.yml") with false. change (is_route (lit "GET") (lit "/eval") "POST" "/eval") with false. change (is_route (lit "GET") (lit "/eval") "GET" "/eval") with true. cbn iota. unfold handle_eval_get. rewrite L. cbn [hd]. rewrite W. cbv zeta.
          destruct Q as [->|Q].
          * right. split; [|eexists; split; [|reflexivity]; constructor]. intros req K. inversion K as [? l' ls' q' v' more' ? L' W' Q' P'|? l' ls' q' v' more' L' W' N1]; subst; rewrite L in L'; injection L' as <- <-; rewrite W in W'; discriminate.
          * destruct q as [|c q]; [discriminate|]. cbn in Q. subst c. rewrite question_split. destruct (q_expression (parse_query q)) as [|c0 e0] eqn:Ex.
            -- right. split; [|eexists; split; [|reflexivity]; constructor]. intros req K. inversion K as [? l' ls' q' v' more' ? L' W' Q' P'|? l' ls' q' v' more' L' W' N1]; subst; rewrite L in L'; injection L' as <- <-; rewrite W in W'; [discriminate|]. injection W' as E _ _. apply N1. now rewrite <- E.
            -- left. exists (query_request (parse_query q)). split; [eapply by_get; try eassumption; congruence|]. eauto. }
      destruct A as [(req & Ev & k & -> & ->)|[No (k & Wk & ->)]].
      + unfold check_authentication, guarded. destruct (check_token _ text token) as [[b|]|e|x] eqn:Ck; cbn [unless_panic].
        * right. split; [constructor|]. intros t' req' [= <-] _ Au. destruct token as [cfg|]; [|discriminate]. cbn in Au. rewrite (supplies_check _ _ _ _ U Au), str_eqb_refl in Ck. discriminate.
        * left. eauto.
        * left. eauto.
        * right. split; [constructor|]. intros t' req' [= <-] _ Au. destruct token as [cfg|]; [|discriminate]. cbn in Au. rewrite (supplies_check _ _ _ _ U Au), str_eqb_refl in Ck. discriminate.
      + right. split; [|intros t' req' [= <-] K; now apply No in K]. apply within_guarded, Wk.
    - right. split; [|intros t' req' [= <-] K; apply eval_of_route in K; congruence].
      cbn [handle_http_request]. unfold route, eval_route in *. destruct (lines text) as [|l ls] eqn:L; [constructor|]. destruct (split_whitespace l) as [|m [|p [|v more]]] eqn:W; try constructor.
      cbv zeta in *. set (p0 := hd [] (split_char 63 p)) in *. apply orb_false_iff in R as [R1 R2]. rewrite R1, R2.
      repeat match goal with |- within _ (if ?b then _ else _) => destruct b end; try constructor; try (intros w; try apply cquiet_refl; repeat (constructor; intros; try apply cquiet_refl)).
      + apply within_guarded. apply within_unless; [|constructor]. intros q. destruct (ends_with _ _); [|constructor]. destruct (js_source q); [|constructor]. eapply within_weaken; [apply cquiet_file|apply store_changes].
      + apply within_guarded. apply within_unless; [|constructor]. intros q. destruct (ends_with _ _); [|constructor]. apply within_act'; [apply cquiet_refl|]. intros [|]; [|constructor]. destruct (js_source q); [|constructor]. eapply within_weaken; [apply cquiet_file|apply store_changes].
      + apply within_guarded. destruct (parse_json_body _ _ _) as [name|e]; [|constructor]. destruct (ends_with _ _); [|constructor]. apply within_act'; [intros w; eapply cquiet_file; pose proof (delete_changes name w) as K; destruct (delete_js_file name (w_files w)); exact K|]. intros [e|]; constructor.
      + apply within_guarded, within_act'; [apply cquiet_refl|]. intros [fs|e]; constructor.
      + apply within_guarded. unfold auto_register. apply within_act'; [apply cquiet_refl|]. intros q. apply within_unless; [|constructor]. intros fs. eapply within_weaken; [apply cquiet_functions|]. apply register_changes; constructor.
      + apply within_guarded, within_act'; [intros w; now right|]. constructor.
  Qed.

  (** ** Every run *)
  Lemma stage_move : forall evs ev text req p, let w := sv_world (run evs) in
    cache_ok evs (w_cache w) -> In (Arrive (inl text)) evs -> eval_of text req -> stage evs req p ->
    cache_ok (evs ++ [ev]) (w_cache (fst (move p w))) /\ stage (evs ++ [ev]) req (snd (move p w)).
  Proof.
    intros evs ev text req p w C I0 E K. pose proof (cache_more _ ev _ C) as C'. destruct K as [|id|id|id vc G|id r J|id r J|id r J|].
    - rewrite process_shape. split; [exact C'|]. cbn. apply s_get.
    - cbn. pose proof (get_ok _ (key_of req id) _ C') as [A B]. destruct (cache_get (key_of req id) (w_cache w)) as [[e|] c]; cbn in *; (split; [exact A|]).
      + apply s_finish. exists e. split; [apply B; reflexivity|reflexivity].
      + apply s_eval.
    - cbn. split; [exact C'|]. unfold after_eval. destruct (evaluates (w_registry w) req id) as [vc|e|x] eqn:Ev; cbn [unless_panic].
      + apply s_put. intros ms. exists text, req, id, (w_registry w). repeat split; auto; [apply in_or_app; now left|apply during_now|]. rewrite Ev. now destruct vc.
      + apply s_finish. exists (w_registry w). split; [apply during_now|assumption].
      + apply s_dead.
    - cbn. split; [apply put_ok; [assumption|]; apply genuine_more, G|]. apply s_finish. exists (mkEntry (fst vc) (snd vc) (h_eval_ms id)). split; [apply genuine_more, G|]. now destruct vc.
    - rewrite finish_shape. split; [exact C'|]. cbn. apply s_last. now apply justified_more.
    - split; [exact C'|]. cbn. apply s_reply. now apply justified_more.
    - split; [exact C'|]. cbn. apply s_reply. now apply justified_more.
    - split; [exact C'|]. cbn. apply s_dead.
  Qed.
  Definition job_ok (evs : list event) (r : str + io_error) (p : prog) : Prop :=
    (exists text req, r = inl text /\ In (Arrive (inl text)) evs /\ eval_of text req /\ stage evs req p)
    \/ (within cquiet p /\ forall text req, r = inl text -> eval_of text req -> ~ authorised token text).
  Lemma job_more : forall evs ev r p, job_ok evs r p -> job_ok (evs ++ [ev]) r p.
  Proof. intros evs ev r p [(text & req & E & I0 & Ev & K)|K]; [left|now right]. exists text, req. repeat split; auto using stage_more. apply in_or_app. now left. Qed.
  Lemma invariant : forall evs, unicode X -> w_cache w0 = new_cache ->
    cache_ok evs (w_cache (sv_world (run evs))) /\ forall i r p, job_at (run evs) i r p -> job_ok evs r p.
  Proof.
    intros evs U C0. induction evs as [|ev evs [C J]] using rev_ind.
    - split; [|intros [|i]; discriminate]. cbn. rewrite C0. constructor; [intros k e []|constructor|apply Nat.le_0_l|reflexivity].
    - rewrite run_snoc. destruct ev as [r0|k]; cbn [sv_step].
      + split; [now apply cache_more|]. intros i r p E. unfold job_at in E. cbn [sv_jobs] in E. destruct (Nat.lt_ge_cases i (length (sv_jobs (run evs)))) as [L|G].
        * rewrite nth_error_app1 in E by assumption. apply job_more. now apply (J i).
        * rewrite nth_error_app2 in E by assumption. destruct (i - length (sv_jobs (run evs)))%nat as [|[|]]; try discriminate. cbn in E. injection E as <- <-.
          destruct (handler_cases r0 U) as [(text & req & -> & Ev & ->)|K]; [left|right; exact K]. exists text, req. repeat split; auto; [apply in_or_app; right; now left|apply s_start].
      + destruct (nth_error (sv_jobs (run evs)) k) as [[r0 p0]|] eqn:E0; [|split; [now apply cache_more|]; intros i r p E; apply job_more; now apply (J i)]. cbn [jb_prog jb_read].
        assert (K : cache_ok (evs ++ [Move k]) (w_cache (fst (move p0 (sv_world (run evs))))) /\ job_ok (evs ++ [Move k]) r0 (snd (move p0 (sv_world (run evs))))).
        { destruct (J _ _ _ E0) as [(text & req & -> & I0 & Ev & St)|[Wp No]].
          - destruct (stage_move evs (Move k) text req p0 C I0 Ev St) as [A B]. split; [exact A|]. left. exists text, req. repeat split; auto. apply in_or_app. now left.
          - destruct (within_move cquiet p0 (sv_world (run evs)) Wp cquiet_refl) as [[A|A] B]; rewrite A; (split; [|right; now split]); [now apply cache_more|apply cleared_ok]. }
        destruct (move p0 (sv_world (run evs))) as [w' p'] eqn:M. cbn [fst snd] in K. destruct K as [K1 K2]. split; [exact K1|]. intros i r p E. unfold job_at in E. cbn [sv_jobs] in E. rewrite nth_replace in E. destruct (Nat.eqb_spec k i) as [->|Ne].
        * rewrite E0 in E. injection E as <- <-. exact K2.
        * apply job_more. now apply (J i).
  Qed.

  (** ** What is found is what would be computed *)
  Lemma struct_ok : forall names s j, struct_parse names s = Some j -> json_ok j.
  Proof. intros names s j K. apply (StructRead_proofs.struct_from names json_ok read_ok) in K as [(kvs & -> & F)|K]; [now constructor|exact (parse_ok s j K)]. Qed.
  Lemma mget_ok : forall k kvs j, Forall (fun kv => json_ok (snd kv)) kvs -> mget k kvs = Some j -> json_ok j.
  Proof. intros k kvs j F M. apply mget_found in M. rewrite Forall_forall in F. exact (F _ M). Qed.
  Lemma fields_ok : forall e a o i req, eval_fields e a o i = Some req -> (forall j, a = Some j -> json_ok j) -> forall kvs, r_arguments req = Some kvs -> Forall (fun kv => json_ok (snd kv)) kvs.
  Proof.
    intros e a o i req E A kvs K. unfold eval_fields in E. destruct e as [e|]; [|discriminate]. destruct (json_expression e); [|discriminate]. destruct (json_optional json_object a) as [a'|] eqn:Ea; [|discriminate]. destruct (json_optional json_bool o); [|discriminate]. destruct (json_optional json_include i); [|discriminate]. injection E as <-. cbn in K. subst a'.
    destruct a as [[| | | | |kvs']|]; cbn in Ea; try discriminate. injection Ea as ->. specialize (A _ eq_refl). now inversion A.
  Qed.
  Lemma request_of_ok : forall j req, json_ok j -> eval_request_of j = Some req -> forall kvs, r_arguments req = Some kvs -> Forall (fun kv => json_ok (snd kv)) kvs.
  Proof.
    intros j req J E. unfold eval_request_of in E. destruct j as [| | | |js|kvs]; try discriminate.
    - destruct js as [|e [|a [|o [|i [|]]]]]; try discriminate. apply (fields_ok _ _ _ _ _ E). intros j [= <-]. inversion J as [| | | |? F|]; subst. rewrite Forall_forall in F. apply F. right; now left.
    - apply (fields_ok _ _ _ _ _ E). intros j M. inversion J as [| | | | |? F]; subst. exact (mget_ok _ _ _ F M).
  Qed.
  Lemma query_value_ok : forall s, json_ok (query_value s).
  Proof. intros s. unfold query_value. destruct (f_from_str s) as [x|] eqn:E; [apply of_f64_ok; eapply float_text_representable; eassumption|]. destruct (str_eqb _ _); [constructor|]. destruct (str_eqb _ _); constructor. Qed.
  Lemma query_ok : forall s, Forall (fun kv => json_ok (snd kv)) (q_variables (parse_query s)).
  Proof.
    intros s. unfold parse_query. assert (G : Forall (fun kv => json_ok (snd kv)) (q_variables (mkQuery [] [] false IncNone))) by constructor. revert G. generalize (mkQuery [] [] false IncNone). induction (split_char 38 s) as [|x l IH]; intros q G; [exact G|]. cbn [fold_left]. apply IH.
    unfold query_param. destruct (split_once [61] x) as [[key raw]|]; [|exact G]. cbv zeta. destruct (_ || _); [exact G|]. destruct (str_eqb _ _); [exact G|]. destruct (str_eqb _ _); [exact G|]. cbn [q_variables]. unfold minsert. constructor; [apply query_value_ok|]. rewrite Forall_forall in *. intros x0 I0. apply mremove_in in I0. auto.
  Qed.
  Lemma eval_args_ok : forall text req, eval_of text req -> forall kvs, r_arguments req = Some kvs -> Forall (fun kv => json_ok (snd kv)) kvs.
  Proof.
    intros text req E. destruct E as [text l ls q v more req L W Q P|text l ls q v more L W N1].
    - unfold parse_json_body in P. destruct (split_once crlf2 text) as [[? body]|]; [|discriminate]. destruct (struct_parse eval_names body) as [j|] eqn:J; [|discriminate]. destruct (eval_request_of j) as [r|] eqn:R; [|discriminate]. injection P as <-. apply struct_ok in J. now apply request_of_ok with j.
    - intros kvs. cbn. pose proof (query_ok q) as F. destruct (q_variables (parse_query q)) as [|x r]; [discriminate|]. intros [= <-]. exact F.
  Qed.
  Definition distinguishable (evs : list event) : Prop :=
    forall text req, In (Arrive (inl text)) evs -> eval_of text req -> r_arguments req = None -> unmistakable (r_expression req).
  Lemma same_key : forall evs text1 req1 id1 text2 req2 id2, orders -> distinguishable evs ->
    In (Arrive (inl text1)) evs -> In (Arrive (inl text2)) evs -> eval_of text1 req1 -> eval_of text2 req2 -> key_of req1 id1 = key_of req2 id2 ->
    r_expression req1 = r_expression req2 /\ same_vars (vars_of req1 id1) (vars_of req2 id2) /\ NoDup (mkeys (vars_of req1 id1)).
  Proof.
    intros evs t1 req1 id1 t2 req2 id2 O D I1 I2 E1 E2 K. unfold key_of, vars_of in *.
    destruct (request_vars_ok id1 (r_arguments req1) O (eval_args_ok _ _ E1)) as [V1 N1]. destruct (request_vars_ok id2 (r_arguments req2) O (eval_args_ok _ _ E2)) as [V2 N2].
    destruct (r_arguments req1) as [a1|] eqn:A1, (r_arguments req2) as [a2|] eqn:A2.
    - assert (Ne : forall id a, request_vars id (Some a) <> []) by (intros id a Z; pose proof (request_vars_arguments id a) as M; rewrite Z in M; discriminate).
      apply key_inj in K as [-> P]; auto. repeat split; auto. intros k. now apply mget_perm.
    - exfalso. cbn [request_vars generate_cache_key] in K. apply (key_mixed _ _ _ (request_vars_arguments id1 a1) K). now apply (D t2).
    - exfalso. cbn [request_vars generate_cache_key] in K. symmetry in K. apply (key_mixed _ _ _ (request_vars_arguments id2 a2) K). now apply (D t1).
    - cbn [request_vars generate_cache_key] in *. repeat split; auto.
  Qed.
  Lemma mget_unique : forall V (m : smap V) k v, NoDup (mkeys m) -> In (k, v) m -> mget k m = Some v.
  Proof.
    intros V m k v. induction m as [|[k' v'] m IH]; [contradiction|]. intros N0 [[= -> ->]|I0]; cbn [mget]; [now rewrite str_eqb_refl|]. inversion N0 as [|? ? N1 N2]; subst. destruct (str_eqb k k') eqn:E; [|auto].
    apply str_eqb_eq in E. subst. exfalso. apply N1. apply in_map_iff. now exists (k', v).
  Qed.
  (** the same expression is asked for without its variables *)
  Definition unasked_in (evs : list event) (req : eval_request) : Prop :=
    exists text' req', In (Arrive (inl text')) evs /\ eval_of text' req' /\ r_expression req' = r_expression req /\ wants_variables (r_include req') = false.
  Lemma shown_variables_of : forall (unasked : Prop) req vars1 vars2 v c, same_vars vars1 vars2 -> NoDup (mkeys vars2) ->
    (forall ctx, c = Some ctx -> has_statements (r_expression req) /\ evaluate_with_assignments_and_context (r_expression req) vars2 = Ok (v, ctx)) ->
    (c = None -> unasked \/ ~ has_statements (r_expression req)) ->
    variables_of unasked req vars1 (shown_variables (r_include req) vars1 c).
  Proof.
    intros unasked req vars1 vars2 v c Sm Nd Hc Hn. unfold shown_variables. destruct c as [ctx|]; [|destruct (Hn eq_refl); [now left|right; now left]]. destruct (Hc ctx eq_refl) as [Hs E].
    pose proof (context_nodup _ _ _ _ Nd E) as Nc. pose proof (context_same (r_expression req) vars1 vars2 Sm) as Cs. rewrite E in Cs. destruct (evaluate_with_assignments_and_context (r_expression req) vars1) as [[v1 ctx1]| |] eqn:E1; try contradiction. destruct Cs as [-> Cs].
    destruct (map _ _) as [|kv kvs] eqn:M.
    - right. right. exists v, ctx1. split; [assumption|]. intros k x G. destruct (shown (r_include req) vars1 k x) eqn:Sh; [|reflexivity]. exfalso. rewrite Cs in G. apply mget_found in G.
      assert (In (k, format_simple_output x) []) as []. rewrite <- M. apply in_map_iff. exists (k, x). split; [reflexivity|]. apply filter_In. now split.
    - cbn [variables_of]. split; [discriminate|]. split; [rewrite <- M, map_map; cbn [fst]; unfold mkeys in Nc; clear -Nc; induction ctx as [|[k x] ctx IH]; [constructor|]; cbn [map filter fst] in *; inversion Nc as [|? ? N1 N2]; subst; destruct (shown _ _ _ _); [cbn [map fst]; constructor; [|auto]|auto]; intros I0; apply N1; apply in_map_iff in I0 as (y & Ey & I0); apply filter_In in I0 as [I0 _]; apply in_map_iff; eauto|].
      split; [exact Hs|]. exists v, ctx1. split; [assumption|]. rewrite <- M. intros k j. split.
      + intros I0. apply in_map_iff in I0 as ([k' x] & [= <- <-] & I0). apply filter_In in I0 as [I0 Sh]. cbn in *. exists x. repeat split; auto. rewrite Cs. now apply mget_unique.
      + intros (x & G & Sh & ->). rewrite Cs in G. apply mget_found in G. apply in_map_iff. exists (k, x). split; [reflexivity|]. apply filter_In. now split.
  Qed.
  Lemma justified_answer : forall evs text req id r, orders -> distinguishable evs -> In (Arrive (inl text)) evs -> eval_of text req -> justified evs req id r ->
    exists reg, registry_during token admin w0 evs reg /\ exists answer, final req id r = Reply (Some answer) /\ answer_of (unasked_in evs req) reg req id answer.
  Proof.
    intros evs text req id r O D I0 Ev J. destruct r as [vc|x].
    - destruct J as (e & (text' & req' & id' & reg & I1 & Ev' & Du & K & E) & ->). exists reg. split; [exact Du|]. destruct (same_key evs text req id text' req' id' O D I0 I1 Ev Ev' K) as (Ee & Sm & Nd).
      assert (Nd' : NoDup (mkeys (vars_of req' id'))) by (exact (proj2 (request_vars_ok id' (r_arguments req') O (eval_args_ok _ _ Ev')))).
      pose proof (request_gives reg (r_expression req') (vars_of req' id') (wants_variables (r_include req'))) as G. unfold evaluates in E. rewrite E in G. destruct G as (G & Gc & Gn). rewrite <- Ee in *.
      eexists. split; [reflexivity|]. cbn [eval_answer p_success fst snd].
      replace (if match r_output_json req with Some b => b | None => false end then format_structured_output (e_result e) (h_ms id) else format_simple_output (e_result e)) with (result_json req id (e_result e)) by (unfold result_json; destruct (r_output_json req) as [[|]|]; reflexivity).
      apply success.
      + apply gives_same with (vars_of req' id'); [intros k; symmetry; apply Sm|exact G].
      + apply shown_variables_of with (vars2 := vars_of req' id') (v := e_result e); auto. intros K0. destruct (Gn K0) as [F|F]; [left; exists text', req'; repeat split; auto|now right].
    - destruct J as (reg & Du & E). exists reg. split; [exact Du|]. eexists. split; [reflexivity|]. cbn [eval_answer p_success]. apply failure. pose proof (request_gives reg (r_expression req) (vars_of req id) (wants_variables (r_include req))) as G. unfold evaluates in E. now rewrite E in G.
  Qed.
  (** whatever the threads do, an answer is one that evaluation gives *)
  Lemma cached_answer : forall evs i text req answer, unicode X -> orders -> w_cache w0 = new_cache ->
    (forall text req, In (Arrive (inl text)) evs -> eval_of text req -> r_arguments req = None -> unmistakable (r_expression req)) ->
    authorised token text -> eval_of text req -> answered (serving token admin w0 evs) i (inl text) answer ->
    exists id reg, registry_during token admin w0 evs reg /\ answer_of (unasked_in evs req) reg req id answer.
  Proof.
    intros evs i text req answer U O C0 D Au Ev An. destruct (invariant evs U C0) as [_ J]. destruct (J _ _ _ An) as [(text' & req' & [= <-] & I0 & Ev' & St)|[_ No]]; [|exfalso; exact (No _ _ eq_refl Ev Au)].
    pose proof (eval_of_unique _ _ _ Ev Ev'); subst req'. remember (Reply (Some answer)) as p eqn:Ep. destruct St as [|id|id|id vc G|id r Ju|id r Ju|id r Ju|]; try discriminate.
    destruct (justified_answer evs text req id r O D I0 Ev Ju) as (reg & Du & a & F & A). exists id, reg. split; [exact Du|]. rewrite F in Ep. injection Ep as ->. exact A.
  Qed.

  Lemma cache_bounded : forall evs, unicode X -> w_cache w0 = new_cache -> let c := w_cache (sv_world (serving token admin w0 evs)) in
    (length (c_lru c) <= 1000)%nat /\ cs_entries (c_stats c) = N.of_nat (length (c_lru c)).
  Proof. intros evs U C0. destruct (invariant evs U C0) as [[_ _ A B] _]. split; assumption. Qed.

  (** ** Who changes the functions *)
  Definition rquiet (w w' : world) : Prop := w_registry w' = w_registry w.
  Lemma rquiet_refl : forall w, rquiet w w. Proof. reflexivity. Qed.
  Lemma rquiet_file : forall p w w', changes_file p w w' -> rquiet w w'. Proof. unfold changes_file, rquiet. tauto. Qed.
  Lemma rquiet_process : forall req, within rquiet (process_eval_request req).
  Proof. intros req. eapply within_weaken; [|apply keeps_process]. intros w w' [A _]. exact A. Qed.
  Lemma not_reload : forall r, (forall text, r = inl text -> ~ is_reload text) -> within rquiet (handle_http_request token admin r).
  Proof.
    intros [text|e] K; [|constructor]. specialize (K text eq_refl). cbn [handle_http_request]. unfold route. destruct (lines text) as [|l ls] eqn:L; [constructor|]. destruct (split_whitespace l) as [|m [|p [|v more]]] eqn:W; try constructor.
    cbv zeta. destruct (split_char_hd 63 p) as (q & Eq & Q). set (p0 := hd [] (split_char 63 p)) in *.
    assert (Rl : is_route m p0 "POST" "/reload-hooks" = false).
    { destruct (is_route m p0 "POST" "/reload-hooks") eqn:E; [|reflexivity]. apply is_route_eq in E as [-> E]. exfalso. apply K. exists l, ls, q, v, more. rewrite E in Eq. rewrite <- Eq. auto. }
    rewrite Rl. repeat match goal with |- within _ (if ?b then _ else _) => destruct b end; try constructor; try (intros w; try apply rquiet_refl; repeat (constructor; intros; try apply rquiet_refl)).
    - apply within_guarded. destruct (parse_json_body _ _ _); [apply rquiet_process|constructor].
    - apply within_guarded. rewrite L. cbn [hd]. rewrite W. cbv zeta. match goal with |- context [q_expression ?x] => destruct (q_expression x) end; [constructor|apply rquiet_process].
    - apply within_guarded. apply within_unless; [|constructor]. intros q0. destruct (ends_with _ _); [|constructor]. destruct (js_source q0); [|constructor]. eapply within_weaken; [apply rquiet_file|apply store_changes].
    - apply within_guarded. apply within_unless; [|constructor]. intros q0. destruct (ends_with _ _); [|constructor]. apply within_act'; [apply rquiet_refl|]. intros [|]; [|constructor]. destruct (js_source q0); [|constructor]. eapply within_weaken; [apply rquiet_file|apply store_changes].
    - apply within_guarded. destruct (parse_json_body _ _ _) as [name|e]; [|constructor]. destruct (ends_with _ _); [|constructor]. apply within_act'; [intros w; eapply rquiet_file; pose proof (delete_changes name w) as K'; destruct (delete_js_file name (w_files w)); exact K'|]. intros [e|]; constructor.
    - apply within_guarded, within_act'; [apply rquiet_refl|]. intros [fs|e]; constructor.
    - apply within_guarded, within_act'; [reflexivity|]. constructor.
  Qed.
  Lemma registry_kept : forall evs, (forall text, In (Arrive (inl text)) evs -> ~ is_reload text) ->
    w_registry (sv_world (run evs)) = w_registry w0 /\ forall i r p, job_at (run evs) i r p -> within rquiet p.
  Proof.
    induction evs as [|ev evs IH] using rev_ind; intros K.
    - split; [reflexivity|]. intros [|i]; discriminate.
    - destruct IH as [R J]; [intros text I0; apply K, in_or_app; now left|]. rewrite run_snoc. destruct ev as [r0|k]; cbn [sv_step].
      + split; [exact R|]. intros i r p E. unfold job_at in E. cbn [sv_jobs] in E. destruct (Nat.lt_ge_cases i (length (sv_jobs (run evs)))) as [L|G].
        * rewrite nth_error_app1 in E by assumption. now apply (J i r).
        * rewrite nth_error_app2 in E by assumption. destruct (i - length (sv_jobs (run evs)))%nat as [|[|]]; try discriminate. cbn in E. injection E as <- <-. apply not_reload. intros text ->. apply K, in_or_app. right; now left.
      + destruct (nth_error (sv_jobs (run evs)) k) as [[r0 p0]|] eqn:E0; [|now split]. cbn [jb_prog jb_read]. destruct (within_move rquiet p0 (sv_world (run evs)) (J _ _ _ E0) rquiet_refl) as [A B].
        destruct (move p0 (sv_world (run evs))) as [w' p'] eqn:M. cbn [fst snd] in *. split; [now rewrite <- R|]. intros i r p E. unfold job_at in E. cbn [sv_jobs] in E. rewrite nth_replace in E. destruct (Nat.eqb_spec k i) as [->|Ne]; [|now apply (J i r)]. rewrite E0 in E. injection E as <- <-. exact B.
  Qed.
  Lemma cached_answer_fixed : forall evs i text req answer, unicode X -> orders -> w_cache w0 = new_cache ->
    (forall text, In (Arrive (inl text)) evs -> ~ is_reload text) ->
    (forall text req, In (Arrive (inl text)) evs -> eval_of text req -> r_arguments req = None -> unmistakable (r_expression req)) ->
    authorised token text -> eval_of text req -> answered (serving token admin w0 evs) i (inl text) answer ->
    exists id, answer_of (unasked_in evs req) (w_registry w0) req id answer.
  Proof.
    intros evs i text req answer U O C0 Nr D Au Ev An. destruct (cached_answer evs i text req answer U O C0 D Au Ev An) as (id & reg & (b & a & -> & ->) & A). exists id.
    destruct (registry_kept b) as [R _]; [intros t I0; apply Nr, in_or_app; now left|]. unfold run in R. now rewrite R in A.
  Qed.
End Cache.

(** ** The cache by itself *)
Lemma after_snoc : forall ops op, cache_after (ops ++ [op]) = cache_do (cache_after ops) op.
Proof. intros ops op. unfold cache_after. now rewrite fold_left_app. Qed.
Lemma after_keys : forall ops, NoDup (mkeys (c_lru (cache_after ops))) /\ (length (c_lru (cache_after ops)) <= 1000)%nat /\ cs_entries (c_stats (cache_after ops)) = N.of_nat (length (c_lru (cache_after ops))).
Proof.
  intros ops. induction ops as [|op ops (B & C & D)] using rev_ind; [repeat split; try constructor; apply Nat.le_0_l|]. rewrite after_snoc. set (c := cache_after ops) in *. change 1000%nat with cache_capacity in *. destruct op as [k|k e|]; cbn [cache_do].
  - unfold cache_get. destruct (mget k (c_lru c)) as [e|] eqn:M; cbn [snd c_lru c_stats cs_entries]; [|now split]. cbn [length]. rewrite (mremove_exact _ _ _ _ B M). split; [exact (NoDup_minsert k e _ B)|now split].
  - unfold cache_put, lru_put. destruct (mget k (c_lru c)) as [old|] eqn:M; cbn [c_lru c_stats cs_entries].
    + cbn [length]. rewrite (mremove_exact _ _ _ _ B M). split; [exact (NoDup_minsert k e _ B)|now split].
    + split; [|split; [|reflexivity]].
      * cbn [mkeys map fst]. apply mget_none in M. constructor.
        -- destruct (_ <? _)%nat; [assumption|]. intros I0. apply M. apply in_map_iff in I0 as (x & E & I0). apply removelast_in in I0. apply in_map_iff. eauto.
        -- destruct (_ <? _)%nat; [assumption|]. destruct (c_lru c) as [|x l] eqn:L; [constructor|]. assert (Ne : x :: l <> []) by discriminate. pose proof (app_removelast_last x Ne) as R. unfold mkeys in B. rewrite R, map_app in B. now apply nodup_front in B.
      * cbn [length]. destruct (Nat.ltb_spec (length (c_lru c)) cache_capacity) as [L|L]; [assumption|]. rewrite removelast_length. unfold cache_capacity in *. lia.
  - repeat split; try constructor; apply Nat.le_0_l.
Qed.
Lemma found_put : forall ops k e, In (k, e) (c_lru (cache_after ops)) ->
  exists before after, ops = before ++ Put k e :: after /\ ~ In Clear after /\ forall e', ~ In (Put k e') after.
Proof.
  intros ops. induction ops as [|op ops IH] using rev_ind; intros k e I0; [contradiction|]. rewrite after_snoc in I0. pose proof (after_keys ops) as (Nd & _). set (c := cache_after ops) in *.
  assert (Old : In (k, e) (c_lru c) -> op <> Clear -> (forall e', op <> Put k e') -> exists before after, ops ++ [op] = before ++ Put k e :: after /\ ~ In Clear after /\ forall e', ~ In (Put k e') after).
  { intros I1 Nc Np. destruct (IH k e I1) as (b & a & -> & A & B). exists b, (a ++ [op]). rewrite <- app_assoc. split; [reflexivity|]. split; [|intros e']; intros K; apply in_app_or in K as [K|[K|[]]]; auto; [now apply B in K|now apply Np in K]. }
  destruct op as [k'|k' e'|]; cbn [cache_do] in I0.
  - apply Old; try discriminate. unfold cache_get in I0. destruct (mget k' (c_lru c)) as [e0|] eqn:M; cbn [snd c_lru] in I0; [|exact I0]. destruct I0 as [[= -> ->]|I0]; [now apply mget_found|now apply mremove_in in I0].
  - assert (Here : k = k' -> e = e' -> exists before after, ops ++ [Put k' e'] = before ++ Put k e :: after /\ ~ In Clear after /\ forall e'', ~ In (Put k e'') after) by (intros -> ->; exists ops, []; repeat split; auto).
    unfold cache_put, lru_put in I0. destruct (mget k' (c_lru c)) as [e0|] eqn:M; cbn [c_lru] in I0; (destruct I0 as [[= <- <-]|I0]; [now apply Here|]).
    + apply Old; [now apply mremove_in in I0|discriminate|]. intros e'' [= -> <-]. pose proof (NoDup_minsert k e' _ Nd) as N0. inversion N0 as [|? ? N1 _]; subst. apply N1. apply in_map_iff. now exists (k, e).
    + assert (I1 : In (k, e) (c_lru c)) by (destruct (_ <? _)%nat; [assumption|now apply removelast_in]). apply Old; [assumption|discriminate|]. intros e'' [= -> <-]. apply mget_none in M. apply M. apply in_map_iff. now exists (k, e).
  - contradiction.
Qed.
(** what is found under a key is what was last put there, and nothing was cleared since *)
Lemma cache_sound : forall ops k e, fst (cache_get k (cache_after ops)) = Some e ->
  exists before after, ops = before ++ Put k e :: after /\ ~ In Clear after /\ forall e', ~ In (Put k e') after.
Proof. intros ops k e G. apply found_put. unfold cache_get in G. destruct (mget k _) eqn:M; [|discriminate]. cbn in G. injection G as ->. now apply mget_found. Qed.
Definition touches (op : cache_op) (k : str) : Prop := match op with Get k' | Put k' _ => k' = k | Clear => False end.
Lemma mremove_app : forall V k (a b : smap V), mremove k (a ++ b) = mremove k a ++ mremove k b.
Proof. intros V k a b. induction a as [|[k' v] a IH]; cbn; [reflexivity|]. destruct (str_eqb k k'); cbn; now rewrite ?IH. Qed.
Lemma removelast_keep : forall A (a : list A) x b, b <> [] -> removelast (a ++ x :: b) = a ++ x :: removelast b.
Proof. intros A a x b Ne. rewrite removelast_app by discriminate. f_equal. cbn. destruct b; [contradiction|reflexivity]. Qed.
Lemma kept : forall before k e after keys, ~ In Clear after -> (forall e', ~ In (Put k e') after) -> (length keys < 1000)%nat ->
  (forall op k', In op after -> touches op k' -> k' = k \/ In k' keys) ->
  exists pre post, c_lru (cache_after (before ++ Put k e :: after)) = pre ++ (k, e) :: post /\ incl (mkeys pre) keys.
Proof.
  intros before k e after keys. induction after as [|op after IH] using rev_ind; intros Nc Np L T.
  - change (before ++ [Put k e]) with (before ++ [Put k e]). rewrite after_snoc. cbn [cache_do]. unfold cache_put, lru_put. destruct (mget k _); cbn [c_lru]; eexists [], _; (split; [reflexivity|intros x []]).
  - assert (Ih : exists pre post, c_lru (cache_after (before ++ Put k e :: after)) = pre ++ (k, e) :: post /\ incl (mkeys pre) keys).
    { apply IH; auto; [intros K; apply Nc, in_or_app; now left|intros e' K; apply (Np e'), in_or_app; now left|intros op' k' I0; apply T, in_or_app; now left]. }
    clear IH. destruct Ih as (pre & post & E & In0). change (before ++ Put k e :: after ++ [op]) with (before ++ (Put k e :: after) ++ [op]). rewrite app_assoc, after_snoc. pose proof (after_keys (before ++ Put k e :: after)) as (Nd & Sz & _). set (c := cache_after (before ++ Put k e :: after)) in *.
    assert (To : forall k', touches op k' -> k' = k \/ In k' keys) by (intros k'; apply T, in_or_app; right; now left). rewrite E in Nd, Sz.
    assert (Kpre : ~ In k (mkeys pre)). { unfold mkeys in Nd. rewrite map_app in Nd. apply NoDup_remove_2 in Nd. intros K. apply Nd, in_or_app. now left. }
    assert (Sub : forall k', incl (mkeys (mremove k' pre)) keys). { intros k' x I0. apply In0. unfold mkeys in *. apply in_map_iff in I0 as (y & <- & I0). apply mremove_in in I0. apply in_map_iff. eauto. }
    assert (Move : forall k' e', k' <> k -> In k' keys -> exists pre' post', (k', e') :: mremove k' (pre ++ (k, e) :: post) = pre' ++ (k, e) :: post' /\ incl (mkeys pre') keys).
    { intros k' e' Ne I0. exists ((k', e') :: mremove k' pre), (mremove k' post). split; [|intros x [<-|K]; [exact I0|now apply (Sub k')]]. rewrite mremove_app. cbn [mremove]. destruct (str_eqb k' k) eqn:Q; [apply str_eqb_eq in Q; contradiction|reflexivity]. }
    destruct op as [k'|k' e'|]; cbn [cache_do].
    + unfold cache_get. rewrite E. destruct (mget k' (pre ++ (k, e) :: post)) as [e0|] eqn:M; cbn [snd c_lru]; [|eauto]. destruct (list_eq_dec N.eq_dec k' k) as [->|Ne].
      * assert (e0 = e) as ->. { assert (G : mget k (pre ++ (k, e) :: post) = Some e) by (apply mget_unique; [exact Nd|apply in_or_app; right; now left]). congruence. }
        eexists [], _. split; [reflexivity|intros x []].
      * destruct (To k' eq_refl) as [|I0]; [contradiction|]. now apply Move.
    + destruct (list_eq_dec N.eq_dec k' k) as [->|Ne]; [exfalso; apply (Np e'), in_or_app; right; now left|]. destruct (To k' eq_refl) as [|I0]; [contradiction|].
      unfold cache_put, lru_put. rewrite E. destruct (mget k' (pre ++ (k, e) :: post)) as [e0|] eqn:M; cbn [c_lru]; [now apply Move|].
      assert (Inc : incl (mkeys ((k', e') :: pre)) keys) by (intros x [<-|K]; [exact I0|now apply In0]).
      destruct (Nat.ltb_spec (length (pre ++ (k, e) :: post)) cache_capacity) as [Lt|Ge]; [exists ((k', e') :: pre), post; now split|].
      destruct post as [|y post].
      * exfalso. apply mget_none in M. unfold mkeys in M. rewrite map_app in M.
        assert (Ndp : NoDup (mkeys ((k', e') :: pre))). { unfold mkeys. cbn. constructor; [intros K; apply M, in_or_app; now left|]. unfold mkeys in Nd. rewrite map_app in Nd. now apply nodup_front in Nd. }
        pose proof (NoDup_incl_length Ndp Inc) as Le. unfold mkeys in Le. rewrite map_length in Le. cbn [length] in Le. rewrite app_length in Ge. cbn [length] in Ge. unfold cache_capacity in Ge. lia.
      * exists ((k', e') :: pre), (removelast (y :: post)). split; [|exact Inc]. rewrite removelast_keep by discriminate. reflexivity.
    + exfalso. apply Nc, in_or_app. right; now left.
Qed.
(** a result is kept until 1000 other keys were used *)
Lemma cache_retains : forall before k e after keys, ~ In Clear after -> (forall e', ~ In (Put k e') after) -> (length keys < 1000)%nat ->
  (forall k', In (Get k') after -> k' = k \/ In k' keys) -> (forall k' e', In (Put k' e') after -> k' = k \/ In k' keys) ->
  fst (cache_get k (cache_after (before ++ Put k e :: after))) = Some e.
Proof.
  intros before k e after keys Nc Np L T1 T2. destruct (kept before k e after keys Nc Np L) as (pre & post & E & _).
  - intros [k'|k' e'|] k'' I0 T; cbn in T; subst; eauto. contradiction.
  - unfold cache_get. pose proof (after_keys (before ++ Put k e :: after)) as (Nd & _). replace (mget k _) with (Some e); [reflexivity|]. symmetry. apply mget_unique; [exact Nd|]. rewrite E. apply in_or_app. right; now left.
Qed.
