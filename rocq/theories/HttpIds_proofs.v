(** Request numbers and statistics under every interleaving. *)
From Coq Require Import String List ZArith NArith Bool Lia.
From Verif Require Import Base F64 F64Text Syntax Utf8 Ext Json Registry Methods Api Lines Host HttpRead HttpAuth HttpCache JsPlugin Multipart HttpServer HttpThreads Spec_syntax Spec_text Spec_http Base_proofs Utf8_proofs Parse_proofs Display_proofs HttpRead_proofs HttpAuth_proofs HttpServer_proofs.
Import ListNotations.
Local Open Scope N_scope.

Lemma ends_unique : forall t n n', ends_with_id n t -> ends_with_id n' t -> n = n'.
Proof.
  intros t n n' (f & ds & -> & D & <-) (f' & ds' & E & D' & <-). f_equal. rewrite !app_assoc in E. apply app_inj_tail in E as [E _].
  assert (A : forall (a b : str) x y, digits x -> digits y -> (a ++ [58]) ++ x = (b ++ [58]) ++ y -> x = y).
  { intros a b x y [_ Dx] [_ Dy] Exy. apply (f_equal (@rev N)) in Exy. rewrite !rev_app_distr in Exy. cbn [rev app] in Exy.
    rewrite <- (rev_involutive x), <- (rev_involutive y). f_equal. rewrite forallb_forall in Dx, Dy. setoid_rewrite in_rev in Dx. setoid_rewrite in_rev in Dy. revert Dx Dy Exy. generalize (rev x) (rev y). clear.
    intros x. induction x as [|c x IH]; intros [|d y] Dx Dy E; cbn in E; try reflexivity.
    - injection E as <- _. specialize (Dy 58 (or_introl eq_refl)). discriminate.
    - injection E as -> _. specialize (Dx 58 (or_introl eq_refl)). discriminate.
    - injection E as -> E. f_equal. apply IH; auto; intros; [apply Dx|apply Dy]; now right. }
  apply (A (f ++ lit """request_id""") (f' ++ lit """request_id""")); auto. rewrite <- !app_assoc in *. exact E.
Qed.
Lemma join_snoc : forall sep (l : list str) x, l <> [] -> join sep (l ++ [x]) = join sep l ++ sep ++ x.
Proof.
  intros sep l x. induction l as [|y l IH]; [contradiction|]. intros _. destruct l as [|z l]; [reflexivity|]. cbn [app]. change (join sep (y :: z :: l ++ [x])) with (y ++ sep ++ join sep ((z :: l) ++ [x])). rewrite IH by discriminate.
  change (join sep (y :: z :: l)) with (y ++ sep ++ join sep (z :: l)). now rewrite <- !app_assoc.
Qed.

Section Ids.
  Context {X : Ext} {H : Host}.
  Lemma response_ends : forall st r, ends_with_id (p_id r) (http_response st json_type (response_json r)).
  Proof.
    intros st r. unfold response_json. cbn [json_print]. destruct (N_to_str_spec (p_id r)) as [D _].
    assert (V : digits (N_to_str (p_id r)) /\ digits_value (N_to_str (p_id r)) = p_id r) by (destruct (N_to_str_spec (p_id r)); tauto). destruct V as [D' V].
    set (front := [(lit "success", JBool (p_success r)); (lit "result", match p_result r with Some j => j | None => JNull end)] ++ match p_variables r with Some kvs => [(lit "variables", JObj (h_order (p_id r) kvs))] | None => [] end ++ [(lit "error", match p_error r with Some e => JStr e | None => JNull end); (lit "execution_time_ms", json_of_f64 (p_ms r))]).
    match goal with |- context [map ?f ?l] => replace l with (front ++ [(lit "request_id", JNum (JPos (p_id r)))]) by (unfold front; rewrite <- !app_assoc; reflexivity); set (pr := f) end.
    rewrite map_app. cbn [map]. rewrite join_snoc by (unfold front; cbn; discriminate). unfold http_response. exists (line (lit "HTTP/1.1 " ++ N_to_str st ++ lit " " ++ status_text st) ++ cors ++ line (lit "Content-Type: " ++ json_type) ++ line (lit "Content-Length: " ++ N_to_str (byte_len (123 :: (join [44] (map pr front) ++ [44] ++ pr (lit "request_id", JNum (JPos (p_id r)))) ++ [125]))) ++ line (lit "Connection: close") ++ line [] ++ 123 :: join [44] (map pr front) ++ [44]), (N_to_str (p_id r)).
    split; [|now split]. rewrite <- !app_assoc. cbn [app]. rewrite <- !app_assoc. cbn [app]. do 6 apply f_equal. reflexivity.
  Qed.

  Definition quiet (w w' : world) : Prop := w_counter w' = w_counter w /\ w_processed w' = w_processed w /\ w_micros w' = w_micros w.
  Definition no_id (t : str) : Prop := forall n, ~ ends_with_id n t.
  Definition idle (p : prog) : Prop := p = Reply None \/ exists t, p = Reply (Some t) /\ no_id t.
  Lemma no_id_false : forall st body, (exists x, body = x ++ [101; 125]) -> no_id (http_response st json_type body).
  Proof.
    intros st body [x ->] n (front & ds & E & [Ne D] & _). unfold http_response in E. rewrite !app_assoc in E. change [101; 125] with ([101] ++ [125]) in E. rewrite app_assoc in E. apply app_inj_tail in E as [E _].
    destruct (exists_last Ne) as (ds' & d & ->). rewrite !app_assoc in E. apply app_inj_tail in E as [_ <-]. rewrite forallb_app in D. cbn in D. rewrite andb_false_r in D. discriminate.
  Qed.
  Lemma error_body_end : forall m, exists x, json_print (JObj [(lit "error", JStr m); (lit "success", JBool false)]) = x ++ [101; 125].
  Proof.
    intros m. cbn [json_print map join]. exists (123 :: (json_quote (lit "error") ++ 58 :: json_quote m) ++ [44] ++ json_quote (lit "success") ++ 58 :: lit "fals"). cbn [app]. apply f_equal. rewrite <- !app_assoc. reflexivity.
  Qed.
  Lemma idle_error : forall st m, idle (send_error st m).
  Proof. intros st m. right. eexists. split; [reflexivity|]. apply no_id_false, error_body_end. Qed.
  Lemma idle_401 : forall m, idle (reply 401 (unauthorized m)).
  Proof. intros m. right. eexists. split; [reflexivity|]. apply no_id_false, error_body_end. Qed.

  (** the program has the number [n]; [c], [m]: it has counted itself, its time *)
  Inductive holds (n : N) : bool -> bool -> prog -> Prop :=
  | holds_died : holds n false false (Reply None)
  | holds_answer t : ends_with_id n t -> holds n true true (Reply (Some t))
  | holds_act c m c' m' f : (c = true -> c' = true) -> (m = true -> m' = true) ->
      (forall w, w_counter (fst (f w)) = w_counter w) ->
      (forall w, w_processed (fst (f w)) = if c' && negb c then u64_wrap (w_processed w + 1) else w_processed w) ->
      (forall w, w_micros (fst (f w)) = if m' && negb m then u64_wrap (w_micros w + u64_wrap (h_micros n)) else w_micros w) ->
      (forall w, holds n c' m' (snd (f w))) -> holds n c m (Act f).
  Lemma holds_finish : forall req vars id r, holds id false false (finish req vars id r).
  Proof.
    intros req vars id r. unfold finish, record_request. apply holds_act with true false; auto. intros w. cbn [snd]. apply holds_act with true true; auto. intros w1. cbn [snd]. apply holds_answer.
    replace id with (p_id (eval_answer req vars id r)) at 1 by (destruct r as [[v ctx]|e]; reflexivity). apply response_ends.
  Qed.
  Lemma holds_step : forall n B (f : world -> world * B) k, (forall w, quiet w (fst (f w))) -> (forall b, holds n false false (k b)) -> holds n false false (act f k).
  Proof.
    intros n B f k Q K. apply holds_act with false false; auto; intros w; specialize (Q w); destruct (f w) as [w' b]; cbn in *; try apply Q. apply K.
  Qed.
  Lemma holds_process : forall req w, holds (w_counter w) false false (snd (move (process_eval_request req) w)).
  Proof.
    intros req w. unfold process_eval_request. cbn [move act]. unfold act at 1. cbn [move snd]. apply holds_step; [intros w1; destruct (cache_get _ _); now repeat split|]. intros [e|]; [apply holds_finish|].
    apply holds_step; [now repeat split|]. intros [vc|e|x]; cbn [unless_panic]; [|apply holds_finish|constructor]. apply holds_step; [now repeat split|]. intros _. apply holds_finish.
  Qed.
  Lemma process_counts : forall req w, fst (move (process_eval_request req) w) = set_counter (u64_wrap (w_counter w + 1)) w.
  Proof. reflexivity. Qed.

  Definition eval_route (text : str) : bool :=
    match lines text with
    | l :: _ => match split_whitespace l with
                | m :: p :: _ :: _ => let p := hd [] (split_char 63 p) in is_route m p "POST" "/eval" || is_route m p "GET" "/eval"
                | _ => false
                end
    | [] => false
    end.
  Lemma split_char_hd : forall c s, exists q, s = hd [] (split_char c s) ++ q /\ (q = [] \/ hd 0 q = c).
  Proof.
    intros c s. induction s as [|x s (q & E & Q)]; [exists []; now split; auto|]. cbn. destruct (N.eqb_spec x c) as [->|Ne].
    - exists (c :: s). split; [reflexivity|]. now right.
    - destruct (split_char c s) as [|h r]; cbn in *; exists q; (split; [now rewrite E at 1|assumption]).
  Qed.
  Lemma is_route_eq : forall m p a b, is_route m p a b = true <-> m = lit a /\ p = lit b.
  Proof.
    intros m p a b. unfold is_route. rewrite andb_true_iff. split; intros [A B].
    - split; apply str_eqb_eq; assumption.
    - subst. now rewrite !str_eqb_refl.
  Qed.
  Lemma eval_route_spec : forall text, eval_route text = true <-> is_eval (inl text).
  Proof.
    intros text. unfold eval_route. split.
    - destruct (lines text) as [|l ls] eqn:L; [discriminate|]. destruct (split_whitespace l) as [|m [|p [|v more]]] eqn:W; try discriminate. cbv zeta. destruct (split_char_hd 63 p) as (q & E & Q). intros K. apply orb_true_iff in K as [K|K]; apply is_route_eq in K as [-> K]; rewrite K in E.
      + exists text, l, ls, "POST"%string, "/eval"%string, q, v, more. rewrite E in W. repeat split; auto. now left.
      + exists text, l, ls, "GET"%string, "/eval"%string, q, v, more. rewrite E in W. repeat split; auto. right; now left.
    - intros (t & l & ls & m & p & q & v & more & E & L & W & Q & I). injection E as <-. rewrite L, W. cbv zeta.
      assert (Hd : forall s : string, ~ In 63 (lit s) -> hd [] (split_char 63 (lit s ++ q)) = lit s).
      { intros s K. destruct Q as [->|Q]; [now rewrite app_nil_r, split_char_none|]. destruct q as [|c q]; [discriminate|]. cbn in Q. subst c. now rewrite split_char_app. }
      assert (K : ~ In 63 (lit "/eval")) by (intros K; cbn in K; repeat destruct K as [K|K]; discriminate || contradiction).
      destruct I as [I|[I|[]]]; injection I as <- <-; rewrite (Hd _ K); reflexivity.
  Qed.
  Lemma asks_eval : forall m p q text, In (m, p) eval_endpoints -> asks m p q text -> is_eval (inl text).
  Proof.
    intros m p q text I A. pose proof eval_listed as L. unfold listed in L. rewrite Forall_forall in L. destruct (L _ I) as (M & P & K). destruct (asked _ _ _ _ A M P K) as (l & ls & v & E & S3 & Hd).
    exists text, l, ls, m, p, q, v, []. repeat split; auto. apply A.
  Qed.

  Inductive status := Fresh | Other | Has (n : N) (c m : bool).
  Definition in_state (r : str + io_error) (p : prog) (st : status) : Prop :=
    match st with
    | Fresh => is_eval r /\ (idle p \/ exists req, p = process_eval_request req)
    | Other => ~ is_eval r /\ within quiet p
    | Has n c m => is_eval r /\ holds n c m p
    end.
  Lemma guarded_start : forall m text token k, (idle k \/ exists req, k = process_eval_request req) -> let p := guarded (check_token m text token) k in idle p \/ exists req, p = process_eval_request req.
  Proof.
    intros m text token k K. cbv zeta. unfold guarded. destruct token as [cfg|]; [|exact K]. unfold check_token. destruct (extract_auth_header text) as [t|e|x]; cbn [bind unless_panic]; [|assumption|left; now left].
    destruct (str_eqb _ cfg); [assumption|]. left. apply idle_401.
  Qed.
  Lemma quiet_refl : forall w, quiet w w. Proof. now repeat split. Qed.
  Lemma quiet_file : forall p w w', changes_file p w w' -> quiet w w'. Proof. unfold changes_file, quiet. tauto. Qed.
  Lemma quiet_functions : forall w w', changes_functions w w' -> quiet w w'. Proof. unfold changes_functions, quiet. tauto. Qed.
  Lemma handler_start : forall token admin r, exists st, in_state r (handle_http_request token admin r) st /\ (st = Fresh \/ st = Other).
  Proof.
    intros token admin [text|e].
    2:{ exists Other. split; [|now right]. split; [|constructor]. intros (? & ? & ? & ? & ? & ? & ? & ? & K & _). discriminate. }
    destruct (eval_route text) eqn:R.
    - exists Fresh. split; [|now left]. split; [now apply eval_route_spec|]. cbn [handle_http_request]. unfold route, eval_route in *. destruct (lines text) as [|l ls] eqn:L; [discriminate|]. destruct (split_whitespace l) as [|m [|p [|v more]]] eqn:W; try discriminate.
      cbv zeta in *. set (p0 := hd [] (split_char 63 p)) in *. apply orb_true_iff in R as [R|R]; apply is_route_eq in R as [-> Ep]; rewrite Ep.
      + change (let x := handle_eval_post text token in idle x \/ exists req, x = process_eval_request req). apply guarded_start. destruct (parse_json_body _ _ _); [right; eauto|left; apply idle_error].
      + change (let x := handle_eval_get text token in idle x \/ exists req, x = process_eval_request req). apply guarded_start. rewrite L. cbn [hd]. rewrite W. cbv zeta. match goal with |- context [q_expression ?q] => destruct (q_expression q) end; [left; apply idle_error|right; eauto].
    - exists Other. split; [|now right]. split; [intros K; apply eval_route_spec in K; congruence|]. cbn [handle_http_request]. unfold route, eval_route in *. destruct (lines text) as [|l ls] eqn:L; [constructor|]. destruct (split_whitespace l) as [|m [|p [|v more]]] eqn:W; try constructor.
      cbv zeta in *. set (p0 := hd [] (split_char 63 p)) in *. apply orb_false_iff in R as [R1 R2]. rewrite R1, R2.
      repeat match goal with |- within _ (if ?b then _ else _) => destruct b end; try constructor; try (intros w; try apply quiet_refl; repeat (constructor; intros; try apply quiet_refl)).
      + apply within_guarded. apply within_unless; [|constructor]. intros q. destruct (ends_with _ _); [|constructor]. destruct (js_source q); [|constructor]. eapply within_weaken; [apply quiet_file|apply store_changes].
      + apply within_guarded. apply within_unless; [|constructor]. intros q. destruct (ends_with _ _); [|constructor]. apply within_act'; [apply quiet_refl|]. intros [|]; [|constructor]. destruct (js_source q); [|constructor]. eapply within_weaken; [apply quiet_file|apply store_changes].
      + apply within_guarded. destruct (parse_json_body _ _ _) as [name|e]; [|constructor]. destruct (ends_with _ _); [|constructor]. apply within_act'; [intros w; eapply quiet_file; pose proof (delete_changes name w) as K; destruct (delete_js_file name (w_files w)); exact K|]. intros [e|]; constructor.
      + apply within_guarded, within_act'; [apply quiet_refl|]. intros [fs|e]; constructor.
      + apply within_guarded. unfold auto_register. apply within_act'; [apply quiet_refl|]. intros q. apply within_unless; [|constructor]. intros fs. eapply within_weaken; [apply quiet_functions|]. apply register_changes; constructor.
      + apply within_guarded, within_act'; [now repeat split|]. constructor.
  Qed.
End Ids.

Section Sums.
  Definition sum_of (f : status -> N) (l : list status) : N := total (map f l).
  Lemma sum_app : forall f a b, sum_of f (a ++ b) = sum_of f a + sum_of f b.
  Proof. intros f a b. unfold sum_of, total. rewrite map_app. induction (map f a) as [|x l IH]; cbn; [reflexivity|]. rewrite IH. lia. Qed.
  Lemma sum_replace : forall f l i x y, nth_error l i = Some y -> sum_of f (replace i x l) + f y = sum_of f l + f x.
  Proof. intros f l. induction l as [|z l IH]; intros [|i] x y E; try discriminate; unfold sum_of, total in *; cbn in *; [injection E as ->; lia|]. specialize (IH i x y E). lia. Qed.
  Lemma sum_same : forall f l i x y, nth_error l i = Some y -> f x = f y -> sum_of f (replace i x l) = sum_of f l.
  Proof. intros f l i x y E K. pose proof (sum_replace f l i x y E). lia. Qed.
End Sums.
Definition is_has (st : status) : N := match st with Has _ _ _ => 1 | _ => 0 end.
Definition is_counted (st : status) : N := match st with Has _ true _ => 1 | _ => 0 end.
Lemma sum_le : forall l, sum_of is_has l <= N.of_nat (length l).
Proof. intros l. induction l as [|s l IH]; [reflexivity|]. unfold sum_of, total in *. cbn [map fold_right length]. destruct s; cbn [is_has] in *; lia. Qed.
Lemma counted_le : forall l, sum_of is_counted l <= sum_of is_has l.
Proof. intros l. induction l as [|s l IH]; [reflexivity|]. unfold sum_of, total in *. cbn [map fold_right length]. destruct s as [| |n [] m]; cbn [is_has is_counted] in *; lia. Qed.
Lemma wrap_add : forall a b, u64_wrap (u64_wrap a + u64_wrap b) = u64_wrap (a + b).
Proof. intros a b. unfold u64_wrap. symmetry. apply N.add_mod. discriminate. Qed.
Lemma wrap_succ : forall a, u64_wrap (u64_wrap a + 1) = u64_wrap (a + 1).
Proof. intros a. exact (wrap_add a 1). Qed.
Lemma wrap_small : forall a, a < 2 ^ 64 -> u64_wrap a = a.
Proof. intros a L. now apply N.mod_small. Qed.

Section Invariant.
  Context {X : Ext} {H : Host} (token admin : option str).
  Definition time_of (st : status) : N := match st with Has n _ true => h_micros n | _ => 0 end.
  Record inv (w0 : world) (s : server) (sts : list status) : Prop := mkInv {
    i_len : length sts = length (sv_jobs s);
    i_jobs : forall i st r p, nth_error sts i = Some st -> nth_error (sv_jobs s) i = Some (mkJob r p) -> in_state r p st;
    i_distinct : forall i k n c m c' m', nth_error sts i = Some (Has n c m) -> nth_error sts k = Some (Has n c' m') -> i = k;
    i_range : forall i n c m, nth_error sts i = Some (Has n c m) -> w_counter w0 <= n < w_counter (sv_world s);
    i_counter : w_counter (sv_world s) = w_counter w0 + sum_of is_has sts;
    i_processed : w_processed (sv_world s) = u64_wrap (w_processed w0 + sum_of is_counted sts);
    i_micros : w_micros (sv_world s) = u64_wrap (w_micros w0 + sum_of time_of sts) }.
  (** a step after which the job is in the same state, or further *)
  Lemma inv_quiet : forall w0 s sts i r p st w' p', inv w0 s sts -> nth_error sts i = Some st -> nth_error (sv_jobs s) i = Some (mkJob r p) ->
    quiet (sv_world s) w' -> in_state r p' st -> inv w0 (mkServer w' (replace i (mkJob r p') (sv_jobs s))) sts.
  Proof.
    intros w0 s sts i r p st w' p' [A1 A2 A3 A4 A5 A6 A7] E J (Q1 & Q2 & Q3) K. constructor; cbn [sv_jobs sv_world]; try (rewrite ?Q1, ?Q2, ?Q3; assumption).
    - now rewrite replace_length.
    - intros k st' r' q E' J'. rewrite nth_replace in J'. destruct (Nat.eqb_spec i k) as [<-|Ne]; [|eauto]. rewrite J in J'. injection J' as <- <-. congruence.
  Qed.
  Lemma inv_holds : forall w0 s sts i r f n c m c' m', inv w0 s sts -> nth_error sts i = Some (Has n c m) -> nth_error (sv_jobs s) i = Some (mkJob r (Act f)) ->
    (c = true -> c' = true) -> (m = true -> m' = true) ->
    (forall w, w_counter (fst (f w)) = w_counter w) ->
    (forall w, w_processed (fst (f w)) = if c' && negb c then u64_wrap (w_processed w + 1) else w_processed w) ->
    (forall w, w_micros (fst (f w)) = if m' && negb m then u64_wrap (w_micros w + u64_wrap (h_micros n)) else w_micros w) ->
    (forall w, holds n c' m' (snd (f w))) ->
    inv w0 (mkServer (fst (f (sv_world s))) (replace i (mkJob r (snd (f (sv_world s)))) (sv_jobs s))) (replace i (Has n c' m') sts).
  Proof.
    intros w0 s sts i r f n c m c' m' [A1 A2 A3 A4 A5 A6 A7] E J C M K1 K2 K3 K4.
    assert (Old : forall k st', nth_error (replace i (Has n c' m') sts) k = Some st' -> (k = i /\ st' = Has n c' m') \/ (k <> i /\ nth_error sts k = Some st')).
    { intros k st' Ek. rewrite nth_replace in Ek. destruct (Nat.eqb_spec i k) as [<-|Ne]; [rewrite E in Ek; injection Ek as <-; now left|right; now split; auto]. }
    constructor; cbn [sv_jobs sv_world].
    - now rewrite !replace_length.
    - intros k st' r' q E' J'. rewrite nth_replace in J'. apply Old in E' as [[-> ->]|[Ne E']].
      + rewrite Nat.eqb_refl, J in J'. injection J' as <- <-. split; [|apply K4]. exact (proj1 (A2 i _ r _ E J)).
      + destruct (Nat.eqb_spec i k); [congruence|eauto].
    - intros a b n0 ca ma cb mb Ea Eb. apply Old in Ea, Eb. destruct Ea as [[-> Ea]|[Na Ea]], Eb as [[-> Eb]|[Nb Eb]]; auto.
      + injection Ea as -> -> ->. exfalso. apply Nb. symmetry. eapply A3; eauto.
      + injection Eb as -> -> ->. exfalso. apply Na. eapply A3; eauto.
      + eapply A3; eauto.
    - intros k n0 ck mk Ek. rewrite K1. apply Old in Ek as [[-> Ek]|[_ Ek]]; [injection Ek as -> -> ->|]; eapply A4; eauto.
    - rewrite K1, A5. f_equal. symmetry. eapply sum_same; [exact E|reflexivity].
    - rewrite K2, A6. pose proof (sum_replace is_counted sts i (Has n c' m') _ E) as R. destruct c, c'; cbn [andb negb is_counted] in *; try (specialize (C eq_refl); discriminate).
      + do 2 f_equal. lia.
      + rewrite wrap_succ. f_equal. lia.
      + do 2 f_equal. lia.
    - rewrite K3, A7. pose proof (sum_replace time_of sts i (Has n c' m') _ E) as R. destruct m, m'; cbn [andb negb time_of] in *; try (specialize (M eq_refl); discriminate).
      + do 2 f_equal. lia.
      + rewrite wrap_add. f_equal. lia.
      + do 2 f_equal. lia.
  Qed.
  Lemma inv_start : forall w0 s sts i r req, inv w0 s sts -> nth_error sts i = Some Fresh -> nth_error (sv_jobs s) i = Some (mkJob r (process_eval_request req)) -> w_counter w0 + N.of_nat (length (sv_jobs s)) < 2 ^ 64 ->
    inv w0 (mkServer (fst (move (process_eval_request req) (sv_world s))) (replace i (mkJob r (snd (move (process_eval_request req) (sv_world s)))) (sv_jobs s)))
           (replace i (Has (w_counter (sv_world s)) false false) sts).
  Proof.
    intros w0 s sts i r req [A1 A2 A3 A4 A5 A6 A7] E J L. set (x := w_counter (sv_world s)) in *.
    assert (Old : forall k st', nth_error (replace i (Has x false false) sts) k = Some st' -> (k = i /\ st' = Has x false false) \/ (k <> i /\ nth_error sts k = Some st')).
    { intros k st' Ek. rewrite nth_replace in Ek. destruct (Nat.eqb_spec i k) as [<-|Ne]; [rewrite E in Ek; injection Ek as <-; now left|right; now split; auto]. }
    assert (W : u64_wrap (x + 1) = x + 1).
    { apply wrap_small. pose proof (sum_replace is_has sts i (Has 0 false false) _ E) as R. pose proof (sum_le (replace i (Has 0 false false) sts)) as Le. rewrite replace_length, A1 in Le. cbn [is_has] in R. lia. }
    rewrite process_counts. fold x. rewrite W.
    constructor; cbn [sv_jobs sv_world set_counter w_counter w_processed w_micros].
    - now rewrite !replace_length.
    - intros k st' r' q E' J'. rewrite nth_replace in J'. apply Old in E' as [[-> ->]|[Ne E']].
      + rewrite Nat.eqb_refl, J in J'. injection J' as <- <-. split; [exact (proj1 (A2 i _ r _ E J))|apply holds_process].
      + destruct (Nat.eqb_spec i k); [congruence|eauto].
    - intros a b n0 ca ma cb mb Ea Eb. apply Old in Ea, Eb. destruct Ea as [[-> Ea]|[Na Ea]], Eb as [[-> Eb]|[Nb Eb]]; auto.
      + injection Ea as -> -> ->. apply A4 in Eb. fold x in Eb. lia.
      + injection Eb as -> -> ->. apply A4 in Ea. fold x in Ea. lia.
      + eapply A3; eauto.
    - intros k n0 ck mk Ek. apply Old in Ek as [[-> Ek]|[_ Ek]]; [injection Ek as -> -> ->; lia|]. apply A4 in Ek. fold x in Ek. lia.
    - pose proof (sum_replace is_has sts i (Has x false false) _ E) as R. cbn [is_has] in R. lia.
    - rewrite A6. do 2 f_equal. symmetry. eapply sum_same; [exact E|reflexivity].
    - rewrite A7. do 2 f_equal. symmetry. eapply sum_same; [exact E|reflexivity].
  Qed.
  Lemma step_jobs : forall s ev, (length (sv_jobs s) <= length (sv_jobs (sv_step token admin s ev)))%nat.
  Proof. intros s [r|i]; cbn; [rewrite app_length; lia|]. destruct (nth_error _ _); [|lia]. destruct (move _ _). cbn. now rewrite replace_length. Qed.
  Lemma inv_always : forall w0 evs, w_processed w0 < 2 ^ 64 -> w_micros w0 < 2 ^ 64 ->
    w_counter w0 + N.of_nat (length (sv_jobs (serving token admin w0 evs))) < 2 ^ 64 -> exists sts, inv w0 (serving token admin w0 evs) sts.
  Proof.
    intros w0 evs P0 M0. apply (serving_ind token admin (fun s => w_counter w0 + N.of_nat (length (sv_jobs s)) < 2 ^ 64 -> exists sts, inv w0 s sts)).
    - intros _. exists []. constructor; cbn; try (intros [|]; discriminate); try reflexivity; try (unfold sum_of, total; cbn; rewrite ?N.add_0_r; try reflexivity; symmetry; now apply wrap_small).
    - intros s ev IH L. pose proof (step_jobs s ev) as Le. destruct IH as [sts I]; [lia|]. assert (L0 : w_counter w0 + N.of_nat (length (sv_jobs s)) < 2 ^ 64) by lia. clear L Le. destruct ev as [r|i]; cbn [sv_step].
      + destruct (handler_start token admin r) as (st & S0 & Fo). exists (sts ++ [st]). destruct I as [A1 A2 A3 A4 A5 A6 A7].
        assert (NH : forall k n c m, nth_error (sts ++ [st]) k = Some (Has n c m) -> nth_error sts k = Some (Has n c m)).
        { intros k n c m Ek. destruct (Nat.lt_ge_cases k (length sts)) as [Lk|Gk]; [now rewrite nth_error_app1 in Ek|]. rewrite nth_error_app2 in Ek by assumption. destruct (k - length sts)%nat as [|[|]]; try discriminate. cbn in Ek. injection Ek as ->. destruct Fo; discriminate. }
        constructor; cbn [sv_jobs sv_world].
        * rewrite !app_length. cbn. lia.
        * intros k st' r' q E J. destruct (Nat.lt_ge_cases k (length sts)) as [Lk|Gk].
          { rewrite nth_error_app1 in E by assumption. rewrite nth_error_app1 in J by lia. eauto. }
          { rewrite nth_error_app2 in E by assumption. rewrite nth_error_app2 in J by lia. rewrite A1 in E. destruct (k - length (sv_jobs s))%nat as [|[|]]; try discriminate. cbn in E, J. injection E as <-. injection J as <- <-. assumption. }
        * intros a b n c m c' m' Ea Eb. apply NH in Ea, Eb. eauto.
        * intros k n c m Ek. apply NH in Ek. eauto.
        * rewrite sum_app. destruct Fo as [-> | ->]; unfold sum_of at 2, total; cbn; rewrite A5; lia.
        * rewrite sum_app. destruct Fo as [-> | ->]; unfold sum_of at 2, total; cbn; rewrite !N.add_0_r; assumption.
        * rewrite sum_app. destruct Fo as [-> | ->]; unfold sum_of at 2, total; cbn; rewrite !N.add_0_r; assumption.
      + destruct (nth_error (sv_jobs s) i) as [[r p]|] eqn:J; [|eauto]. cbn [jb_prog jb_read]. destruct (nth_error sts i) as [st|] eqn:E.
        2:{ apply nth_error_None in E. rewrite (i_len _ _ _ I) in E. apply nth_error_None in E. congruence. }
        pose proof (i_jobs _ _ _ I _ _ _ _ E J) as S0. destruct st as [| |n c m].
        * destruct S0 as [Ev [Id|[req ->]]].
          { exists sts. assert (Em : forall w, move p w = (w, p)) by (destruct Id as [->|(t & -> & _)]; reflexivity). rewrite Em. eapply inv_quiet; eauto; [apply quiet_refl|]. split; auto. }
          { exists (replace i (Has (w_counter (sv_world s)) false false) sts). apply inv_start; assumption. }
        * exists sts. destruct S0 as [Ev W]. pose proof (within_move quiet p (sv_world s) W quiet_refl) as [Q W']. destruct (move p (sv_world s)) as [w' p']. eapply inv_quiet; eauto. now split.
        * destruct S0 as [Ev Hl]. inversion Hl; subst.
          { exists sts. eapply inv_quiet; eauto; [apply quiet_refl|]. split; auto. }
          { exists sts. eapply inv_quiet; eauto; [apply quiet_refl|]. split; auto. }
          { exists (replace i (Has n c' m') sts). cbn [move]. pose proof (inv_holds w0 s sts i r f n c m c' m' I E J) as K. destruct (f (sv_world s)) as [w' p'] eqn:F. cbn [fst snd] in K. apply K; assumption. }
  Qed.
  Lemma job_count : forall w evs, N.of_nat (length (sv_jobs (serving token admin w evs))) = arrivals evs.
  Proof.
    intros w evs. unfold serving, sv_run, arrivals. set (s := mkServer w []). replace (length (filter is_arrival evs)) with (length (sv_jobs s) + length (filter is_arrival evs))%nat by reflexivity. f_equal. generalize s. clear s.
    induction evs as [|[r|i] evs IH]; intros s; cbn [fold_left filter is_arrival length]; [lia| |].
    - rewrite IH. cbn. rewrite app_length. cbn. lia.
    - rewrite IH. f_equal. cbn. destruct (nth_error _ _); [|reflexivity]. destruct (move _ _). cbn. apply replace_length.
  Qed.
  Lemma evaluated_has : forall w0 s sts i n, inv w0 s sts -> evaluated s i n -> nth_error sts i = Some (Has n true true).
  Proof.
    intros w0 s sts i n I (r & t & Ev & A & En). unfold answered, job_at in A. destruct (nth_error sts i) as [st|] eqn:E.
    2:{ apply nth_error_None in E. rewrite (i_len _ _ _ I) in E. apply nth_error_None in E. congruence. }
    pose proof (i_jobs _ _ _ I _ _ _ _ E A) as S0. destruct st as [| |n' c m].
    - destruct S0 as [_ [[D|(t' & D & K)]|[req D]]]; try discriminate. injection D as <-. now apply K in En.
    - now destruct S0.
    - destruct S0 as [_ Hl]. inversion Hl; subst. now rewrite (ends_unique t n' n).
  Qed.
  Lemma ids_distinct : forall w evs i k n, w_processed w < 2 ^ 64 -> w_micros w < 2 ^ 64 -> w_counter w + arrivals evs < 2 ^ 64 ->
    evaluated (serving token admin w evs) i n -> evaluated (serving token admin w evs) k n -> i = k.
  Proof.
    intros w evs i k n P M L A B. rewrite <- (job_count w) in L. destruct (inv_always w evs P M L) as [sts I]. apply (evaluated_has _ _ _ _ _ I) in A, B. eapply i_distinct; eauto.
  Qed.
  Lemma ids_range : forall w evs i n, w_processed w < 2 ^ 64 -> w_micros w < 2 ^ 64 -> w_counter w + arrivals evs < 2 ^ 64 ->
    evaluated (serving token admin w evs) i n -> w_counter w <= n < w_counter w + arrivals evs.
  Proof.
    intros w evs i n P M L A. pose proof L as L'. rewrite <- (job_count w) in L. destruct (inv_always w evs P M L) as [sts I]. apply (evaluated_has _ _ _ _ _ I) in A. pose proof (i_range _ _ _ I _ _ _ _ A) as R. pose proof (i_counter _ _ _ I) as C. pose proof (sum_le sts) as Le. rewrite (i_len _ _ _ I), job_count in Le. lia.
  Qed.
  Fixpoint done_from (i : nat) (sts : list status) : list (nat * N) :=
    match sts with
    | [] => []
    | Has n true _ :: r => (i, n) :: done_from (S i) r
    | _ :: r => done_from (S i) r
    end.
  Lemma done_in : forall sts j i n, In (i, n) (done_from j sts) <-> (j <= i)%nat /\ exists m, nth_error sts (i - j) = Some (Has n true m).
  Proof.
    intros sts. induction sts as [|st sts IH]; intros j i n; cbn [done_from].
    - split; [contradiction|]. intros [_ [m E]]. destruct (i - j)%nat; discriminate.
    - assert (R : In (i, n) (done_from (S j) sts) <-> (S j <= i)%nat /\ exists m, nth_error (st :: sts) (i - j) = Some (Has n true m)).
      { rewrite IH. split; intros [L [m E]]; (split; [assumption|]; exists m); [replace (i - j)%nat with (S (i - S j)) by lia|replace (i - j)%nat with (S (i - S j)) in E by lia]; exact E. }
      assert (Z : forall m0, (j <= i)%nat -> nth_error (st :: sts) (i - j) = Some (Has n true m0) -> (i = j /\ st = Has n true m0) \/ (S j <= i)%nat).
      { intros m0 L E. destruct (Nat.eq_dec i j) as [->|Ne]; [|right; lia]. rewrite Nat.sub_diag in E. cbn in E. injection E as ->. now left. }
      destruct st as [| |x [] m]; cbn [In]; rewrite ?R.
      + split; intros [L [m0 E]]; (split; [lia|eauto] || (destruct (Z _ L E) as [[_ D]|L']; [discriminate|split; eauto])).
      + split; intros [L [m0 E]]; (split; [lia|eauto] || (destruct (Z _ L E) as [[_ D]|L']; [discriminate|split; eauto])).
      + split.
        * intros [E|[L [m0 E]]]; [injection E as <- <-; split; [lia|]; exists m; now rewrite Nat.sub_diag|split; [lia|eauto]].
        * intros [L [m0 E]]. destruct (Z _ L E) as [[-> D]|L']; [injection D as -> _; now left|right; split; eauto].
      + split; intros [L [m0 E]]; (split; [lia|eauto] || (destruct (Z _ L E) as [[_ D]|L']; [discriminate|split; eauto])).
  Qed.
  Lemma done_nodup : forall sts j, NoDup (map fst (done_from j sts)).
  Proof.
    intros sts. induction sts as [|st sts IH]; intros j; [constructor|]. cbn [done_from]. destruct st as [| |x [] m]; try apply IH. cbn [map fst]. constructor; [|apply IH].
    intros K. apply in_map_iff in K as ([a b] & <- & K). apply done_in in K. cbn in K. lia.
  Qed.
  Lemma done_count : forall sts j, N.of_nat (length (done_from j sts)) = sum_of is_counted sts.
  Proof.
    intros sts. induction sts as [|st sts IH]; intros j; [reflexivity|]. cbn [done_from]. unfold sum_of, total in *. cbn [map fold_right]. destruct st as [| |x [] m]; cbn [is_counted length]; rewrite ?Nat2N.inj_succ, IH; lia.
  Qed.
  Lemma done_times : forall sts j, (forall i n m, nth_error sts i = Some (Has n true m) -> m = true) -> (forall i n m, nth_error sts i = Some (Has n false m) -> m = false) ->
    total (map (fun d => h_micros (snd d)) (done_from j sts)) = sum_of time_of sts.
  Proof.
    intros sts. induction sts as [|st sts IH]; intros j K1 K2; [reflexivity|]. assert (IH' := fun j => IH j (fun i => K1 (S i)) (fun i => K2 (S i))). unfold sum_of, total in *. cbn [done_from map fold_right]. destruct st as [| |x [] m]; cbn [time_of map fold_right snd].
    - apply IH'.
    - apply IH'.
    - rewrite (K1 O x m eq_refl), IH'. reflexivity.
    - rewrite (K2 O x m eq_refl), IH'. reflexivity.
  Qed.
  (** what the statistics say when no request is under way *)
  Lemma statistics : forall w evs, started w -> arrivals evs < 2 ^ 64 -> all_done (serving token admin w evs) ->
    exists l, NoDup (map fst l) /\ (forall i n, In (i, n) l <-> evaluated (serving token admin w evs) i n)
      /\ w_processed (sv_world (serving token admin w evs)) = N.of_nat (length l)
      /\ w_micros (sv_world (serving token admin w evs)) = u64_wrap (total (map (fun d => h_micros (snd d)) l)).
  Proof.
    intros w evs (C0 & P0 & M0) L D. set (s := serving token admin w evs) in *. assert (L' : w_counter w + N.of_nat (length (sv_jobs s)) < 2 ^ 64) by (unfold s; rewrite job_count, C0; lia).
    destruct (inv_always w evs) as [sts I]; try (rewrite ?P0, ?M0; reflexivity); try exact L'. fold s in I.
    assert (Jb : forall i st, nth_error sts i = Some st -> exists r a, job_at s i r (Reply a) /\ in_state r (Reply a) st).
    { intros i st E. destruct (nth_error (sv_jobs s) i) as [[r p]|] eqn:J; [|apply nth_error_None in J; rewrite <- (i_len _ _ _ I) in J; apply nth_error_None in J; congruence]. destruct (D i r p J) as [a ->]. exists r, a. split; [exact J|]. exact (i_jobs _ _ _ I _ _ _ _ E J). }
    exists (done_from 0 sts). split; [apply done_nodup|]. split; [|split].
    - intros i n. rewrite done_in, Nat.sub_0_r. split.
      + intros [_ [m E]]. destruct (Jb _ _ E) as (r & a & J & Ev & Hl). inversion Hl; subst. exists r, t. auto.
      + intros K. split; [lia|]. exists true. exact (evaluated_has _ _ _ _ _ I K).
    - rewrite (i_processed _ _ _ I), P0, done_count. apply wrap_small. pose proof (counted_le sts). pose proof (sum_le sts). rewrite (i_len _ _ _ I) in *. lia.
    - rewrite (i_micros _ _ _ I), M0, done_times; [reflexivity| |].
      + intros i n m E. destruct (Jb _ _ E) as (r & a & J & Ev & Hl). now inversion Hl.
      + intros i n m E. destruct (Jb _ _ E) as (r & a & J & Ev & Hl). now inversion Hl.
  Qed.
  (** and at any moment: every answer given is counted, nothing else than an evaluation begun is *)
  Lemma statistics_always : forall w evs l, started w -> arrivals evs < 2 ^ 64 -> NoDup l -> (forall i, In i l -> exists n, evaluated (serving token admin w evs) i n) ->
    N.of_nat (length l) <= w_processed (sv_world (serving token admin w evs)) <= w_counter (sv_world (serving token admin w evs)).
  Proof.
    intros w evs l (C0 & P0 & M0) L Nd K. set (s := serving token admin w evs) in *. assert (L' : w_counter w + N.of_nat (length (sv_jobs s)) < 2 ^ 64) by (unfold s; rewrite job_count, C0; lia).
    destruct (inv_always w evs) as [sts I]; try (rewrite ?P0, ?M0; reflexivity); try exact L'. fold s in I.
    pose proof (counted_le sts). pose proof (sum_le sts). rewrite (i_len _ _ _ I) in *. rewrite (i_processed _ _ _ I), (i_counter _ _ _ I), P0, C0, !N.add_0_l, wrap_small by lia. split; [|lia].
    rewrite <- (done_count sts 0). enough (length l <= length (map fst (done_from 0 sts)))%nat by (rewrite map_length in *; lia).
    apply NoDup_incl_length; [assumption|]. intros i Hi. destruct (K i Hi) as [n E]. apply in_map_iff. exists (i, n). split; [reflexivity|]. apply done_in. rewrite Nat.sub_0_r. split; [lia|]. exists true. exact (evaluated_has _ _ _ _ _ I E).
  Qed.
  Lemma health_alone : forall q text w, asks "GET" "/health" q text -> run (handle_http_request token admin (inl text)) w = (w, Some (http_response 200 json_type (health_json (w_processed w) (w_micros w) (c_stats (w_cache w))))).
  Proof.
    intros q text w A. assert (I : In ("GET", "/health")%string public_endpoints) by (cbn; tauto). rewrite (routed_in _ _ _ _ _ _ _ public_listed I A). reflexivity.
  Qed.
End Invariant.
