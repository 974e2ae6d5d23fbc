(** The tests of the program that measures the HTTP server: proofs. *)
From Coq Require Import String List ZArith NArith Bool Lia.
From Verif Require Import Base Utf8 F64 Syntax Ext Json Lines Registry Core Methods Evaluator Lexer Parser Api Host HttpRead HttpCache HttpAuth HttpServer HttpThreads ServerArgs HttpBench Spec Spec_syntax Spec_args Spec_http Spec_bench
  Base_proofs HttpAuth_proofs HttpServer_proofs HttpRoutes_proofs HttpIds_proofs HttpExamples_proofs HttpBench_proofs Query_proofs Reply_proofs HttpBenchAsks_proofs HttpBenchSays_proofs.
From Verif Require Import Spec_eval Spec_httpbench.
Import ListNotations.
Local Open Scope N_scope.

(** ** The plan *)
Definition as_planned (st : stage) (tn : task * N) : Prop := requests (g_request st) (fst tn) /\ N.of_nat (sum_of (g_threads st)) = snd tn.
Lemma Forall2_maps : forall A B C (R : B -> C -> Prop) (f : A -> B) (g : A -> C) l, (forall a, In a l -> R (f a) (g a)) -> Forall2 R (map f l) (map g l).
Proof. intros A B C R f g l K. induction l as [|a l IH]; cbn [map]; constructor; [apply K; now left|apply IH; intros; apply K; now right]. Qed.
Lemma small_ascii : forall s : str, forallb (fun c => c <? 128) s = true -> Forall (fun c => c < 128) s.
Proof. intros s K. rewrite forallb_forall in K. apply Forall_forall. intros c I0. apply N.ltb_lt, K, I0. Qed.
Lemma plan_warmup : forall c st, host_name (h_host c) -> warmup_stage c = Ok st ->
  as_planned st (just (lit "2+2") nothing, if h_warmup c <=? 10 then h_warmup c else h_warmup c / 10 * 10).
Proof.
  intros c st V E. unfold warmup_stage in E. destruct (N.eqb_spec (N.min (h_warmup c) 10) 0) as [Z|Z]; [discriminate|]. injection E as <-. split.
  - cbn [fst g_request]. apply eval_asks; [exact V|discriminate|now apply small_ascii].
  - cbn [snd g_threads]. rewrite sum_repeat, Nat2N.inj_mul, !N2Nat.id. destruct (N.leb_spec (h_warmup c) 10) as [L|L].
    + rewrite N.min_l in * by lia. rewrite N.div_same by lia. lia.
    + rewrite N.min_r by lia. lia.
Qed.
Lemma plan_expressions : forall c, host_name (h_host c) -> Forall2 as_planned (expression_stages c)
  (map (fun e => (just (lit e) nothing, 10)) ["2+2"; "10*5+3/2-1"; "2^10+sqrt(144)*3"; ":a:=10;:b:=20;:c:=:a*:b"; "range(1,50).sum()"; "[1,2,3,4,5,6,7,8,9,10].map(:x*2).filter(:x>10).sum()"]%string).
Proof.
  intros c V. unfold expression_stages, test_expressions. rewrite map_map. apply Forall2_maps. intros e I0. split; [|reflexivity]. cbn [fst g_request]. apply eval_asks; [exact V| |]; repeat destruct I0 as [<- | I0]; try contradiction; try discriminate; now apply small_ascii.
Qed.
Lemma plan_concurrent : forall c, host_name (h_host c) -> Forall2 as_planned (concurrent_stages c)
  (map (fun _ => (just (lit "10*5+sqrt(25)") nothing, h_requests c)) (filter (fun level => level <=? h_requests c) [1; 5; 10; 20; 50])).
Proof.
  intros c V. unfold concurrent_stages. replace (filter (fun n => negb (h_requests c <? n)) [1; 5; 10; 20; 50]) with (filter (fun level => level <=? h_requests c) [1; 5; 10; 20; 50]).
  - apply Forall2_maps. intros n I0. apply filter_In in I0 as [I0 _]. split; cbn [fst snd g_request g_threads]; [apply eval_asks; [exact V|discriminate|now apply small_ascii]|].
    rewrite shares_sum; [apply N2Nat.id|]. repeat destruct I0 as [<- | I0]; try contradiction; discriminate.
  - apply filter_ext. intros n. rewrite N.leb_antisym. reflexivity.
Qed.
Lemma variable_plain : valid_str variable_expression /\ means_itself variable_expression /\ ~ mentions "{}" variable_expression.
Proof.
  split; [now apply valid_by|]. split.
  - assert (K : forallb (fun c => (32 <=? c) && negb (c =? 34) && negb (c =? 92)) variable_expression = true) by reflexivity. rewrite forallb_forall in K. apply Forall_forall. intros c I0. apply K in I0. apply andb_true_iff in I0 as [I0 C]. apply andb_true_iff in I0 as [A B]. apply N.leb_le in A. apply negb_true_iff in B, C. apply N.eqb_neq in B, C. auto.
  - intros K. apply contains_says in K. discriminate.
Qed.
Lemma unspaced_by : forall s : str, is_whitespace (hd 0 s) = false -> is_whitespace (last s 0) = false -> unspaced s.
Proof. intros s A B. split; [intros c r ->; exact A|intros r c ->; now rewrite last_last in B]. Qed.
Lemma plan_variables : forall c, host_name (h_host c) -> Forall2 as_planned (variable_stages c)
  (map (fun i => (just (lit ":a:=10;:b:=20;:c:=30;:d:=40;:result:=:a*:b+:c*:d") i, 10)) [nothing; everything; only [lit "a"; lit "result"]]).
Proof.
  intros c V. destruct variable_plain as (A & B & C). cbn [variable_stages map]. repeat constructor; cbn [fst g_request]; apply (json_asks _ variable_expression); auto.
  right. right. split; [discriminate|]. split; [discriminate|]. split; [now apply valid_by|]. split.
  - repeat constructor; discriminate.
  - split; [intros K; apply contains_says in K; discriminate|].
    exists [lit ":a"; lit ":result"]. exists [lit "a"; lit "result"]. assert (Tr : forall w, unspaced w -> trimmed w w) by (intros w U; exists [], []; rewrite app_nil_r; split; [reflexivity|split; [constructor|split; [constructor|exact U]]]).
    split; [split; [discriminate|split; [reflexivity|repeat constructor; not_there]]|]. split; [|reflexivity]. apply colon_name; [now apply Tr, unspaced_by|]. apply colon_name; [now apply Tr, unspaced_by|]. constructor.
Qed.
Lemma planned : forall c stages, host_name (h_host c) -> suite c = Ok stages ->
  Forall2 (fun st tn => requests (g_request st) (fst tn) /\ N.of_nat (sum_of (g_threads st)) = snd tn) stages (tests (h_requests c) (h_warmup c)).
Proof.
  intros c stages V E. unfold suite in E. destruct (warmup_stage c) as [st|e|m] eqn:W; try discriminate. injection E as <-. change (Forall2 as_planned ([st] ++ expression_stages c ++ concurrent_stages c ++ variable_stages c) (tests (h_requests c) (h_warmup c))). unfold tests. apply Forall2_app; [constructor; [exact (plan_warmup c st V W)|constructor]|].
  apply Forall2_app; [now apply plan_expressions|]. apply Forall2_app; [now apply plan_concurrent|now apply plan_variables].
Qed.

(** ** Starting *)
Lemma suite_starts : forall c, h_warmup c <> 0 -> exists stages, suite c = Ok stages.
Proof. intros c W. unfold suite, warmup_stage. destruct (N.eqb_spec (N.min (h_warmup c) 10) 0); [lia|]. eexists. reflexivity. Qed.
Lemma suite_crashes : forall c, h_warmup c = 0 -> exists m, suite c = Panic m.
Proof. intros c W. unfold suite, warmup_stage. rewrite W. eexists. reflexivity. Qed.
Lemma healthy_says : forall a, is_healthy a = true <-> exists t, a = Some t /\ mentions """status"":""healthy""" t.
Proof.
  intros [a|]; cbn [is_healthy]; unfold mentions; [rewrite contains_says; split; [eauto|intros (t & [= <-] & K); exact K]|split; [discriminate|intros (t & E & _); discriminate]].
Qed.
Lemma bench_starts : forall ask args c, bench_command args c -> h_warmup c <> 0 ->
  (exists t, ask (health_request (h_host c)) = Some t /\ mentions """status"":""healthy""" t) -> exists stages, suite c = Ok stages /\ http_bench ask args = Testing c stages.
Proof.
  intros ask args c B W Hy. apply arguments_are in B. apply healthy_says in Hy. destruct (suite_starts c W) as [stages E]. exists stages. split; [exact E|]. unfold http_bench. now rewrite B, Hy, E.
Qed.
Lemma bench_unhealthy : forall ask args c, bench_command args c -> ~ (exists t, ask (health_request (h_host c)) = Some t /\ mentions """status"":""healthy""" t) ->
  http_bench ask args = Stopped (lit "Server health check failed").
Proof.
  intros ask args c B Hy. apply arguments_are in B. unfold http_bench. rewrite B. destruct (is_healthy (ask (health_request (h_host c)))) eqn:E; [|reflexivity]. now apply healthy_says in E.
Qed.
Lemma bench_declined : forall ask args, (forall c, ~ bench_command args c) -> exists m, http_bench ask args = Stopped (lit "Error: " ++ m).
Proof.
  intros ask args K. unfold http_bench. destruct (bench_arguments args) as [c|m] eqn:E; [|eauto]. exfalso. apply (K c). now apply arguments_are.
Qed.
Lemma bench_crash : forall ask args c, bench_command args c -> h_warmup c = 0 -> (exists t, ask (health_request (h_host c)) = Some t /\ mentions """status"":""healthy""" t) -> http_bench ask args = TestsCrash.
Proof.
  intros ask args c B W Hy. apply arguments_are in B. apply healthy_says in Hy. destruct (suite_crashes c W) as [m E]. unfold http_bench. now rewrite B, Hy, E.
Qed.
Lemma suite_alike : forall c n, suite (mkConfig (h_host c) (h_port c) n (h_requests c) (h_warmup c)) = suite c.
Proof. reflexivity. Qed.

(** ** Against the server *)
Definition health_lines (host : str) : list str := [lit "GET /health HTTP/1.1"; lit "Host: " ++ host; lit "Connection: close"].
Lemma health_shape : forall host, health_request host = request (health_lines host) [].
Proof. intros host. unfold request, health_lines. cbn [join]. rewrite <- !app_assoc. reflexivity. Qed.

Lemma health_asks : forall host, asks "GET" "/health" [] (request (health_lines host) []).
Proof.
  intros host. split; [|split; [constructor|now left]]. unfold request, health_lines. cbn [join]. exists (lit "HTTP/1.1"). eexists. split; [|split; [repeat constructor|discriminate]]. rewrite <- !app_assoc. reflexivity.
Qed.
Lemma bench_health : forall (X : Ext) (H : Host) token admin w args c, bench_command args c -> h_warmup c <> 0 ->
  exists stages, suite c = Ok stages /\ http_bench (fun text => snd (run (handle_http_request token admin (inl text)) w)) args = Testing c stages.
Proof.
  intros X H token admin w args c B W. apply bench_starts; [exact B|exact W|]. rewrite health_shape, (health_alone token admin [] _ w (health_asks _)). cbn [snd]. eexists. split; [reflexivity|].
  unfold http_response, health_json. cbn [json_print map join]. set (n := N_to_str _). set (t := status_text 200). clearbody n t. match goal with |- mentions _ (?a ++ ?b ++ ?c ++ ?d ++ ?e ++ ?f ++ ?g :: ?r) => exists (a ++ b ++ c ++ d ++ e ++ f ++ [g]) end. eexists. rewrite <- !app_assoc. repeat (apply f_equal). reflexivity.
Qed.

Lemma kinds : forall c stages st, suite c = Ok stages -> In st stages -> (exists e, g_request st = eval_text (h_host c) e) \/ exists v, ~ mentions "{}" v /\ g_request st = json_request (h_host c) variable_expression v.
Proof.
  intros c stages st E I0. unfold suite in E. destruct (warmup_stage c) as [w|e|m] eqn:W; try discriminate. cbn [bind] in E. assert (stages = w :: expression_stages c ++ concurrent_stages c ++ variable_stages c) as -> by congruence. clear E. destruct I0 as [<- | I0].
  - unfold warmup_stage in W. destruct (_ =? 0) in W; [discriminate|]. injection W as <-. left. eexists. reflexivity.
  - apply in_app_or in I0 as [I0|I0]; [|apply in_app_or in I0 as [I0|I0]]; apply in_map_iff in I0 as (x & <- & I0); [left; eexists; reflexivity..|]. right. exists x. split; [|reflexivity].
    intros K. apply contains_says in K. cbn [map] in I0. repeat destruct I0 as [<- | I0]; try contradiction; discriminate K.
Qed.
Lemma asks_eval : forall c stages st, host_name (h_host c) -> suite c = Ok stages -> In st stages -> exists m q v, In (m, "/eval"%string) eval_endpoints /\ asks m "/eval" q (g_request st) /\ first_words (g_request st) [lit m; lit "/eval" ++ q; v].
Proof.
  intros c stages st V E I0. destruct (kinds c stages st E I0) as [(e & ->)|(v & Nv & ->)].
  - destruct (eval_shape (h_host c) e V) as (-> & _). destruct (visible_word _ (encoded_visible e)) as (U1 & _). exists "GET"%string, (lit "?expr=" ++ url_encode e), (lit "HTTP/1.1"). split; [right; now left|]. split; [|apply eval_first].
    split; [|split; [apply Forall_app; split; [repeat constructor|exact U1]|now right]]. unfold request, eval_lines. cbn [join]. exists (lit "HTTP/1.1"). eexists. split; [|split; [repeat constructor|discriminate]]. rewrite <- !app_assoc. reflexivity.
  - destruct variable_plain as (_ & _ & Ne). rewrite (json_shape (h_host c) variable_expression v V Ne Nv). exists "POST"%string, [], (lit "HTTP/1.1"). split; [now left|]. set (body := json_body _ v). unfold json_lines. split.
    + split; [|split; [constructor|now left]]. unfold request. cbn [join]. exists (lit "HTTP/1.1"). eexists. split; [|split; [repeat constructor|discriminate]]. rewrite <- !app_assoc. reflexivity.
    + unfold first_words, request. cbn [join]. rewrite <- app_assoc. eexists. eexists. split; [apply lines_cons; not_there|reflexivity].
Qed.
Definition good_expressions : list str :=
  [lit "2+2"; lit "10*5+3/2-1"; lit "2^10+sqrt(144)*3"; lit ":a:=10;:b:=20;:c:=:a*:b"; lit "[1,2,3,4,5,6,7,8,9,10].map(:x*2).filter(:x>10).sum()"; lit "10*5+sqrt(25)"; lit ":a:=10;:b:=20;:c:=30;:d:=40;:result:=:a*:b+:c*:d"].
Definition bad_expression : str := lit "range(1,50).sum()".
Lemma planned_task : forall n w t k, In (t, k) (tests n w) -> t_arguments t = None /\ (In (t_expression t) good_expressions \/ t = just bad_expression nothing).
Proof.
  intros n w t k I0. unfold tests in I0. repeat rewrite in_app_iff in I0. destruct I0 as [[E|[]]|[I0|[I0|I0]]].
  - injection E as <- _. split; [reflexivity|left; now left].
  - apply in_map_iff in I0 as (x & E & I0). injection E as <- _. split; [reflexivity|]. unfold good_expressions. cbn [just t_expression In]. repeat destruct I0 as [<- | I0]; try contradiction; auto 10.
  - apply in_map_iff in I0 as (x & E & I0). injection E as <- _. split; [reflexivity|left]. unfold good_expressions. cbn [just t_expression In]. auto 10.
  - apply in_map_iff in I0 as (x & E & I0). injection E as <- _. split; [reflexivity|left]. unfold good_expressions. cbn [just t_expression In]. auto 10.
Qed.
Section Evaluating.
  Context {X : Ext}.
  Lemma statements_by : forall e, (contains_str (lit ";") e || contains_str (lit ":=") e = true) <-> has_statements e.
  Proof.
    intros e. rewrite orb_true_iff, !contains_says. unfold has_statements. split.
    - intros [(a & b & E)|(a & b & E)]; exists a, b; auto.
    - intros (a & b & [E|E]); eauto.
  Qed.
  Definition ended_well (r : res value) : Prop := match r with Ok _ => True | _ => False end.
  Lemma good_ok : forall e r, In e good_expressions -> gives reg_new e [] r -> ended_well r.
  Proof.
    intros e r I0 [[St E]|[St E]]; rewrite <- statements_by in St; rewrite E; clear E; cbn [good_expressions In] in I0; repeat destruct I0 as [<- | I0]; try contradiction; try (exfalso; apply St; reflexivity); try discriminate St; clear; vm_compute; exact Logic.I.
  Qed.
  Lemma bad_err : forall r, gives reg_new bad_expression [] r -> exists e, r = Err e.
  Proof.
    intros r [[St E]|[St E]]; rewrite <- statements_by in St; [discriminate|]. assert (K : match r with Err _ => True | _ => False end) by (rewrite E; clear; vm_compute; exact Logic.I). destruct r; try contradiction. eauto.
  Qed.
End Evaluating.
Lemma no_arguments_mistaken : forall e, contains_str (lit "|") e = false -> unmistakable e.
Proof. intros e N1 a b c E. rewrite E in N1. assert (K : contains_str (lit "|") (a ++ lit "|" ++ b ++ lit "arguments:" ++ c) = true) by (apply contains_says; eauto). congruence. Qed.
Lemma planned_unmistakable : forall e, In e good_expressions \/ e = bad_expression -> unmistakable e.
Proof. intros e I0. apply no_arguments_mistaken. destruct I0 as [I0 | ->]; [|reflexivity]. cbn [good_expressions In] in I0. repeat destruct I0 as [<- | I0]; try contradiction; reflexivity. Qed.
Lemma nothing_bound : forall vars : env, (forall k, mget k vars = None) -> vars = [].
Proof. intros [|[k v] vars] K; [reflexivity|]. specialize (K k). cbn [mget] in K. rewrite (proj2 (str_eqb_eq k k) eq_refl) in K. discriminate. Qed.
Lemma statuses_differ : forall answer, status_is "200" answer -> status_is "400" answer -> False.
Proof. intros answer [r1 E1] [r2 E2]. rewrite E1 in E2. discriminate E2. Qed.
Lemma outcome : forall (X : Ext) (H : Host) admin w c stages evs i st answer, unicode X -> orders -> w_cache w = new_cache -> w_registry w = reg_new -> host_name (h_host c) -> suite c = Ok stages ->
  (forall r, In (Arrive r) evs -> r = inl (health_request (h_host c)) \/ exists st, In st stages /\ r = inl (g_request st)) ->
  In st stages -> answered (serving None admin w evs) i (inl (g_request st)) answer ->
  (says_success (Some answer) <-> ~ requests (g_request st) (just (lit "range(1,50).sum()") nothing)).
Proof.
  intros X H admin w c stages evs i st answer U O C R V E A I0 An.
  assert (Plan : forall st, In st stages -> exists t, requests (g_request st) t /\ t_arguments t = None /\ (In (t_expression t) good_expressions \/ t = just bad_expression nothing)).
  { pose proof (planned c stages V E) as P. intros st' I1. clear - P I1. set (l := tests _ _) in P. assert (Sub : forall tn, In tn l -> t_arguments (fst tn) = None /\ (In (t_expression (fst tn)) good_expressions \/ fst tn = just bad_expression nothing)) by (intros [t k] K; apply planned_task in K; exact K).
    clearbody l. induction P as [|x y l1 l2 [Rq _] P IH]; [contradiction|]. destruct I1 as [<- | I1]; [exists (fst y); split; [exact Rq|apply Sub; now left]|apply IH; [exact I1|intros; apply Sub; now right]]. }
  assert (Wanted : forall text t, In (Arrive (inl text)) evs -> wants text t -> exists st, In st stages /\ text = g_request st).
  { intros text t I1 W. apply A in I1 as [I1|(st' & I1 & I2)]; [|injection I2 as ->; eauto]. injection I1 as ->. exfalso. rewrite health_shape in W.
    assert (F : first_words (request (health_lines (h_host c)) []) [lit "GET"; lit "/health"; lit "HTTP/1.1"]).
    { unfold first_words, request, health_lines. cbn [join]. rewrite <- app_assoc. eexists. eexists. split; [apply lines_cons; not_there|reflexivity]. }
    destruct F as (l & ls & L & Sp). destruct W as [q v more body j e a o k F ? ? ? ? ? ? ? ?|q v more ps kvs F ? ? ? ? ? ? ?]; destruct F as (l' & ls' & L' & Sp'); rewrite L in L'; injection L' as <- <-; rewrite Sp in Sp'; discriminate Sp'. }
  destruct (Plan st I0) as (t & (ls & body & Eq & Ne & Al & Nn & Va & W) & Arg & Kind).
  assert (Rep : reply_to (asked_without evs t) reg_new t answer).
  { rewrite <- R. apply (replied_fixed None admin w evs i (g_request st) t answer U O C); try assumption; [| |exact Logic.I].
    - intros text I1 (l & ls' & q & v & more & L & Sp & _). apply A in I1 as [I1|(st' & I1 & I2)].
      + injection I1 as ->. rewrite health_shape in L. assert (F : first_words (request (health_lines (h_host c)) []) [lit "GET"; lit "/health"; lit "HTTP/1.1"]) by (unfold first_words, request, health_lines; cbn [join]; rewrite <- app_assoc; eexists; eexists; split; [apply lines_cons; not_there|reflexivity]).
        destruct F as (l2 & ls2 & L2 & Sp2). rewrite L in L2. injection L2 as <- <-. rewrite Sp in Sp2. discriminate Sp2.
      + injection I2 as ->. destruct (asks_eval c stages st' V E I1) as (m & q' & v' & Im & _ & (l2 & ls2 & L2 & Sp2)). rewrite L in L2. injection L2 as <- <-. rewrite Sp in Sp2. injection Sp2 as _ Sp2 _. destruct Im as [Im|[Im|[]]]; injection Im as <-; discriminate.
    - intros text t' I1 W' Na. destruct (Wanted text t' I1 W') as (st' & I2 & ->). destruct (Plan st' I2) as (t2 & (_ & _ & _ & _ & _ & _ & _ & W2) & _ & K2). destruct (wants_one _ _ _ W' W2) as (Ee & _). rewrite Ee. apply planned_unmistakable. destruct K2 as [K2 | ->]; auto. }
  destruct (asks_eval c stages st V E I0) as (m & q & v & Im & As & _). pose proof (counted_right None admin w evs i m "/eval" q _ answer Im As An) as Cn. rewrite success_says in Cn. rewrite Cn. split.
  - intros S2 (_ & _ & _ & _ & _ & _ & _ & W'). destruct (wants_one _ _ _ W W') as (Ee & _). destruct Rep as [vars x kvs j Vf G|vars x kvs Vf G An4]; [|exact (statuses_differ answer S2 (proj1 An4))].
    rewrite Arg in Vf. cbn [variables_from] in Vf. apply nothing_bound in Vf. subst vars. rewrite Ee in G. destruct (bad_err _ G) as (x' & Gx). discriminate Gx.
  - intros Nr. destruct Rep as [vars x kvs j Vf G An2|vars x kvs Vf G An4]; [exact (proj1 An2)|]. exfalso. rewrite Arg in Vf. cbn [variables_from] in Vf. apply nothing_bound in Vf. subst vars. destruct Kind as [Kind | ->]; [exact (good_ok _ _ Kind G)|]. apply Nr. exists ls, body. auto 10.
Qed.
Lemma shared_out : forall requests threads, threads <> 0 ->
  length (shares requests threads) = N.to_nat threads /\ sum_of (shares requests threads) = N.to_nat requests /\ forall x y, In x (shares requests threads) -> In y (shares requests threads) -> (x <= S y)%nat.
Proof. intros n k K. split; [apply shares_length|]. split; [now apply shares_sum|]. intros x y. now apply shares_even. Qed.
Lemma counted_status : forall (X : Ext) (H : Host) token admin w evs i m p q text answer, In (m, p) eval_endpoints -> asks m p q text -> answered (serving token admin w evs) i (inl text) answer ->
  (says_success (Some answer) <-> status_is "200" answer).
Proof. intros X H token admin w evs i m p q text answer I0 A An. rewrite <- success_says. now apply (counted_right token admin w evs i m p q text). Qed.
Lemma fewer_first : exists args c st stages, bench_command args c /\ suite c = Ok (st :: stages) /\ requests (g_request st) (just (lit "2+2") nothing) /\ N.of_nat (sum_of (g_threads st)) < h_warmup c.
Proof.
  set (c := mkConfig (lit "localhost") 8080 10 100 19). assert (V : host_name (h_host c)) by (split; [now apply valid_by|repeat split; not_there]).
  destruct (suite c) as [[|st stages]|e|m] eqn:E; try discriminate E. exists (map lit ["localhost:8080"; "-w"; "19"]%string), c, st, stages. pose proof (planned c _ V E) as P. inversion P as [|x y l1 l2 [R K] P' E1 E2]; subst. 
  split; [apply arguments_are; vm_compute; reflexivity|]. split; [exact E|]. split; [exact R|]. rewrite K. reflexivity.
Qed.
Lemma outcome_example :
  let X := example_ext in let H := example_host in
  let c := mkConfig (lit "localhost") 8080 10 12 7 in
  match suite c with
  | Ok stages =>
      let texts := map g_request stages in let evs := one_by_one 0 texts in let s := serving None None (first_world []) evs in
      unicode X /\ orders /\ (forall r, In (Arrive r) evs -> r = inl (health_request (h_host c)) \/ exists st, In st stages /\ r = inl (g_request st))
      /\ Forall (fun k => exists answer, answered s k (inl (nth k texts [])) answer) (seq 0 13)
  | _ => False end.
Proof.
  intros X H c. destruct (suite c) as [stages|e|m] eqn:E; try discriminate E. intros texts evs s. split; [apply example_unicode|]. split; [apply example_orders|]. split.
  - intros r I0. right. assert (K : forall l i, In (Arrive r) (one_by_one i l) -> exists t, In t l /\ r = inl t).
    { induction l as [|t l IH]; intros i K; [contradiction|]. destruct K as [K|K]; [injection K as <-; exists t; split; [now left|reflexivity]|]. apply in_app_or in K as [K|K]; [apply repeat_spec in K; discriminate|]. destruct (IH _ K) as (t' & I1 & ->). exists t'. split; [now right|reflexivity]. }
    destruct (K _ _ I0) as (t & I1 & ->). apply in_map_iff in I1 as (st & <- & I1). eauto.
  - apply Forall_forall. intros k Ik. assert (B : forallb (fun k => is_answered (example_run texts) k (nth k texts [])) (seq 0 13) = true).
    { unfold texts. revert E. clear. intros E. assert (Q : match suite c with Ok stages => forallb (fun k => is_answered (example_run (map g_request stages)) k (nth k (map g_request stages) [])) (seq 0 13) | _ => false end = true) by (vm_compute; reflexivity). rewrite E in Q. exact Q. }
    rewrite forallb_forall in B. specialize (B k Ik). eexists. exact (example_answered texts k _ B).
Qed.
(** ** Another letter arrives *)
Lemma another_letter : forall host, host_name host -> requests (eval_text host [321]) (just [65] nothing).
Proof.
  intros host V. destruct (eval_shape host [321] V) as (E & L & Va & An). exists (eval_lines host [321]), []. split; [exact E|]. split; [discriminate|]. split; [exact L|]. split; [exact An|]. rewrite E. split; [exact Va|].
  apply query_wanted with [(lit "expr", [65])] [lit "expr=" ++ lit "%41"] (lit "HTTP/1.1") []; cbn [just t_expression t_arguments t_structured t_included].
  - cbn [join]. exact (eval_first host [321]).
  - constructor; [|constructor]. exists (lit "%41"). split; [reflexivity|]. split; [cbn; intuition discriminate|]. split; [cbn; intuition discriminate|]. split; [now apply valid_by|]. cbn [snd]. change (encode [65]) with [65]. apply (escaped_byte 52 49 4 1 [] []); [exact (decimal_digit 4 eq_refl)|exact (decimal_digit 1 eq_refl)|constructor].
  - exists [], (lit "expr"), []. split; [reflexivity|]. split; [now left|constructor].
  - discriminate.
  - constructor; [now left|constructor].
  - split; [discriminate|]. intros (before & after & E1 & _). exfalso. destruct before as [|x before]; [discriminate E1|]. destruct before; discriminate E1.
  - left. split; [|reflexivity]. cbn. intuition discriminate.
Qed.
