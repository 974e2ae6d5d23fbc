(** Property theorems about the program that measures the HTTP server. *)
From Coq Require Import String List ZArith NArith Bool Lia.
From Verif Require Import Base F64 Syntax Utf8 Ext Json Registry Core Methods Api Lines Host HttpRead HttpAuth HttpCache HttpServer HttpThreads ServerArgs HttpBench Spec Spec_syntax Spec_args Spec_http Spec_bench
  ServerArgs_proofs HttpServer_proofs HttpExamples_proofs HttpBench_proofs HttpBenchAsks_proofs HttpBenchSays_proofs HttpBenchSuite_proofs.
From Verif Require Import Spec_eval Spec_httpbench.
Import ListNotations.
Local Open Scope N_scope.

(** * C85 The program that measures the HTTP server
    [bench_command args c]: [args] are an address and options that settle [c];
    [suite c]: the tests of the run, each with the text its threads send and how often each thread sends it. *)

(** it starts exactly with an address and options that can be read, if the first answer says that the server is healthy *)
Theorem C85_starts : forall ask args c, bench_command args c -> h_warmup c <> 0 ->
  (exists t, ask (health_request (h_host c)) = Some t /\ mentions """status"":""healthy""" t) -> exists stages, suite c = Ok stages /\ http_bench ask args = Testing c stages.
Proof. exact @bench_starts. Qed.
Print Assumptions C85_starts.
Theorem C85_unhealthy : forall ask args c, bench_command args c -> ~ (exists t, ask (health_request (h_host c)) = Some t /\ mentions """status"":""healthy""" t) ->
  http_bench ask args = Stopped (lit "Server health check failed").
Proof. exact @bench_unhealthy. Qed.
Print Assumptions C85_unhealthy.
Theorem C85_declined : forall ask args, (forall c, ~ bench_command args c) -> exists m, http_bench ask args = Stopped (lit "Error: " ++ m).
Proof. exact @bench_declined. Qed.
Print Assumptions C85_declined.
(** the server always passes, whatever its tokens and its state *)
Theorem C85_health : forall (X : Ext) (H : Host) token admin w args c, bench_command args c -> h_warmup c <> 0 ->
  exists stages, suite c = Ok stages /\ http_bench (fun text => snd (run (handle_http_request token admin (inl text)) w)) args = Testing c stages.
Proof. exact @bench_health. Qed.
Print Assumptions C85_health.

(** the tests: what is asked for in each and how often *)
Theorem C85_plan : forall c stages, host_name (h_host c) -> suite c = Ok stages ->
  Forall2 (fun st tn => requests (g_request st) (fst tn) /\ N.of_nat (sum_of (g_threads st)) = snd tn) stages (tests (h_requests c) (h_warmup c)).
Proof. exact @planned. Qed.
Print Assumptions C85_plan.
(** a request by GET asks for any expression of ASCII characters; a request by POST for any that JSON has no escapes for, with the variables named *)
Theorem C85_query : forall host e, host_name host -> e <> [] -> Forall (fun c => c < 128) e -> requests (eval_text host e) (just e nothing).
Proof. exact @eval_asks. Qed.
Print Assumptions C85_query.
Theorem C85_json : forall host e v i, host_name host -> valid_str e -> means_itself e -> ~ mentions "{}" e ->
  (v = lit "true" /\ i = everything \/ v = lit "false" /\ i = nothing \/ v <> lit "true" /\ v <> lit "false" /\ valid_str v /\ means_itself v /\ ~ mentions "{}" v /\ listed v i) ->
  requests (json_request host e v) (just e i).
Proof. exact @json_asks. Qed.
Print Assumptions C85_json.
(** other characters arrive as others: asking for U+0141 asks for "A" *)
Theorem C85_query_refuted : forall host, host_name host -> requests (eval_text host [321]) (just [65] nothing).
Proof. exact @another_letter. Qed.
Print Assumptions C85_query_refuted.
(** the requests of a test are shared out evenly among so many threads *)
Theorem C85_shares : forall requests threads, threads <> 0 ->
  length (shares requests threads) = N.to_nat threads /\ sum_of (shares requests threads) = N.to_nat requests /\ forall x y, In x (shares requests threads) -> In y (shares requests threads) -> (x <= S y)%nat.
Proof. exact @shared_out. Qed.
Print Assumptions C85_shares.

(** whatever the threads of a test do in turn: when all have ended, each request was sent once, the successes are the answers that say so,
    the rest are errors, and the times are those of the successes *)
Theorem C85_counts : forall threads es s, N.of_nat (sum_of threads) < 2 ^ 64 -> stage_run (stage_begin threads) es = Some s -> stage_over s = true ->
  length (arrived es) = sum_of threads /\ tally (fun a => says_success (fst a)) (arrived es) (g_success s) /\ g_success s + g_errors s = N.of_nat (sum_of threads)
  /\ gathered (fun a took => says_success (fst a) /\ took = snd a) (arrived es) (g_latencies s).
Proof. exact @stage_counted. Qed.
Print Assumptions C85_counts.
(** some thread can always go on, and no test goes on forever *)
Theorem C85_goes_on : forall s answers, stage_over s = false -> exists e s', stage_step s e = Some s' /\ forall i a took, e = Gets i a took -> (a, took) = answers i.
Proof. exact @stage_going. Qed.
Print Assumptions C85_goes_on.
Theorem C85_ends : forall threads es s, stage_run (stage_begin threads) es = Some s -> (length es <= 2 * sum_of threads)%nat.
Proof. exact @stage_bounded. Qed.
Print Assumptions C85_ends.
(** the figures shown *)
Theorem C85_figures : forall l, l <> [] -> total_of l < 2 ^ 64 * 10 ^ 9 -> N.of_nat (length l) < 2 ^ 32 ->
  exists least most, latency_figures l = Ok (least, most, total_of l / N.of_nat (length l)) /\ least_of l least /\ most_of l most.
Proof. exact @figures_right. Qed.
Print Assumptions C85_figures.

(** an answer to an evaluation is taken for a success exactly if its status is 200, whatever texts and variables are in it *)
Theorem C85_success : forall (X : Ext) (H : Host) token admin w evs i m p q text answer, In (m, p) eval_endpoints -> asks m p q text -> answered (serving token admin w evs) i (inl text) answer ->
  (says_success (Some answer) <-> status_is "200" answer).
Proof. exact @counted_status. Qed.
Print Assumptions C85_success.
(** measuring a server without tokens and functions that nobody else uses: each request succeeds, except the test of a function that does not exist *)
Theorem C85_outcome : forall (X : Ext) (H : Host) admin w c stages evs i st answer, unicode X -> orders -> w_cache w = new_cache -> w_registry w = reg_new -> host_name (h_host c) -> suite c = Ok stages ->
  (forall r, In (Arrive r) evs -> r = inl (health_request (h_host c)) \/ exists st, In st stages /\ r = inl (g_request st)) ->
  In st stages -> answered (serving None admin w evs) i (inl (g_request st)) answer ->
  (says_success (Some answer) <-> ~ requests (g_request st) (just (lit "range(1,50).sum()") nothing)).
Proof. exact @outcome. Qed.
Print Assumptions C85_outcome.

(** "localhost:8080 -n 12 -w 7": seven requests first, then three levels of threads *)
Example C85_nonvacuous :
  let c := mkConfig (lit "localhost") 8080 10 12 7 in
  bench_command (map lit ["localhost:8080"; "-n"; "12"; "-w"; "7"])%string c /\ host_name (h_host c)
  /\ match suite c with Ok stages => map (fun st => sum_of (g_threads st)) stages = [7; 10; 10; 10; 10; 10; 10; 12; 12; 12; 10; 10; 10]%nat | _ => False end
  /\ shares 12 5 = [3; 3; 2; 2; 2]%nat.
Proof.
  intros c. split; [|split; [split; [now apply valid_by|repeat split; not_there]|split; [vm_compute; reflexivity|reflexivity]]].
  apply arguments_are. vm_compute. reflexivity.
Qed.
(** two threads, three answers; the second thread stores its time before the first counts *)
Example C85_counts_nonvacuous :
  let good := Some (lit "{""success"":true}") in
  let es := [Gets 0 good 5; Gets 1 good 9; Counts 0; Gets 0 None 2; Counts 1] in
  match stage_run (stage_begin [2; 1]%nat) es with
  | Some s => stage_over s = true /\ g_success s = 2 /\ g_errors s = 1 /\ g_latencies s = [5; 9] /\ latency_figures (g_latencies s) = Ok (5, 9, 7)
  | None => False end.
Proof. vm_compute. repeat split. Qed.
Example C85_outcome_nonvacuous :
  let X := example_ext in let H := example_host in
  let c := mkConfig (lit "localhost") 8080 10 12 7 in
  match suite c with
  | Ok stages =>
      let texts := map g_request stages in let evs := one_by_one 0 texts in let s := serving None None (first_world []) evs in
      unicode X /\ orders /\ (forall r, In (Arrive r) evs -> r = inl (health_request (h_host c)) \/ exists st, In st stages /\ r = inl (g_request st))
      /\ Forall (fun k => exists answer, answered s k (inl (nth k texts [])) answer) (seq 0 13)
  | _ => False end.
Proof. exact outcome_example. Qed.

(** without first requests the run crashes *)
Theorem C85_warmup_refuted : forall ask args c, bench_command args c -> h_warmup c = 0 -> (exists t, ask (health_request (h_host c)) = Some t /\ mentions """status"":""healthy""" t) -> http_bench ask args = TestsCrash.
Proof. exact @bench_crash. Qed.
Print Assumptions C85_warmup_refuted.
(** the number of connections asked for makes no difference *)
Theorem C85_connections_refuted : forall c n, suite (mkConfig (h_host c) (h_port c) n (h_requests c) (h_warmup c)) = suite c.
Proof. exact @suite_alike. Qed.
Print Assumptions C85_connections_refuted.
(** not all first requests asked for are sent *)
Theorem C85_first_requests_refuted : exists args c st stages, bench_command args c /\ suite c = Ok (st :: stages) /\ requests (g_request st) (just (lit "2+2") nothing) /\ N.of_nat (sum_of (g_threads st)) < h_warmup c.
Proof. exact fewer_first. Qed.
Print Assumptions C85_first_requests_refuted.
