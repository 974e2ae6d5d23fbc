(** Property theorems about the benchmark mode of the client. *)
From Coq Require Import String List ZArith NArith QArith Bool Lia.
From Verif Require Import Base F64 F64Text Syntax Utf8 Ext Json Registry Core Methods Api Lines Host HttpServer Pretty Command LineServer Client ClientBench Spec Spec_numbers Spec_syntax Spec_args Spec_text Spec_json Spec_http Spec_command
  ServerArgs_proofs Command_proofs Lines_proofs Client_proofs ClientBench_proofs.
From Verif Require Import Spec_lines Spec_client Spec_bench.
Import ListNotations.
Local Open Scope N_scope.

(** * C84 The benchmark mode of the client *)

(** every request is the request of the command line: ten first, of which the first without an answer ends the run, then as many as the count given last says *)
Theorem C84_asks : forall (X : Ext) (H : Host) exchange took default address expression ps args n vs, orders -> bench_line ps 100 args n -> sent_variables ps vs -> carried vs ->
  exists line r, ~ In 10 line /\ requested line r /\ l_variables r = vs /\ client_asks default expression ps r /\
    exists sent e, client_program exchange took default (address :: lit "--benchmark" :: expression :: args) = Benchmarked sent e /\
      ((exists j m, (j < 10)%nat /\ (forall k, (k < j)%nat -> readable (exchange k line)) /\ ~ readable (exchange j line) /\ sent = repeat line (S j) /\ e = WarmupFailed m) \/
       ((forall k, (k < 10)%nat -> readable (exchange k line)) /\ sent = repeat line (10 + N.to_nat n) /\ (forall m, e <> WarmupFailed m) /\ (forall errors f, e = Shown errors f -> s_requests f = n))).
Proof. exact @bench_asks. Qed.
Print Assumptions C84_asks.

(** what it counts: each request of the loop succeeded or failed; at most five failures are told; the rate is the share of the successes *)
Theorem C84_counts : forall (X : Ext) (H : Host) exchange took default args sent errors f, client_program exchange took default args = Benchmarked sent (Shown errors f) ->
  exists line, let n := s_requests f in let answers := replies exchange took line 10 (N.to_nat n) in
    sent = repeat line (10 + N.to_nat n) /\ tally (fun a => succeeded (fst a)) answers (s_successful f) /\ s_successful f + s_failed f = n /\
    length errors = Nat.min 5 (N.to_nat (s_failed f)) /\
    (n < 2 ^ 53 -> exists share, rounded share (inject_Z (Z.of_N (s_successful f)) / inject_Z (Z.of_N n)) /\ rounded (s_rate f) (exact share * 100)).
Proof. exact @bench_counts. Qed.
Print Assumptions C84_counts.

(** the times it shows are times that answered requests took, in their order: the least, three percentiles, the most; and their mean *)
Theorem C84_times : forall (X : Ext) (H : Host) exchange took default args sent errors f, client_program exchange took default args = Benchmarked sent (Shown errors f) -> (forall i, took i < 2 ^ 53) -> s_requests f < 2 ^ 53 ->
  exists line ms least p50 p95 p99 most k50 k95 k99,
    sent = repeat line (10 + N.to_nat (s_requests f)) /\ gathered answered_in (replies exchange took line 10 (N.to_nat (s_requests f))) ms /\ ms <> [] /\
    map (fun n => f_of_Z (Z.of_N n)) [least; p50; p95; p99; most] = [s_least f; s_p50 f; s_p95 f; s_p99 f; s_most f] /\
    of_rank 0 ms least /\ of_rank k50 ms p50 /\ of_rank k95 ms p95 /\ of_rank k99 ms p99 /\ of_rank (length ms - 1) ms most /\
    position 50 (length ms) k50 /\ position 95 (length ms) k95 /\ position 99 (length ms) k99 /\ least <= p50 <= p95 /\ p95 <= p99 <= most /\
    (total_of ms < 2 ^ 53 -> rounded (s_average f) (inject_Z (Z.of_N (total_of ms)) / inject_Z (Z.of_nat (length ms)))).
Proof. exact @bench_times. Qed.
Print Assumptions C84_times.

(** the server's times count only where they are positive; if none is, the average is not a number and the least is the largest double *)
Theorem C84_server_times : forall (X : Ext) (H : Host) exchange took default args sent errors f, client_program exchange took default args = Benchmarked sent (Shown errors f) ->
  exists line ts, sent = repeat line (10 + N.to_nat (s_requests f)) /\ gathered worked_for (replies exchange took line 10 (N.to_nat (s_requests f))) ts /\
    (ts <> [] -> Forall (fun t => representable t /\ is_finite t = true) ts ->
     In (s_server_least f) ts /\ In (s_server_most f) ts /\ Forall (fun t => f_le (s_server_least f) t /\ f_le t (s_server_most f)) ts) /\
    (ts = [] -> s_server_average f = f_nan /\ is_exactly (s_server_least f) (inject_Z (2 ^ 1024 - 2 ^ 971)) /\ is_exactly (s_server_most f) 0).
Proof. exact @bench_server. Qed.
Print Assumptions C84_server_times.

(** it says that all requests failed exactly if none of the loop was answered *)
Theorem C84_no_answers : forall (X : Ext) (H : Host) exchange took default args sent e, (forall i, took i < 2 ^ 53) -> client_program exchange took default args = Benchmarked sent e -> (forall m, e <> WarmupFailed m) ->
  exists line n, sent = repeat line (10 + N.to_nat n) /\ ((exists errors, e = NoAnswers errors) <-> forall k, (10 <= k < 10 + N.to_nat n)%nat -> ~ readable (exchange k line)).
Proof. exact @bench_none_run. Qed.
Print Assumptions C84_no_answers.

(** computing the figures never crashes *)
Theorem C84_never_crashes : forall (X : Ext) (H : Host) exchange took default args sent, client_program exchange took default args <> Benchmarked sent BenchCrashed.
Proof. exact @bench_no_crash. Qed.
Print Assumptions C84_never_crashes.

(** a server that stops answering after fourteen requests, and requests that take longer and longer *)
Example C84_nonvacuous :
  let X := example_ext in let H := example_host in
  let server := fun line => match answer_line reg_new None 7 line with Ok a => a | _ => [] end in
  let exchange := fun k line => if (k <? 14)%nat then server line else [] in
  let took := fun k => N.of_nat k * 2 in
  let run := fun args => client_program exchange took None (lit "localhost:80" :: map lit args) in
  let ps := [Send (lit "x") (lit "2")] in
  bench_line ps 100 (map lit ["50"; "x=2"; "+6"])%string 6
  /\ match run ["--benchmark"; ":x + 1"; "50"; "x=2"; "+6"]%string with
     | Benchmarked sent (Shown errors f) => sent = repeat (hd [] sent) 16 /\ (s_requests f, s_successful f, s_failed f, length errors) = (6, 4, 2, 2%nat)
                                            /\ [s_least f; s_p50 f; s_p95 f; s_p99 f; s_most f; s_average f] = map f_of_Z [20; 22; 24; 24; 26; 23]%Z
     | _ => False end
  /\ match client_program (fun k line => if (k <? 4)%nat then server line else []) took None (lit "localhost:80" :: map lit ["--benchmark"; "1"]%string) with
     | Benchmarked sent (WarmupFailed m) => sent = repeat (hd [] sent) 5
     | _ => False end
  /\ match client_program (fun k line => if (k <? 10)%nat then server line else []) took None (lit "localhost:80" :: map lit ["--benchmark"; "1"; "7"]%string) with
     | Benchmarked sent (NoAnswers errors) => sent = repeat (hd [] sent) 17 /\ length errors = 5%nat
     | _ => False end.
Proof.
  intros X H server exchange took run ps. split.
  { unfold ps. apply (bench_count (lit "50") _ _ 50); [apply usize_iff; reflexivity|]. apply (bench_option (Send (lit "x") (lit "2")) [] [lit "+6"]); [intros [K|[]]; discriminate|]. apply (bench_count (lit "+6") _ _ 6); [apply usize_iff; reflexivity|]. constructor. }
  vm_compute. repeat split; reflexivity. Qed.

(** the status does not tell whether the requests succeeded: it is 0 although every evaluation failed, and 1 ("All requests failed!") although every request made was answered, if the count is 0 *)
Theorem C84_status_refuted :
  let X := example_ext in let H := example_host in
  let exchange := fun (k : nat) line => match answer_line reg_new None 7 line with Ok a => a | _ => [] end in
  let run := fun args => client_program exchange (fun _ => 3) None (lit "localhost:80" :: map lit args) in
  let good := run ["--benchmark"; "1 + 1"; "0"]%string in let bad := run ["--benchmark"; "1 +"; "3"]%string in
  (match bad with Benchmarked _ (Shown _ f) => s_successful f = 0 /\ s_failed f = 3 | _ => False end /\ client_status bad = Some 0)
  /\ (match good with Benchmarked sent (NoAnswers errors) => length sent = 10%nat /\ errors = [] | _ => False end /\ client_status good = Some 1).
Proof. vm_compute. repeat split; reflexivity. Qed.
Print Assumptions C84_status_refuted.
