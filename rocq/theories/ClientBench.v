(** [sk_client.rs]: the benchmark mode of the client.  The layout of what it
    prints is left out: the figures printed are what the model returns. *)
From Coq Require Import String List ZArith NArith Bool.
From Coq Require Import Floats.SpecFloat.
From Verif Require Import Base F64 F64Text Syntax Utf8 Ext Json Struct Methods Utils Arrays Stats Lines Host HttpServer Pretty Command LineServer Client.
Import ListNotations.
Local Open Scope N_scope.

(** f64::MAX *)
Definition f_largest : f64 := S754_finite false 9007199254740991 971.

(** sk_client.rs:265-311: the figures printed *)
Record figures_shown := mkShown {
  s_requests : N; s_successful : N; s_failed : N; s_rate : f64;
  s_average : f64; s_least : f64; s_most : f64; s_p50 : f64; s_p95 : f64; s_p99 : f64;
  s_server_average : f64; s_server_least : f64; s_server_most : f64 }.
(** how a benchmark ends, with the lines it wrote about failed requests *)
Inductive bench_end := WarmupFailed (message : str) | NoAnswers (errors : list str) | Shown (errors : list str) (f : figures_shown) | BenchCrashed.
(** the state of the loop, sk_client.rs:225-229 *)
Record bench_state := mkBench { b_successful : N; b_failed : N; b_durations : list f64; b_server : list f64; b_errors : list str }.

(** sk_client.rs:346-350 *)
Definition bench_percentile (sorted : list f64) (p : f64) : f64 :=
  let last := (zlen sorted - 1)%Z in
  let index := f_to_usize (f_mul (f_div p (f_of_Z 100)) (f_of_Z last)) in
  fnth sorted (Z.min index last).

(** sk_client.rs:257-260, 279-286: the numbers of the answers *)
Definition bench_figures (iterations : N) (st : bench_state) : res figures_shown :=
  let valid := filter (fun d => negb (f_eqb d f_largest)) (b_durations st) in
  let server := filter (fun t => f_ltb f_zero t) (b_server st) in
  let average := fun l => f_div (fold_left f_add l f_zero) (f_of_Z (zlen l)) in
  let least := fun l => fold_left f_min l f_largest in
  let most := fun l => fold_left f_max l f_zero in
  sorted <- sort_nums valid ;;
  Ok (mkShown iterations (b_successful st) (b_failed st)
        (f_mul (f_div (f_of_Z (Z.of_N (b_successful st))) (f_of_Z (Z.of_N iterations))) (f_of_Z 100))
        (average valid) (least valid) (most valid)
        (bench_percentile sorted (f_of_Z 50)) (bench_percentile sorted (f_of_Z 95)) (bench_percentile sorted (f_of_Z 99))
        (average server) (least server) (most server)).

Section ClientBench.
  Context {X : Ext} {H : Host}.
  (** sk_client.rs:19, 241: the time the answer tells *)
  Definition answer_time (line : str) : f64 :=
    match struct_parse answer_names line with
    | Some j => match answer_field (lit "execution_time_ms") 3 j with Some (JNum n) => f_of_jnum n | _ => f_zero end
    | None => f_zero
    end.
  (** sk_client.rs:43-76: as the other options, a number of times, no other words *)
  Fixpoint read_bench_options (args : list str) (o : client_options) (iterations : N) : res (client_options * N) :=
    match args with
    | [] => Ok (o, iterations)
    | a :: r =>
        if str_eqb a (lit "--json")
        then match r with
             | [] => Err (err "Error: --json flag requires a JSON string argument")
             | j :: r' => read_bench_options r' (mkCOptions (Some j) (c_output o) (c_token o) (c_variables o)) iterations
             end
        else if str_eqb a (lit "--output-json") then read_bench_options r (mkCOptions (c_json o) true (c_token o) (c_variables o)) iterations
        else if str_eqb a (lit "--token")
        then match r with
             | [] => Err (err "Error: --token flag requires a value")
             | t :: r' => read_bench_options r' (mkCOptions (c_json o) (c_output o) (Some t) (c_variables o)) iterations
             end
        else match split_once [61] a with
             | Some (name, text) => j <- parse_value_to_json text ;; read_bench_options r (mkCOptions (c_json o) (c_output o) (c_token o) (minsert name j (c_variables o))) iterations
             | None => match usize_from_str a with
                       | Some n => read_bench_options r o n
                       | None => Err (mkErr (lit "Invalid argument in benchmark: '" ++ a ++ lit "'") None)
                       end
             end
    end.
  (** sk_client.rs:233-254: one request of the loop; [answer] is the line that
      came back, [ms] how many milliseconds that took *)
  Definition bench_step (i : N) (answer : str) (ms : N) (st : bench_state) : bench_state :=
    match answer_of_line answer with
    | Some (true, _, _) => mkBench (b_successful st + 1) (b_failed st) (b_durations st ++ [f_of_Z (Z.of_N ms)]) (b_server st ++ [answer_time answer]) (b_errors st)
    | Some (false, _, e) =>
        mkBench (b_successful st) (b_failed st + 1) (b_durations st ++ [f_of_Z (Z.of_N ms)]) (b_server st ++ [answer_time answer])
          (b_errors st ++ if b_failed st + 1 <=? 5 then [lit "Error in iteration " ++ N_to_str i ++ lit ": " ++ match e with Some e => e | None => lit "Unknown" end] else [])
    | None =>
        mkBench (b_successful st) (b_failed st + 1) (b_durations st ++ [f_largest]) (b_server st ++ [f_zero])
          (b_errors st ++ if b_failed st + 1 <=? 5 then [lit "Connection error in iteration " ++ N_to_str i ++ lit ": " ++ h_serde_err answer] else [])
    end.
  (** sk_client.rs:202-286: what comes back for the requests sent before the
      loop and for those of the loop; the lines sent, and the end *)
  Definition warmups : nat := 10.
  Fixpoint warm_up (exchange : nat -> str -> str) (line : str) (i todo : nat) : list str * option str :=
    match todo with
    | O => ([], None)
    | S todo =>
        match answer_of_line (exchange i line) with
        | None => ([line], Some (h_serde_err (exchange i line)))
        | Some _ => let (sent, e) := warm_up exchange line (S i) todo in (line :: sent, e)
        end
    end.
  Fixpoint bench_loop (exchange : nat -> str -> str) (took : nat -> N) (line : str) (k : nat) (i : N) (todo : nat) (st : bench_state) : list str * bench_state :=
    match todo with
    | O => ([], st)
    | S todo =>
        let (sent, st') := bench_loop exchange took line (S k) (i + 1) todo (bench_step i (exchange k line) (took k) st) in (line :: sent, st')
    end.
  Definition run_benchmark (exchange : nat -> str -> str) (took : nat -> N) (line : str) (iterations : N) : list str * bench_end :=
    match warm_up exchange line 0 warmups with
    | (sent, Some e) => (sent, WarmupFailed (lit "Warmup failed: " ++ e))
    | (sent, None) =>
        let (more, st) := bench_loop exchange took line warmups 0 (N.to_nat iterations) (mkBench 0 0 [] [] []) in
        (sent ++ more,
         if forallb (fun d => f_eqb d f_largest) (b_durations st) then NoAnswers (b_errors st)
         else match bench_figures iterations st with Ok f => Shown (b_errors st) f | _ => BenchCrashed end)
    end.
  (** what a run of the client comes to *)
  Inductive client_run := Asked (o : outcome) | Benchmarked (sent : list str) (e : bench_end).
  (** the status it leaves *)
  Definition client_status (r : client_run) : option N :=
    match r with
    | Asked (Exited code _ _) => Some code
    | Asked Crashed | Benchmarked _ BenchCrashed => None
    | Benchmarked _ (WarmupFailed _) | Benchmarked _ (NoAnswers _) => Some 1
    | Benchmarked _ (Shown _ _) => Some 0
    end.
  (** sk_client.rs:25-189: [exchange k] sends a line as the request number [k] of
      this run and gives the line that comes back, [took k] is how long that took *)
  Definition client_program (exchange : nat -> str -> str) (took : nat -> N) (token : option str) (args : list str) : client_run :=
    match args with
    | address :: flag :: expression :: rest =>
        if str_eqb flag (lit "--benchmark")
        then match read_bench_options rest (mkCOptions None false token []) 100 with
             | Panic _ => Asked Crashed
             | Err e => Asked (Exited 1 [] (e_msg e ++ [10]))
             | Ok (o, iterations) =>
                 match client_request expression o with
                 | Ok r => let (sent, e) := run_benchmark exchange took (request_line r) iterations in Benchmarked sent e
                 | Err e => Asked (Exited 1 [] (e_msg e ++ [10]))
                 | Panic _ => Asked Crashed
                 end
             end
        else Asked (client_main (exchange 0%nat) token args)
    | _ => Asked (client_main (exchange 0%nat) token args)
    end.
End ClientBench.
