(** [sk_http_bench.rs]: the program that measures the HTTP server.  Left out:
    what it prints besides the figures, the time a whole test takes and the
    throughput computed from it, pauses between requests. *)
From Coq Require Import String List ZArith NArith Bool.
From Verif Require Import Base Utf8 Syntax Ext Strings Lines HttpServer ServerArgs.
Import ListNotations.
Local Open Scope N_scope.

(** sk_http_bench.rs:10-18 (the duration is never set) *)
Record bench_config := mkConfig { h_host : str; h_port : N; h_concurrent : N; h_requests : N; h_warmup : N }.

(** [str::rfind] of a character, and the text on both sides of it (sk_http_bench.rs:74) *)
Fixpoint split_last (c : N) (s : str) : option (str * str) :=
  match s with
  | [] => None
  | x :: r =>
      match split_last c r with
      | Some (a, b) => Some (x :: a, b)
      | None => if x =? c then Some ([], r) else None
      end
  end.
(** sk_http_bench.rs:92-127 *)
Fixpoint bench_options (args : list str) (c : bench_config) : bench_config + str :=
  match args with
  | [] => inl c
  | w :: rest =>
      if is_word (lit "-c") w || is_word (lit "--concurrent") w then
        match rest with
        | a :: rest' => match usize_from_str a with
                        | Some n => bench_options rest' (mkConfig (h_host c) (h_port c) n (h_requests c) (h_warmup c))
                        | None => inr (lit "Invalid concurrent value")
                        end
        | [] => inr (lit "--concurrent requires a value")
        end
      else if is_word (lit "-n") w || is_word (lit "--requests") w then
        match rest with
        | a :: rest' => match usize_from_str a with
                        | Some n => bench_options rest' (mkConfig (h_host c) (h_port c) (h_concurrent c) n (h_warmup c))
                        | None => inr (lit "Invalid requests value")
                        end
        | [] => inr (lit "--requests requires a value")
        end
      else if is_word (lit "-w") w || is_word (lit "--warmup") w then
        match rest with
        | a :: rest' => match usize_from_str a with
                        | Some n => bench_options rest' (mkConfig (h_host c) (h_port c) (h_concurrent c) (h_requests c) n)
                        | None => inr (lit "Invalid warmup value")
                        end
        | [] => inr (lit "--warmup requires a value")
        end
      else inr (lit "Unknown argument: " ++ w)
  end.
(** sk_http_bench.rs:68-130, for arguments without the program's name *)
Definition bench_arguments (args : list str) : bench_config + str :=
  match args with
  | [] => inr (lit "Missing host:port argument")
  | host_port :: rest =>
      match split_last 58 host_port with
      | None => inr (lit "Host:port format required (e.g., 127.0.0.1:8080)")
      | Some (host, port) =>
          match u16_from_str port with
          | None => inr (lit "Invalid port number")
          | Some port => bench_options rest (mkConfig host port 10 100 20)
          end
      end
  end.

(** a hexadecimal digit as [{:X}] writes it *)
Definition hex_upper (n : N) : N := if n <? 10 then 48 + n else 55 + n.
(** sk_http_bench.rs:441-460; [c as u8] keeps the lowest eight bits *)
Definition url_encode_char (c : N) : str :=
  if ((48 <=? c) && (c <=? 57)) || ((65 <=? c) && (c <=? 90)) || ((97 <=? c) && (c <=? 122)) || existsb (N.eqb c) (lit "-_.~") then [c]
  else [37; hex_upper (c mod 256 / 16); hex_upper (c mod 16)].
Definition url_encode (s : str) : str := flat_map url_encode_char s.

(** sk_http_bench.rs:151-163 [make_request]: the text written to the connection *)
Definition made_request (host text : str) : str := replace_str (lit "{}") host text.
(** sk_http_bench.rs:145 *)
Definition health_request (host : str) : str :=
  made_request host (line (lit "GET /health HTTP/1.1") ++ line (lit "Host: {}") ++ line (lit "Connection: close") ++ line []).
(** sk_http_bench.rs:418-425 *)
Definition eval_text (host expression : str) : str :=
  made_request host (line (lit "GET /eval?expr=" ++ url_encode expression ++ lit " HTTP/1.1") ++ line (lit "Host: " ++ host) ++ line (lit "Connection: close") ++ line []).
(** sk_http_bench.rs:427-439 *)
Definition json_body (expression include_variables : str) : str :=
  lit "{""expression"":""" ++ expression ++ lit """,""include_variables"":"
  ++ (if str_eqb include_variables (lit "true") || str_eqb include_variables (lit "false") then include_variables
      else lit """" ++ include_variables ++ lit """") ++ lit "}".
Definition json_request (host expression include_variables : str) : str :=
  let body := json_body expression include_variables in
  made_request host (line (lit "POST /eval HTTP/1.1") ++ line (lit "Host: " ++ host) ++ line (lit "Content-Type: application/json")
    ++ line (lit "Content-Length: " ++ N_to_str (byte_len body)) ++ line (lit "Connection: close") ++ line [] ++ body).

(** sk_http_bench.rs:144-149, 219, 289, 351: an answer counts; [None] stands for an error of the connection *)
Definition is_healthy (answer : option str) : bool :=
  match answer with Some a => contains_str (lit """status"":""healthy""") a | None => false end.
Definition is_success (answer : option str) : bool :=
  match answer with Some a => contains_str (lit """success"":true") a | None => false end.

(** ** One test: threads that send the same request, each so many times *)
Record stage := mkStage { g_request : str; g_threads : list nat }.
(** a thread is about to send, so many times, or it has stored the time of an
    answer and is about to count it *)
Inductive worker := Sending (todo : nat) | Counting (todo : nat).
Record stage_state := mkStageState { g_workers : list worker; g_success : N; g_errors : N; g_latencies : list N }.
(** thread [i] gets this answer after so many nanoseconds; thread [i] counts its answer *)
Inductive stage_event := Gets (i : nat) (answer : option str) (took : N) | Counts (i : nat).
Fixpoint set_nth {A} (i : nat) (x : A) (l : list A) : list A :=
  match l, i with [], _ => [] | _ :: r, O => x :: r | y :: r, S i => y :: set_nth i x r end.
(** sk_http_bench.rs:346-363: the loop of a thread.  Storing a time (under a
    lock) and counting an answer (an atomic addition) are steps; other threads
    may make theirs in between *)
Definition stage_step (s : stage_state) (e : stage_event) : option stage_state :=
  match e with
  | Gets i answer took =>
      match nth_error (g_workers s) i with
      | Some (Sending (S n)) =>
          if is_success answer
          then Some (mkStageState (set_nth i (Counting n) (g_workers s)) (g_success s) (g_errors s) (g_latencies s ++ [took]))
          else Some (mkStageState (set_nth i (Sending n) (g_workers s)) (g_success s) ((g_errors s + 1) mod 2 ^ 64) (g_latencies s))
      | _ => None
      end
  | Counts i =>
      match nth_error (g_workers s) i with
      | Some (Counting n) => Some (mkStageState (set_nth i (Sending n) (g_workers s)) ((g_success s + 1) mod 2 ^ 64) (g_errors s) (g_latencies s))
      | _ => None
      end
  end.
Fixpoint stage_run (s : stage_state) (es : list stage_event) : option stage_state :=
  match es with
  | [] => Some s
  | e :: es => match stage_step s e with Some s => stage_run s es | None => None end
  end.
Definition stage_begin (threads : list nat) : stage_state := mkStageState (map Sending threads) 0 0 [].
(** sk_http_bench.rs:369-371: every thread has been joined *)
Definition stage_over (s : stage_state) : bool := forallb (fun w => match w with Sending O => true | _ => false end) (g_workers s).

(** nanoseconds in the largest [Duration], and one more *)
Definition duration_limit : N := 2 ^ 64 * 10 ^ 9.
(** sk_http_bench.rs:378-385: least, most, average.  [Duration] division is
    taken to be exact up to the nanosecond below *)
Definition latency_figures (l : list N) : res (N * N * N) :=
  match l with
  | [] => Ok (0, 0, 0)
  | x :: r =>
      let total := fold_left N.add l 0 in
      let count := N.of_nat (length l) mod 2 ^ 32 in
      if duration_limit <=? total then Panic "overflow in iter::sum over durations"
      else if count =? 0 then Panic "divide by zero error when dividing duration by scalar"
      else Ok (fold_left N.min r x, fold_left N.max r x, total / count)
  end.

(** ** The tests *)
(** sk_http_bench.rs:326-336: how many requests each of so many threads sends *)
Definition shares (requests concurrent : N) : list nat :=
  map (fun i => N.to_nat (requests / concurrent + if N.of_nat i <? requests mod concurrent then 1 else 0)) (seq 0 (N.to_nat concurrent)).
(** sk_http_bench.rs:185-205 *)
Definition warmup_stage (c : bench_config) : res stage :=
  let concurrent := N.min (h_warmup c) 10 in
  if concurrent =? 0 then Panic "attempt to divide by zero"
  else Ok (mkStage (eval_text (h_host c) (lit "2+2")) (repeat (N.to_nat (h_warmup c / concurrent)) (N.to_nat concurrent))).
(** sk_http_bench.rs:211-218 *)
Definition test_expressions : list str :=
  map lit ["2+2"; "10*5+3/2-1"; "2^10+sqrt(144)*3"; ":a:=10;:b:=20;:c:=:a*:b"; "range(1,50).sum()";
           "[1,2,3,4,5,6,7,8,9,10].map(:x*2).filter(:x>10).sum()"]%string.
(** sk_http_bench.rs:207-247: ten requests, one after the other *)
Definition expression_stages (c : bench_config) : list stage :=
  map (fun e => mkStage (eval_text (h_host c) e) [10%nat]) test_expressions.
(** sk_http_bench.rs:249-272 *)
Definition concurrent_stages (c : bench_config) : list stage :=
  map (fun n => mkStage (eval_text (h_host c) (lit "10*5+sqrt(25)")) (shares (h_requests c) n))
      (filter (fun n => negb (h_requests c <? n)) [1; 5; 10; 20; 50]).
(** sk_http_bench.rs:274-283 *)
Definition variable_expression : str := lit ":a:=10;:b:=20;:c:=30;:d:=40;:result:=:a*:b+:c*:d".
Definition variable_stages (c : bench_config) : list stage :=
  map (fun v => mkStage (json_request (h_host c) variable_expression v) [10%nat]) (map lit ["false"; "true"; ":a,:result"]%string).
(** sk_http_bench.rs:165-183 *)
Definition suite (c : bench_config) : res (list stage) :=
  w <- warmup_stage c ;; Ok (w :: expression_stages c ++ concurrent_stages c ++ variable_stages c).

(** sk_http_bench.rs:36-66: up to the tests.  [ask] sends the first request and
    gives what comes back.  [Stopped m]: message [m] and status 1 *)
Inductive bench_start := Stopped (message : str) | Testing (c : bench_config) (stages : list stage) | TestsCrash.
Definition http_bench (ask : str -> option str) (args : list str) : bench_start :=
  match bench_arguments args with
  | inr m => Stopped (lit "Error: " ++ m)
  | inl c =>
      if is_healthy (ask (health_request (h_host c)))
      then match suite c with Ok stages => Testing c stages | _ => TestsCrash end
      else Stopped (lit "Server health check failed")
  end.
