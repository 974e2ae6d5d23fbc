(** The command lines of the servers. *)
From Coq Require Import String List ZArith NArith Bool Lia.
From Verif Require Import Base Syntax ServerArgs Spec_syntax Spec_args ServerArgs_proofs.
Import ListNotations.
Local Open Scope N_scope.

(** * C81 The servers run with the settings of their command line *)

(** the server of JSON lines: the last value of each option, else the environment's, else the default *)
Theorem C81_lines : forall cpus env_host env_token p port ss args, cpus <> 0 -> port_text p port -> written line_words ss args -> ~ chosen UseThreads ss cpus 0 ->
  exists s, line_start cpus env_host env_token (p :: args) = Serving s /\ s_port s = port
     /\ chosen BindHost ss (match env_host with Some h => h | None => lit "127.0.0.1" end) (s_host s)
     /\ chosen UseThreads ss cpus (s_threads s) /\ chosen PidFile ss (lit "skillet-server.pid") (s_pid_file s) /\ (s_daemon s = true <-> In RunAsDaemon ss)
     /\ exists t, last_asked EvalToken ss t /\ s_token s = match t with Some x => Some x | None => env_token end.
Proof. exact (fun cpus eh et p port ss args Nz P W => proj1 (line_serves cpus eh et p port ss args Nz P W)). Qed.
Print Assumptions C81_lines.

(** any other command line is declined *)
Theorem C81_lines_declined : forall cpus env_host env_token args,
  (forall p port rest ss, args = p :: rest -> port_text p port -> ~ written line_words ss rest) -> exists m, line_start cpus env_host env_token args = Declined m.
Proof. exact line_declines. Qed.
Print Assumptions C81_lines_declined.

(** the HTTP server: likewise, without the environment; one token given guards both evaluation and administration *)
Theorem C81_http : forall cpus p port ss args, cpus <> 0 -> port_text p port -> written http_words ss args ->
  exists s, http_start cpus (p :: args) = Serving s /\ s_port s = port /\ chosen BindHost ss (lit "127.0.0.1") (s_host s) /\ chosen UseThreads ss cpus (s_threads s)
     /\ chosen PidFile ss (lit "skillet-http-server.pid") (s_pid_file s) /\ (s_daemon s = true <-> In RunAsDaemon ss)
     /\ exists t a, last_asked EvalToken ss t /\ last_asked AdminToken ss a
        /\ s_token s = match t with Some x => Some x | None => a end /\ s_admin_token s = match a with Some x => Some x | None => t end.
Proof. exact http_serves. Qed.
Print Assumptions C81_http.

Theorem C81_http_declined : forall cpus args,
  (forall p port rest ss, args = p :: rest -> port_text p port -> ~ written http_words ss rest) -> exists m, http_start cpus args = Declined m.
Proof. exact http_declines. Qed.
Print Assumptions C81_http_declined.

(** the value asked for last is one value *)
Theorem C81_one_value : forall {A} (what : A -> setting), (forall x y, what x = what y -> x = y) -> forall ss o o', last_asked what ss o -> last_asked what ss o' -> o = o'.
Proof. exact @last_unique. Qed.
Print Assumptions C81_one_value.

Example C81_nonvacuous :
  let ss := [EvalToken (lit "--daemon"); UseThreads 8; EvalToken (lit "s"); RunAsDaemon] in
  port_text (lit "+8080") 8080 /\ written http_words ss (map lit ["--token"; "--daemon"; "-t"; "08"; "--token"; "s"; "-d"]%string)
  /\ http_start 4 (map lit ["+8080"; "--token"; "--daemon"; "-t"; "08"; "--token"; "s"; "-d"]%string)
     = Serving (mkSettings 8080 (lit "127.0.0.1") 8 true (lit "skillet-http-server.pid") (Some (lit "s")) (Some (lit "s")))
  /\ written line_words ss (map lit ["--token"; "--daemon"; "08"; "--token"; "s"; "-d"]%string) /\ ~ chosen UseThreads ss 4 0
  /\ line_start 4 (Some (lit "h")) (Some (lit "e")) (map lit ["+8080"; "08"; "-d"]%string) = Serving (mkSettings 8080 (lit "h") 8 true (lit "skillet-server.pid") (Some (lit "e")) None)
  /\ http_start 4 (map lit ["8080"; "08"]%string) = Declined (lit "Error: Unknown argument: 08") /\ http_start 4 (map lit ["65536"]%string) = Declined (lit "Error: Invalid port number").
Proof.
  intros ss. assert (count_text (lit "08") 8) as C by (now apply usize_iff).
  split; [now apply u16_iff|].
  split.
  { apply (written_one _ (EvalToken _) _ [_; _]); [constructor 1; constructor|]. apply (written_one _ (UseThreads 8) _ [_; _]); [constructor 2; [now left|exact C|lia]|].
    apply (written_one _ (EvalToken _) _ [_; _]); [constructor 1; constructor|]. apply (written_one _ RunAsDaemon _ [_]); [constructor 1; constructor; now left|constructor]. }
  split; [reflexivity|]. split.
  { apply (written_one _ (EvalToken _) _ [_; _]); [constructor 1; constructor|]. apply (written_one _ (UseThreads 8) _ [_]); [now constructor 2|].
    apply (written_one _ (EvalToken _) _ [_; _]); [constructor 1; constructor|]. apply (written_one _ RunAsDaemon _ [_]); [constructor 1; constructor; now left|constructor]. }
  split.
  { intros (o & L & E). assert (o = Some 8) as ->; [|discriminate E].
    apply (last_unique UseThreads ltac:(congruence) ss); [exact L|]. apply (asked_last _ _ [EvalToken (lit "--daemon")] [EvalToken (lit "s"); RunAsDaemon]); [reflexivity|]. intros y [K|[K|[]]]; discriminate. }
  repeat split.
Qed.

(** the server of JSON lines takes 0 for a number of threads, and then crashes *)
Theorem C81_zero_threads_refuted : forall cpus env_host env_token p port ss args, cpus <> 0 -> port_text p port -> written line_words ss args -> chosen UseThreads ss cpus 0 ->
  line_start cpus env_host env_token (p :: args) = StartPanic.
Proof. exact (fun cpus eh et p port ss args Nz P W => proj2 (line_serves cpus eh et p port ss args Nz P W)). Qed.
Print Assumptions C81_zero_threads_refuted.

Example C81_zero_threads_nonvacuous : port_text (lit "80") 80 /\ written line_words [UseThreads 0] [lit "0"] /\ chosen UseThreads [UseThreads 0] 4 0.
Proof.
  split; [now apply u16_iff|]. split.
  - apply (written_one _ (UseThreads 0) _ [_]); [|constructor]. constructor 2. now apply usize_iff.
  - exists (Some 0). split; [|reflexivity]. apply (asked_last _ _ [] []); [reflexivity|]. intros y [].
Qed.
