(** The command lines of the two servers: bin/sk_server.rs:324-416 and bin/sk_http_server.rs:113-129, 217-300. *)
From Coq Require Import String List ZArith NArith Bool.
From Verif Require Import Base Lines HttpAuth.
Import ListNotations.
Local Open Scope N_scope.

(** what a server runs with.  Simplified: the log file is read and then ignored by both programs, so it is not kept *)
Record settings := mkSettings {
  s_port : N; s_host : str; s_threads : N; s_daemon : bool; s_pid_file : str;
  s_token : option str; s_admin_token : option str }.
(** [Declined m]: message [m] on standard error and status 1 *)
Inductive start := Serving (s : settings) | Declined (message : str) | StartPanic.

(** [u16::from_str]: an optional "+" and decimal digits, below 2^16 (sk_server.rs:350, sk_http_server.rs:121) *)
Definition u16_from_str (s : str) : option N :=
  match usize_from_str s with Some n => if n <=? 65535 then Some n else None | None => None end.

(** the mutable variables of both option loops (sk_server.rs:356-361, sk_http_server.rs:218-224) *)
Record options := mkOptions {
  o_threads : N; o_host : str; o_token : option str; o_admin : option str; o_daemon : bool; o_pid : str }.
Definition with_threads o n := mkOptions n (o_host o) (o_token o) (o_admin o) (o_daemon o) (o_pid o).
Definition with_host o h := mkOptions (o_threads o) h (o_token o) (o_admin o) (o_daemon o) (o_pid o).
Definition with_token o t := mkOptions (o_threads o) (o_host o) (Some t) (o_admin o) (o_daemon o) (o_pid o).
Definition with_admin o t := mkOptions (o_threads o) (o_host o) (o_token o) (Some t) (o_daemon o) (o_pid o).
Definition with_daemon o := mkOptions (o_threads o) (o_host o) (o_token o) (o_admin o) true (o_pid o).
Definition with_pid o f := mkOptions (o_threads o) (o_host o) (o_token o) (o_admin o) (o_daemon o) f.

Definition is_word (w a : str) : bool := str_eqb w a.

(** sk_server.rs:364-416: the option loop; [inr m] stands for [eprintln!(m); exit(1)] *)
Fixpoint line_options (args : list str) (o : options) : options + str :=
  match args with
  | [] => inl o
  | w :: rest =>
      if is_word (lit "-d") w || is_word (lit "--daemon") w then line_options rest (with_daemon o)
      else if is_word (lit "-H") w || is_word (lit "--host") w then
        match rest with a :: rest' => line_options rest' (with_host o a) | [] => inr (lit "Error: --host requires an address (e.g. 0.0.0.0)") end
      else if is_word (lit "--pid-file") w then
        match rest with a :: rest' => line_options rest' (with_pid o a) | [] => inr (lit "Error: --pid-file requires a filename") end
      else if is_word (lit "--log-file") w then
        match rest with a :: rest' => line_options rest' o | [] => inr (lit "Error: --log-file requires a filename") end
      else if is_word (lit "--token") w then
        match rest with a :: rest' => line_options rest' (with_token o a) | [] => inr (lit "Error: --token requires a value") end
      else match usize_from_str w with
           | Some n => line_options rest (with_threads o n)
           | None => inr (lit "Error: Unknown argument: " ++ w)
           end
  end.

(** sk_http_server.rs:217-300 [parse_args] *)
Fixpoint http_options (args : list str) (o : options) : options + str :=
  match args with
  | [] => inl o
  | w :: rest =>
      if is_word (lit "-d") w || is_word (lit "--daemon") w then http_options rest (with_daemon o)
      else if is_word (lit "-H") w || is_word (lit "--host") w then
        match rest with a :: rest' => http_options rest' (with_host o a) | [] => inr (lit "Error: --host requires an address") end
      else if is_word (lit "-t") w || is_word (lit "--threads") w then
        match rest with
        | a :: rest' =>
            match usize_from_str a with
            | Some n => if n =? 0 then inr (lit "Error: Thread count must be greater than 0") else http_options rest' (with_threads o n)
            | None => inr (lit "Error: Invalid thread count")
            end
        | [] => inr (lit "Error: --threads requires a number")
        end
      else if is_word (lit "--pid-file") w then
        match rest with a :: rest' => http_options rest' (with_pid o a) | [] => inr (lit "Error: --pid-file requires a filename") end
      else if is_word (lit "--log-file") w then
        match rest with a :: rest' => http_options rest' o | [] => inr (lit "Error: --log-file requires a filename") end
      else if is_word (lit "--token") w then
        match rest with a :: rest' => http_options rest' (with_token o a) | [] => inr (lit "Error: --token requires a value") end
      else if is_word (lit "--admin-token") w then
        match rest with a :: rest' => http_options rest' (with_admin o a) | [] => inr (lit "Error: --admin-token requires a value") end
      else inr (lit "Error: Unknown argument: " ++ w)
  end.

(** sk_server.rs:324-490 up to the accept loop, for arguments without the program's name.  [cpus] is [num_cpus::get()],
    [env_host] and [env_token] the variables SKILLET_BIND_HOST and SKILLET_AUTH_TOKEN.  [ThreadPool::new(0)] panics
    (threadpool's documented assertion).  Simplified: the usage text is represented by its first line; daemonizing and
    binding succeed; only the bytes of the token are compared later, by the connections (LineServer.v) *)
Definition line_start (cpus : N) (env_host env_token : option str) (args : list str) : start :=
  match args with
  | [] => Declined (lit "Usage: sk_server <port> [num_threads] [options]")
  | p :: rest =>
      match u16_from_str p with
      | None => Declined (lit "Error: Invalid port number")
      | Some port =>
          let host := match env_host with Some h => h | None => lit "127.0.0.1" end in
          match line_options rest (mkOptions cpus host env_token None false (lit "skillet-server.pid")) with
          | inr m => Declined m
          | inl o => if o_threads o =? 0 then StartPanic
                     else Serving (mkSettings port (o_host o) (o_threads o) (o_daemon o) (o_pid o) (o_token o) None)
          end
      end
  end.

(** sk_http_server.rs:113-150 up to the accept loop *)
Definition http_start (cpus : N) (args : list str) : start :=
  match args with
  | [] => Declined (lit "Usage: sk_http_server <port> [options]")
  | p :: rest =>
      match u16_from_str p with
      | None => Declined (lit "Error: Invalid port number")
      | Some port =>
          match http_options rest (mkOptions cpus (lit "127.0.0.1") None None false (lit "skillet-http-server.pid")) with
          | inr m => Declined m
          | inl o => let t := token_config_new (o_token o) (o_admin o) in
                     if o_threads o =? 0 then StartPanic
                     else Serving (mkSettings port (o_host o) (o_threads o) (o_daemon o) (o_pid o) (auth_token t) (admin_token t))
          end
      end
  end.
