(** [sk_server.rs]: the server of JSON lines.  Its worker threads share two
    counters and the statistics; the functions are loaded before the first
    connection and never change.  Simplifications: the monitoring messages on
    standard error, daemon mode and the accept loop are left out; what a client
    ever sends is given when it connects (a thread that has to wait makes no
    step); atomic operations take effect in one global order. *)
From Coq Require Import String List ZArith NArith Bool.
From Verif Require Import Base F64 F64Text Syntax Utf8 Ext Json Struct Registry Methods Api Lines Host HttpCache JsPlugin HttpServer HttpThreads Command.
Import ListNotations.
Local Open Scope N_scope.

(** ** Requests *)
(** sk_server.rs:13-19 *)
Record line_request := mkLine { l_expression : str; l_variables : option (list (str * json)); l_output_json : option bool; l_token : option str }.
Definition line_fields (e v o t : option json) : option line_request :=
  match e with
  | Some (JStr e) =>
      match json_optional json_object v, json_optional json_bool o, json_optional json_text t with
      | Some v, Some o, Some t => Some (mkLine e v o t)
      | _, _, _ => None
      end
  | _ => None
  end.
(** a JSON object, or an array of the four fields *)
Definition line_request_of (j : json) : option line_request :=
  match j with
  | JObj kvs => line_fields (mget (lit "expression") kvs) (mget (lit "variables") kvs) (mget (lit "output_json") kvs) (mget (lit "token") kvs)
  | JArr [e; v; o; t] => line_fields (Some e) (Some v) (Some o) (Some t)
  | _ => None
  end.

(** ** What the threads share (sk_server.rs:30-57, 462-463) *)
Record line_world := mkLines { lw_counter : N; lw_processed : N; lw_micros : N }.
Definition line_start : line_world := mkLines 0 0 0.
(** the thread serving a connection: the accesses to what is shared, and the
    answers it writes *)
Inductive line_prog :=
| LDone
| LAct (f : line_world -> line_world * line_prog)
| LSend (answer : str) (k : line_prog).

Section Lines.
  Context {X : Ext} {H : Host}.
  (** sk_server.rs:21-28, in the order of its fields *)
  Definition line_answer (success : bool) (result : option json) (error : option str) (ms : f64) (id : N) : str :=
    json_print (JObj [(lit "success", JBool success); (lit "result", match result with Some j => j | None => JNull end);
                      (lit "error", opt_text error); (lit "execution_time_ms", json_of_f64 ms); (lit "request_id", JNum (JPos id))]).
  (** sk_server.rs:199-208: an element of an array, without types *)
  Definition line_element (v : value) : json :=
    match v with VDateTime t => JStr (Z_to_str t) | _ => element_json v end.
  (** sk_server.rs:191-214 *)
  Definition line_value (v : value) : json :=
    match v with
    | VNumber n | VCurrency n => json_of_f64 n
    | VString s => JStr s
    | VBoolean b => JBool b
    | VDateTime t => JStr (Z_to_str t)
    | VArray xs => JArr (map line_element xs)
    | VNull => JNull
    | VJson s => match json_parse s with Some j => j | None => JStr s end
    end.
  (** sk_server.rs:125-146: the variables; conversion never fails.  The names
      are taken as they are. *)
  Definition line_vars (v : option (list (str * json))) : env :=
    match v with
    | None => []
    | Some kvs => map (fun kv => (fst kv, json_to_value (snd kv))) kvs
    end.
  (** sk_server.rs:148-153 *)
  Definition line_result (reg : registry) (r : line_request) : res value :=
    if statements (l_expression r)
    then evaluate_with_assignments (l_expression r) (line_vars (l_variables r))
    else evaluate_with_custom reg (l_expression r) (line_vars (l_variables r)).
  (** sk_server.rs:121-232 *)
  Definition process_request (reg : registry) (r : line_request) (id : N) : res str :=
    match line_result reg r with
    | Panic p => Panic p
    | Ok v => Ok (line_answer true (Some (if match l_output_json r with Some b => b | None => false end
                                          then typed_output v (h_ms id) else line_value v)) None (h_ms id) id)
    | Err e => Ok (line_answer false None (Some (show_error e)) (h_ms id) id)
    end.
  (** sk_server.rs:80-107 *)
  Definition answer_line (reg : registry) (token : option str) (id : N) (line : str) : res str :=
    match match struct_parse line_names line with Some j => line_request_of j | None => None end with
    | None => Ok (line_answer false None (Some (lit "Invalid JSON request: " ++ h_serde_err line)) f_zero id)
    | Some r =>
        match token with
        | Some t => if str_eqb (match l_token r with Some s => s | None => [] end) t
                    then process_request reg r id
                    else Ok (line_answer false None (Some (lit "Unauthorized: invalid token")) f_zero id)
        | None => process_request reg r id
        end
    end.

  (** sk_server.rs:65-119 *)
  Fixpoint serve_lines (reg : registry) (token : option str) (ls : list str) : line_prog :=
    match ls with
    | [] => LDone
    | l :: r =>
        match trim l with
        | [] => serve_lines reg token r
        | _ =>
            (* :77 *)
            LAct (fun w => (mkLines (u64_wrap (lw_counter w + 1)) (lw_processed w) (lw_micros w),
              match answer_line reg token (lw_counter w) l with
              | Ok a =>
                  (* :109-110, 41-44 *)
                  LAct (fun w' => (mkLines (lw_counter w') (u64_wrap (lw_processed w' + 1)) (lw_micros w'),
                  LAct (fun w'' => (mkLines (lw_counter w'') (lw_processed w'') (u64_wrap (lw_micros w'' + u64_wrap (h_micros (lw_counter w)))),
                  LSend a (serve_lines reg token r)))))
              | _ => LDone (* a panic *)
              end))
        end
    end.

  (** ** Connections *)
  (** [BufRead::lines] (:65-71): the lines of the bytes received, up to the
      first one that is not UTF-8.  If reading fails, what follows the last
      line ending is lost. *)
  Fixpoint decoded (ls : list (list N)) : list str :=
    match ls with
    | [] => []
    | b :: r => match decode b with Some s => s :: decoded r | None => [] end
    end.
  Definition complete_part (bs : list N) : list N :=
    concat (map (fun p => p ++ [10]) (removelast (split_char 10 bs))).
  Record line_conn := mkConn { cn_bytes : list N; cn_broken : bool }.
  Definition received (c : line_conn) : list str :=
    decoded (lines (if cn_broken c then complete_part (cn_bytes c) else cn_bytes c)).

  (** a connection, the answers written to it, what is left to do *)
  Record line_job := mkLJob { lj_conn : line_conn; lj_sent : list str; lj_prog : line_prog }.
  Record line_server := mkLServer { ls_world : line_world; ls_jobs : list line_job }.
  Inductive line_event :=
  | Connect (c : line_conn)   (* :480-487 *)
  | Step (i : nat)             (* connection [i] makes a step *)
  | HangUp (i : nat).          (* writing to connection [i] fails (:115-117) *)
  Definition line_step (reg : registry) (token : option str) (s : line_server) (ev : line_event) : line_server :=
    match ev with
    | Connect c => mkLServer (ls_world s) (ls_jobs s ++ [mkLJob c [] (serve_lines reg token (received c))])
    | Step i =>
        match nth_error (ls_jobs s) i with
        | Some (mkLJob c sent p) =>
            match p with
            | LDone => s
            | LAct f => let (w, p') := f (ls_world s) in mkLServer w (replace i (mkLJob c sent p') (ls_jobs s))
            | LSend a k => mkLServer (ls_world s) (replace i (mkLJob c (sent ++ [a]) k) (ls_jobs s))
            end
        | None => s
        end
    | HangUp i =>
        match nth_error (ls_jobs s) i with
        | Some (mkLJob c sent (LSend _ _)) => mkLServer (ls_world s) (replace i (mkLJob c sent LDone) (ls_jobs s))
        | _ => s
        end
    end.
  Definition line_run (reg : registry) (token : option str) (evs : list line_event) : line_server :=
    fold_left (line_step reg token) evs (mkLServer line_start []).
End Lines.
