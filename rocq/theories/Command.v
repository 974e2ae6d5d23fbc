(** [sk.rs]: the command [sk].  The usage text is left out. *)
From Coq Require Import String List ZArith NArith Bool.
From Verif Require Import Base F64 F64Text Syntax Ext Json Registry Methods Api Lines Host HttpCache JsPlugin HttpServer Pretty.
Import ListNotations.
Local Open Scope N_scope.

(** what a process leaves behind: its exit status, what it wrote to standard
    output and to standard error; or a panic *)
Inductive outcome := Exited (status : N) (out errors : str) | Crashed.

Section Command.
  Context {X : Ext} {H : Host}.

  (** js_plugin.rs:331-340: the functions are registered up to the first one
      that is refused; the error, if any, and the registry that is left *)
  Fixpoint register_found (fs : list js_function) (reg : registry) : option error * registry :=
    match fs with
    | [] => (None, reg)
    | f :: r => match reg_register reg (js_custom f) with
                | Ok reg' => register_found r reg'
                | Err e => (Some e, reg)
                | Panic p => (Some (err p), reg)
                end
    end.
  Definition load_hooks (fs : files) : res N * registry :=
    match load_functions fs with
    | Ok found => match register_found found reg_new with
                  | (None, reg) => (Ok (N.of_nat (length found)), reg)
                  | (Some e, reg) => (Err e, reg)
                  end
    | Err e => (Err e, reg_new)
    | Panic p => (Panic p, reg_new)
    end.
  (** sk.rs:28-37, sk_server.rs:451-462, sk_http_server.rs:335-346: what is
      written to standard error about it.  Simplification: the warnings about
      files that cannot be read (js_plugin.rs:321) are left out. *)
  Definition notice (r : res N) : str :=
    match r with
    | Ok n => if 0 <? n then lit "Loaded " ++ N_to_str n ++ lit " custom JavaScript function(s)" ++ [10] else []
    | Err e => lit "Warning: Failed to load JavaScript functions: " ++ show_error e ++ [10]
    | Panic _ => []
    end.

  (** sk.rs:209 *)
  Definition quoted_by (q : N) (s : str) : bool := starts_with [q] s && ends_with [q] s.
  (** sk.rs:205-240.  [fuel] bounds the depth; the caller passes the length of
      the text, which always suffices. *)
  Fixpoint parse_value_fuel (fuel : nat) (s : str) : res value :=
    match fuel with
    | O => Panic "fuel"
    | S k =>
        if quoted_by 34 s || quoted_by 39 s
        then match s with
             | _ :: _ :: _ => Ok (VString (removelast (tl s)))
             | _ => Panic "begin <= end (1 <= 0) when slicing"
             end
        else let low := to_lowercase s in
        if str_eqb low (lit "true") then Ok (VBoolean true)
        else if str_eqb low (lit "false") then Ok (VBoolean false)
        else if str_eqb low (lit "null") then Ok VNull
        else if starts_with [91] s && ends_with [93] s
        then let inner := removelast (tl s) in
             match trim inner with
             | [] => Ok (VArray [])
             | _ => vs <- mapM (fun item => parse_value_fuel k (trim item)) (split_char 44 inner) ;; Ok (VArray vs)
             end
        else match f_from_str s with Some n => Ok (VNumber n) | None => Ok (VString s) end
    end.
  Definition parse_value (s : str) : res value := parse_value_fuel (S (length s)) s.

  (** sk.rs:65-68 *)
  Record options := mkOptions { o_json : option str; o_output : bool; o_vars : env }.
  (** sk.rs:71-98, after the expression; [Err] is the message with which the command ends with status 1 *)
  Fixpoint read_options (args : list str) (o : options) : res options :=
    match args with
    | [] => Ok o
    | a :: r =>
        if str_eqb a (lit "--json")
        then match r with
             | [] => Err (err "Error: --json flag requires a JSON string argument")
             | j :: r' => read_options r' (mkOptions (Some j) (o_output o) (o_vars o))
             end
        else if str_eqb a (lit "--output-json") then read_options r (mkOptions (o_json o) true (o_vars o))
        else match split_once [61] a with
             | Some (name, text) => v <- parse_value text ;; read_options r (mkOptions (o_json o) (o_output o) (minsert name v (o_vars o)))
             | None => Err (mkErr (lit "Invalid variable assignment: '" ++ a ++ lit "'. Use format: var=value") None)
             end
    end.

  (** sk.rs:105, 143 *)
  Definition statements (expr : str) : bool := contains (lit ";") expr || contains (lit ":=") expr.
  (** sk.rs:107-138: the variables of a JSON text for an expression with
      statements; [Err] is the message with which the command ends with status 1 *)
  Definition statement_vars (text : str) : res env :=
    match json_parse text with
    | None => Err (mkErr (lit "Error: Invalid JSON: " ++ h_serde_err text) None)
    | Some (JObj kvs) =>
        Ok (fold_left (fun m kv => minsert (sanitize_json_key (fst kv)) (json_to_value (snd kv)) m)
                      kvs (minsert (lit "arguments") (VJson text) []))
    | Some _ => Err (err "Error: JSON must be an object with key-value pairs")
    end.
  (** sk.rs:103-147; the first [Err] is that of [statement_vars] *)
  Definition command_result (reg : registry) (expr : str) (o : options) : res (res value) :=
    match o_json o with
    | Some text =>
        if statements expr
        then vars <- statement_vars text ;; Ok (evaluate_with_assignments expr vars)
        else Ok (evaluate_with_json_custom reg expr text)
    | None => Ok (if statements expr then evaluate_with_assignments expr (o_vars o) else evaluate_with_custom reg expr (o_vars o))
    end.

  (** sk.rs:175-184 (and sk_server.rs:163-172): an element of an array *)
  Definition element_json (v : value) : json :=
    match v with
    | VNumber n | VCurrency n => json_of_f64 n
    | VString s => JStr s
    | VBoolean b => JBool b
    | VDateTime t => json_of_i64 t
    | VNull => JNull
    | VArray _ => JStr (value_debug v)
    | VJson s => match json_parse s with Some j => j | None => JStr s end
    end.
  (** sk.rs:168-194 (and sk_server.rs:156-183) *)
  Definition typed_json (v : value) : json * str :=
    match v with
    | VNumber n => (json_of_f64 n, lit "Number")
    | VString s => (JStr s, lit "String")
    | VBoolean b => (JBool b, lit "Boolean")
    | VCurrency c => (json_of_f64 c, lit "Currency")
    | VDateTime t => (json_of_i64 t, lit "DateTime")
    | VArray xs => (JArr (map element_json xs), lit "Array")
    | VNull => (JNull, lit "Null")
    | VJson s => (match json_parse s with Some j => j | None => JStr s end, lit "Json")
    end.
  (** sk.rs:196-200 (and sk_server.rs:185-189); the keys in their order *)
  Definition typed_output (v : value) (ms : f64) : json :=
    let (r, t) := typed_json v in
    JObj [(lit "execution_time", JStr (f_fixed 2 ms ++ lit " ms")); (lit "result", r); (lit "type", JStr t)].
  (** sk.rs:167-203 *)
  Definition format_json_output (v : value) (ms : f64) : str := json_pretty 0 (typed_output v ms).

  (** sk.rs:39-165, once the functions are registered; [ms] is the time measured *)
  Definition sk_main (reg : registry) (ms : f64) (args : list str) : outcome :=
    match args with
    | [] => Exited 1 [] []
    | expr :: rest =>
        match read_options rest (mkOptions None false []) with
        | Panic _ => Crashed
        | Err e => Exited 1 [] (e_msg e ++ [10])
        | Ok o =>
            match command_result reg expr o with
            | Panic _ => Crashed
            | Err e => Exited 1 [] (e_msg e ++ [10])
            | Ok (Ok v) => Exited 0 ((if o_output o then format_json_output v ms else value_debug v) ++ [10]) []
            | Ok (Err e) => Exited 2 [] (lit "Error: " ++ show_error e ++ [10])
            | Ok (Panic _) => Crashed
            end
        end
    end.
  (** sk.rs:19-165: the command, with these files on the disk *)
  Definition sk (fs : files) (ms : f64) (args : list str) : outcome :=
    let (r, reg) := load_hooks fs in
    match sk_main reg ms args with
    | Exited status out errors => Exited status out (notice r ++ errors)
    | Crashed => Crashed
    end.
End Command.
