(** [sk_client.rs]: the client of the server of JSON lines (its
    benchmark mode is in ClientBench.v).  What the usage text says is left out. *)
From Coq Require Import String List ZArith NArith Bool.
From Verif Require Import Base F64 F64Text Syntax Utf8 Ext Json Struct Methods Lines Host HttpServer Pretty Command LineServer.
Import ListNotations.
Local Open Scope N_scope.

Section Client.
  Context {X : Ext} {H : Host}.
  (** sk_client.rs:325-344 *)
  Definition parse_value_to_json (s : str) : res json :=
    if quoted_by 34 s || quoted_by 39 s
    then match s with
         | _ :: _ :: _ => Ok (JStr (removelast (tl s)))
         | _ => Panic "begin <= end (1 <= 0) when slicing"
         end
    else if str_eqb s (lit "true") then Ok (JBool true)
    else if str_eqb s (lit "false") then Ok (JBool false)
    else if str_eqb s (lit "null") then Ok JNull
    else if starts_with [91] s && ends_with [93] s
    then Ok (match json_parse s with Some j => j | None => JStr s end)
    else match f_from_str s with
         | Some n => Ok (match jnum_of_f64 n with Some j => j | None => JNum (JPos 0) end)
         | None => Ok (JStr s)
         end.
  (** sk_client.rs:99-104 *)
  Record client_options := mkCOptions { c_json : option str; c_output : bool; c_token : option str; c_variables : list (str * json) }.
  (** sk_client.rs:106-137 *)
  Fixpoint read_client_options (args : list str) (o : client_options) : res client_options :=
    match args with
    | [] => Ok o
    | a :: r =>
        if str_eqb a (lit "--json")
        then match r with
             | [] => Err (err "Error: --json flag requires a JSON string argument")
             | j :: r' => read_client_options r' (mkCOptions (Some j) (c_output o) (c_token o) (c_variables o))
             end
        else if str_eqb a (lit "--output-json") then read_client_options r (mkCOptions (c_json o) true (c_token o) (c_variables o))
        else if str_eqb a (lit "--token")
        then match r with
             | [] => Err (err "Error: --token flag requires a value")
             | t :: r' => read_client_options r' (mkCOptions (c_json o) (c_output o) (Some t) (c_variables o))
             end
        else match split_once [61] a with
             | Some (name, text) => j <- parse_value_to_json text ;; read_client_options r (mkCOptions (c_json o) (c_output o) (c_token o) (minsert name j (c_variables o)))
             | None => Err (mkErr (lit "Invalid argument: '" ++ a ++ lit "'. Use format: var=value") None)
             end
    end.
  (** sk_client.rs:140-168 *)
  Definition client_request (expression : str) (o : client_options) : res line_request :=
    match c_json o with
    | Some text =>
        match json_parse text with
        | Some (JObj kvs) => Ok (mkLine expression (Some kvs) (Some (c_output o)) (c_token o))
        | _ => Err (mkErr (lit "Error: Invalid JSON: " ++ h_serde_err text) None)
        end
    | None => Ok (mkLine expression (match c_variables o with [] => None | vs => Some vs end) (Some (c_output o)) (c_token o))
    end.
  (** sk_client.rs:7-13, 192-194: the line sent, in the order of its fields *)
  Definition request_line (r : line_request) : str :=
    json_print (JObj [(lit "expression", JStr (l_expression r));
                      (lit "variables", match l_variables r with Some kvs => JObj (h_order 0 kvs) | None => JNull end);
                      (lit "output_json", match l_output_json r with Some b => JBool b | None => JNull end);
                      (lit "token", opt_text (l_token r))]).
  (** sk_client.rs:15-23: a field of the answer: a member of an object, or one
      of five elements *)
  Definition answer_field (name : str) (i : nat) (j : json) : option json :=
    match j with
    | JObj kvs => mget name kvs
    | JArr xs => if Nat.eqb (length xs) 5 then nth_error xs i else None
    | _ => None
    end.
  (** sk_client.rs:15-23: the answer, as far as it is used.  [null] and a
      missing field are both [None]; a number of milliseconds and a whole
      request number must be there. *)
  Definition answer_of_line (line : str) : option (bool * option json * option str) :=
    match struct_parse answer_names line with
    | Some j =>
        match answer_field (lit "success") 0 j, json_optional json_text (answer_field (lit "error") 2 j), answer_field (lit "execution_time_ms") 3 j, answer_field (lit "request_id") 4 j with
        | Some (JBool b), Some e, Some (JNum _), Some (JNum (JPos _)) =>
            Some (b, match answer_field (lit "result") 1 j with Some JNull | None => None | Some j => Some j end, e)
        | _, _, _, _ => None
        end
    | None => None
    end.
  (** sk_client.rs:171-188; no line is an answer that cannot be read *)
  Definition client_report (line : str) : outcome :=
    match answer_of_line line with
    | Some (true, r, _) => Exited 0 (match r with Some j => json_pretty 0 j | None => lit "null" end ++ [10]) []
    | Some (false, _, e) => Exited 2 [] (lit "Error: " ++ match e with Some e => e | None => lit "Unknown error" end ++ [10])
    | None => Exited 3 [] (lit "Connection error: " ++ h_serde_err line ++ [10])
    end.
  (** sk_client.rs:25-189: [exchange] sends a line and gives the line that
      comes back; [token] is SKILLET_SERVER_TOKEN *)
  Definition client_main (exchange : str -> str) (token : option str) (args : list str) : outcome :=
    match args with
    | address :: expression :: rest =>
        match read_client_options rest (mkCOptions None false token []) with
        | Panic _ => Crashed
        | Err e => Exited 1 [] (e_msg e ++ [10])
        | Ok o =>
            match client_request expression o with
            | Ok r => client_report (exchange (request_line r))
            | Err e => Exited 1 [] (e_msg e ++ [10])
            | Panic _ => Crashed
            end
        end
    | _ => Exited 1 [] []
    end.
End Client.
