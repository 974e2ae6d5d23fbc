(** [sk_http_server.rs:23-111], [http_server/eval.rs], [types.rs], [stats.rs],
    [js_management.rs], [utils.rs:122-193]: the requests of the HTTP server.

    A worker thread serving one request is a program whose steps are the
    accesses to what the threads share: the result cache (behind a lock), the
    function registry (behind a lock), the atomic counters, the files.  Any
    other thread may run between two steps.  Simplifications: an evaluation
    sees the registry as it was when the evaluation began; writing and deleting
    a file, and listing the hooks directory with its contents, are one step
    each; the statistics counters do not overflow, except where [as u64] wraps;
    atomic operations take effect in one global order. *)
From Coq Require Import String List ZArith NArith Bool.
From Verif Require Import Base F64 F64Text Syntax Utf8 Ext Json Struct Registry Methods Api Lines Host HttpRead HttpAuth HttpCache JsPlugin Multipart.
Import ListNotations.
Local Open Scope N_scope.

(** what the threads share *)
Record world := mkWorld {
  w_cache : cache;        (* cache.rs:55 *)
  w_registry : registry;  (* lib.rs, GLOBAL_REGISTRY *)
  w_counter : N;          (* sk_http_server.rs:139 *)
  w_processed : N;        (* stats.rs:4 *)
  w_micros : N;           (* stats.rs:5 *)
  w_files : files }.
(** sk_http_server.rs:137-139, before the functions are loaded *)
Definition first_world (fs : files) : world := mkWorld new_cache reg_new 0 0 0 fs.
Definition set_cache c w := mkWorld c (w_registry w) (w_counter w) (w_processed w) (w_micros w) (w_files w).
Definition set_registry r w := mkWorld (w_cache w) r (w_counter w) (w_processed w) (w_micros w) (w_files w).
Definition set_counter n w := mkWorld (w_cache w) (w_registry w) n (w_processed w) (w_micros w) (w_files w).
Definition set_processed n w := mkWorld (w_cache w) (w_registry w) (w_counter w) n (w_micros w) (w_files w).
Definition set_micros n w := mkWorld (w_cache w) (w_registry w) (w_counter w) (w_processed w) n (w_files w).
Definition set_files fs w := mkWorld (w_cache w) (w_registry w) (w_counter w) (w_processed w) (w_micros w) fs.

(** a thread's program: what it answers, [None] when the connection is closed
    without an answer (after a panic, or an empty request) *)
Inductive prog :=
| Reply (r : option str)
| Act (f : world -> world * prog).
Definition act {B} (f : world -> world * B) (k : B -> prog) : prog :=
  Act (fun w => let (w', b) := f w in (w', k b)).
(** the program alone, with no other thread *)
Fixpoint run (p : prog) (w : world) : world * option str :=
  match p with
  | Reply r => (w, r)
  | Act f => let (w', p') := f w in run p' w'
  end.
(** a panic ends the thread's work *)
Definition unless_panic {A} (r : res A) (ok : A -> prog) (bad : error -> prog) : prog :=
  match r with Ok a => ok a | Err e => bad e | Panic _ => Reply None end.

(** error.rs:18-25 *)
Definition show_error (e : error) : str :=
  match e_pos e with Some p => e_msg e ++ lit " at position " ++ N_to_str p | None => e_msg e end.

Definition u64_wrap (n : N) : N := n mod 2 ^ 64.

(** ** Answers (utils.rs:122-160) *)
(** utils.rs:123-132 *)
Definition status_text (status : N) : str :=
  if status =? 200 then lit "OK"
  else if status =? 400 then lit "Bad Request"
  else if status =? 401 then lit "Unauthorized"
  else if status =? 408 then lit "Request Timeout"
  else if status =? 413 then lit "Payload Too Large"
  else if status =? 404 then lit "Not Found"
  else if status =? 500 then lit "Internal Server Error"
  else lit "Unknown".
Definition line (s : str) : str := s ++ [13; 10].
Definition cors : str :=
  line (lit "Access-Control-Allow-Origin: *")
  ++ line (lit "Access-Control-Allow-Methods: GET, POST, PUT, DELETE, OPTIONS")
  ++ line (lit "Access-Control-Allow-Headers: Content-Type, Authorization").
(** utils.rs:122-147 *)
Definition http_response (status : N) (content_type body : str) : str :=
  line (lit "HTTP/1.1 " ++ N_to_str status ++ lit " " ++ status_text status) ++ cors
  ++ line (lit "Content-Type: " ++ content_type)
  ++ line (lit "Content-Length: " ++ N_to_str (byte_len body))
  ++ line (lit "Connection: close") ++ line [] ++ body.
(** utils.rs:157-165 *)
Definition preflight : str := line (lit "HTTP/1.1 200 OK") ++ cors ++ line (lit "Content-Length: 0") ++ line [].
Definition json_type : str := lit "application/json".
Definition reply (status : N) (body : str) : prog := Reply (Some (http_response status json_type body)).

Section Server.
  Context {X : Ext} {H : Host}.

  (** utils.rs:149-155 *)
  Definition send_error (status : N) (message : str) : prog :=
    reply status (json_print (JObj [(lit "error", JStr message); (lit "success", JBool false)])).

  (** ** The request body (utils.rs:167-178, types.rs:4-113).
      Simplification: serde's messages are an oracle. *)
  Inductive include := IncAll | IncNone | IncSelected (names : list str).
  Record eval_request := mkReq { r_expression : str; r_arguments : option (list (str * json)); r_output_json : option bool; r_include : option include }.

  (** types.rs:43-62, eval.rs:79-96 *)
  Definition include_names (s : str) : include :=
    let names := map (fun n => match n with 58 :: r => r | _ => n end)
                     (filter (fun n => match n with [] => false | _ => true end) (map trim (split_char 44 s))) in
    match names with [] => IncNone | _ => IncSelected names end.
  (** types.rs:11-67 *)
  Definition json_include (j : json) : option include :=
    match j with JBool true => Some IncAll | JBool false => Some IncNone | JStr s => Some (include_names s) | _ => None end.
  (** types.rs:78-113 *)
  Fixpoint json_strings (js : list json) : option (list str) :=
    match js with
    | [] => Some []
    | JStr s :: r => option_map (cons s) (json_strings r)
    | _ => None
    end.
  Definition json_expression (j : json) : option str :=
    match j with JStr s => Some s | JArr js => option_map (@concat N) (json_strings js) | _ => None end.
  (** an [Option<T>] field: absent and [null] are [None] *)
  Definition json_optional {A} (f : json -> option A) (j : option json) : option (option A) :=
    match j with None | Some JNull => Some None | Some j => option_map Some (f j) end.
  Definition json_object (j : json) : option (list (str * json)) := match j with JObj kvs => Some kvs | _ => None end.
  Definition json_bool (j : json) : option bool := match j with JBool b => Some b | _ => None end.
  Definition json_text (j : json) : option str := match j with JStr s => Some s | _ => None end.
  Definition eval_fields (e a o i : option json) : option eval_request :=
    match e with
    | None => None
    | Some e =>
        match json_expression e, json_optional json_object a, json_optional json_bool o, json_optional json_include i with
        | Some e, Some a, Some o, Some i => Some (mkReq e a o i)
        | _, _, _, _ => None
        end
    end.
  (** types.rs:69-76: a JSON object, or an array of the four fields *)
  Definition eval_request_of (j : json) : option eval_request :=
    match j with
    | JObj kvs => eval_fields (mget (lit "expression") kvs) (mget (lit "arguments") kvs) (mget (lit "output_json") kvs) (mget (lit "include_variables") kvs)
    | JArr [e; a; o; i] => eval_fields (Some e) (Some a) (Some o) (Some i)
    | _ => None
    end.
  (** utils.rs:167-178 *)
  Definition parse_json_body {A} (names : list str) (f : json -> option A) (request : str) : A + str :=
    match split_once crlf2 request with
    | None => inr (lit "Invalid HTTP request")
    | Some (_, body) =>
        match struct_parse names body with
        | Some j => match f j with Some a => inl a | None => inr (lit "Invalid JSON: " ++ h_serde_err body) end
        | None => inr (lit "Invalid JSON: " ++ h_serde_err body)
        end
    end.

  (** ** Results as JSON (eval.rs:286-333) *)
  (** eval.rs:319-333 *)
  Fixpoint format_simple_output (v : value) : json :=
    match v with
    | VNumber n | VCurrency n => json_of_f64 n
    | VString s => JStr s
    | VBoolean b => JBool b
    | VDateTime t => JStr (Z_to_str t)
    | VArray xs => JArr (map format_simple_output xs)
    | VNull => JNull
    | VJson s => match json_parse s with Some j => j | None => JStr s end
    end.
  (** eval.rs:287-310 *)
  Definition structured (v : value) : json * str :=
    match v with
    | VNumber n => (json_of_f64 n, lit "Number")
    | VString s => (JStr s, lit "String")
    | VBoolean b => (JBool b, lit "Boolean")
    | VCurrency c => (json_of_f64 c, lit "Currency")
    | VDateTime t => (json_of_i64 t, lit "DateTime")
    | VArray xs => (JArr (map format_simple_output xs), lit "Array")
    | VNull => (JNull, lit "Null")
    | VJson s => (match json_parse s with Some j => j | None => JStr s end, lit "Json")
    end.
  (** eval.rs:286-316 *)
  Definition format_structured_output (v : value) (ms : f64) : json :=
    let (r, t) := structured v in
    JObj [(lit "execution_time", JStr (f_fixed 2 ms ++ lit " ms")); (lit "result", r); (lit "type", JStr t)].

  (** derived [PartialEq] of values (types.rs:3): numbers by [==] *)
  Fixpoint value_same (a b : value) : bool :=
    match a, b with
    | VNumber x, VNumber y | VCurrency x, VCurrency y => f_eqb x y
    | VString x, VString y | VJson x, VJson y => str_eqb x y
    | VBoolean x, VBoolean y => Bool.eqb x y
    | VDateTime x, VDateTime y => Z.eqb x y
    | VNull, VNull => true
    | VArray xs, VArray ys =>
        (fix same xs ys := match xs, ys with
                           | [], [] => true
                           | x :: xs, y :: ys => value_same x y && same xs ys
                           | _, _ => false
                           end) xs ys
    | _, _ => false
    end.

  (** ** Evaluating (eval.rs:182-284, cache.rs:113-168) *)
  (** types.rs:115-124, in the order of its fields *)
  Record eval_response := mkResp { p_success : bool; p_result : option json; p_variables : option (list (str * json)); p_error : option str; p_ms : f64; p_id : N }.
  Definition response_json (r : eval_response) : str :=
    json_print (JObj ([(lit "success", JBool (p_success r));
                       (lit "result", match p_result r with Some j => j | None => JNull end)]
                      ++ match p_variables r with Some kvs => [(lit "variables", JObj (h_order (p_id r) kvs))] | None => [] end
                      ++ [(lit "error", match p_error r with Some e => JStr e | None => JNull end);
                          (lit "execution_time_ms", json_of_f64 (p_ms r));
                          (lit "request_id", JNum (JPos (p_id r)))])).
  (** eval.rs:190-217: the variables of the request; conversion never fails *)
  Definition request_vars (id : N) (a : option (list (str * json))) : env :=
    match a with
    | None => []
    | Some kvs =>
        fold_left (fun m kv => minsert (sanitize_json_key (fst kv)) (json_to_value (snd kv)) m) (h_order id kvs)
                  (minsert (lit "arguments") (VJson (json_print (JObj (h_order id kvs)))) [])
    end.
  (** eval.rs:220 *)
  Definition wants_variables (i : option include) : bool :=
    match i with Some IncAll | Some (IncSelected _) => true | _ => false end.
  (** eval.rs:243-257: is this variable of the context shown? *)
  Definition shown (i : option include) (vars : env) (k : str) (v : value) : bool :=
    negb match mget k vars with Some v0 => value_same v0 v | None => false end
    && match i with Some IncAll => true | Some (IncSelected names) => existsb (str_eqb k) names | _ => false end.
  (** eval.rs:237-262 *)
  Definition shown_variables (i : option include) (vars : env) (ctx : option env) : option (list (str * json)) :=
    match ctx with
    | None => None
    | Some ctx =>
        match map (fun kv => (fst kv, format_simple_output (snd kv))) (filter (fun kv => shown i vars (fst kv) (snd kv)) ctx) with
        | [] => None
        | kvs => Some kvs
        end
    end.
  (** stats.rs:16-19, two atomic additions *)
  Definition record_request (micros : N) (k : prog) : prog :=
    act (fun w => (set_processed (u64_wrap (w_processed w + 1)) w, tt)) (fun _ =>
    act (fun w => (set_micros (u64_wrap (w_micros w + u64_wrap micros)) w, tt)) (fun _ => k)).
  (** the answer to an evaluation (eval.rs:231-283) *)
  Definition eval_answer (req : eval_request) (vars : env) (id : N) (r : (value * option env) + error) : eval_response :=
    match r with
    | inl (v, ctx) =>
        mkResp true (Some (if match r_output_json req with Some b => b | None => false end
                           then format_structured_output v (h_ms id) else format_simple_output v))
               (shown_variables (r_include req) vars ctx) None (h_ms id) id
    | inr e => mkResp false None None (Some (show_error e)) (h_ms id) id
    end.
  (** eval.rs:229, then the answer *)
  Definition finish (req : eval_request) (vars : env) (id : N) (r : (value * option env) + error) : prog :=
    record_request (h_micros id)
      (let p := eval_answer req vars id r in reply (if p_success p then 200 else 400) (response_json p)).
  (** eval.rs:182-284 with cache.rs:113-168 *)
  Definition process_eval_request (req : eval_request) : prog :=
    (* eval.rs:187 *)
    act (fun w => (set_counter (u64_wrap (w_counter w + 1)) w, w_counter w)) (fun id =>
    let vars := request_vars id (r_arguments req) in
    let key := generate_cache_key (r_expression req) vars in
    (* cache.rs:121-131 *)
    act (fun w => let (r, c) := cache_get key (w_cache w) in (set_cache c w, r)) (fun hit =>
    match hit with
    | Some e => finish req vars id (inl (e_result e, e_vars e))
    | None =>
        (* cache.rs:136-148 *)
        act (fun w => (w, evaluate_request (w_registry w) (r_expression req) vars (wants_variables (r_include req)))) (fun r =>
        unless_panic r
          (fun vc => (* cache.rs:153-165 *)
             act (fun w => (set_cache (cache_put key (mkEntry (fst vc) (snd vc) (h_eval_ms id)) (w_cache w)) w, tt)) (fun _ =>
             finish req vars id (inl vc)))
          (fun e => finish req vars id (inr e)))
    end)).

  (** ** Handlers *)
  (** a check that refuses with status 401 *)
  Definition guarded (check : res (option str)) (k : prog) : prog :=
    unless_panic check (fun refusal => match refusal with Some body => reply 401 body | None => k end) (fun _ => k).
  (** eval.rs:13-37 *)
  Definition handle_eval_post (request : str) (token : option str) : prog :=
    guarded (check_authentication request token)
      match parse_json_body eval_names eval_request_of request with
      | inl req => process_eval_request req
      | inr e => send_error 400 e
      end.

  (** [urlencoding::decode]: bytes after '%', as they are if no two hexadecimal
      digits follow; not UTF-8 is an error, and eval.rs:66 takes "" then *)
  Fixpoint percent (bs : list N) : list N :=
    match bs with
    | 37 :: (a :: ((b :: r) as r1)) as r2 =>
        match hex_val a, hex_val b with
        | Some x, Some y => (x * 16 + y) :: percent r
        | _, _ => 37 :: percent r2
        end
    | c :: r => c :: percent r
    | [] => []
    end.
  Definition url_decode (s : str) : str := match decode (percent (encode s)) with Some t => t | None => [] end.
  (** eval.rs:99-109 *)
  Definition query_value (s : str) : json :=
    match f_from_str s with
    | Some n => json_of_f64 n
    | None => if str_eqb s (lit "true") then JBool true else if str_eqb s (lit "false") then JBool false else JStr s
    end.
  (** eval.rs:58-61 *)
  Record query := mkQuery { q_expression : str; q_variables : list (str * json); q_output : bool; q_include : include }.
  (** eval.rs:63-113 *)
  Definition query_param (q : query) (param : str) : query :=
    match split_once [61] param with
    | None => q
    | Some (key, raw) =>
        let v := url_decode raw in
        if str_eqb key (lit "expr") || str_eqb key (lit "expression") then mkQuery v (q_variables q) (q_output q) (q_include q)
        else if str_eqb key (lit "output_json") then mkQuery (q_expression q) (q_variables q) (str_eqb v (lit "true")) (q_include q)
        else if str_eqb key (lit "include_variables")
        then mkQuery (q_expression q) (q_variables q) (q_output q)
               (if str_eqb v (lit "true") then IncAll else if str_eqb v (lit "false") then IncNone else include_names v)
        else mkQuery (q_expression q) (minsert key (query_value v) (q_variables q)) (q_output q) (q_include q)
    end.
  Definition parse_query (s : str) : query := fold_left query_param (split_char 38 s) (mkQuery [] [] false IncNone).
  (** eval.rs:120-125 *)
  Definition query_request (q : query) : eval_request :=
    mkReq (q_expression q) (match q_variables q with [] => None | vs => Some vs end) (Some (q_output q)) (Some (q_include q)).
  (** eval.rs:39-130 *)
  Definition handle_eval_get (request : str) (token : option str) : prog :=
    guarded (check_authentication request token)
      match split_whitespace (hd [] (lines request)) with
      | _ :: target :: _ =>
          let q := parse_query (match split_once [63] target with Some (_, q) => q | None => [] end) in
          match q_expression q with
          | [] => send_error 400 (lit "Missing expression parameter")
          | _ => process_eval_request (query_request q)
          end
      | _ => send_error 400 (lit "Bad Request")
      end.

  (** cache.rs:44-52 *)
  Definition hit_rate (s : cache_stats) : f64 :=
    if (cs_hits s + cs_misses s =? 0)%N then f_zero
    else f_div (f_of_Z (Z.of_N (cs_hits s))) (f_of_Z (Z.of_N (cs_hits s + cs_misses s))).
  (** stats.rs:24-26 *)
  Definition average_ms (count micros : N) : f64 :=
    if 0 <? count then f_div (f_div (f_of_Z (Z.of_N micros)) (f_of_Z (Z.of_N count))) (f_of_Z 1000) else f_zero.
  Definition version : str := lit "0.5.3". (* Cargo.toml *)
  Definition jnat (n : N) : json := JNum (JPos n).
  (** eval.rs:132-160, types.rs:126-143 *)
  Definition health_json (count micros : N) (s : cache_stats) : str :=
    json_print (JObj [(lit "status", JStr (lit "healthy")); (lit "version", JStr version);
                      (lit "requests_processed", jnat count); (lit "avg_execution_time_ms", json_of_f64 (average_ms count micros));
                      (lit "cache_stats", JObj [(lit "hits", jnat (cs_hits s)); (lit "misses", jnat (cs_misses s));
                         (lit "hit_rate", json_of_f64 (hit_rate s)); (lit "entries", jnat (cs_entries s));
                         (lit "evictions", jnat (cs_evictions s)); (lit "total_saved_time_ms", json_of_f64 (cs_saved s))])]).
  Definition handle_health : prog :=
    act (fun w => (w, w_processed w)) (fun count =>
    act (fun w => (w, w_micros w)) (fun micros =>
    act (fun w => (w, c_stats (w_cache w))) (fun s => reply 200 (health_json count micros s)))).
  (** eval.rs:162-180 *)
  Definition handle_cache_clear (request : str) (admin : option str) : prog :=
    guarded (check_authentication request admin)
      (act (fun w => (set_cache (cache_clear (w_cache w)) w, tt)) (fun _ =>
       reply 200 (json_print (JObj [(lit "message", JStr (lit "Expression cache cleared successfully")); (lit "success", JBool true)])))).

  (** ** JavaScript functions (js_management.rs) *)
  Definition opt_text (o : option str) : json := match o with Some s => JStr s | None => JNull end.
  Definition opt_nat (o : option N) : json := match o with Some n => jnat n | None => JNull end.
  (** js_management.rs:438-451: quotes removed; a single quote panics *)
  Definition call_argument (a : str) : res value :=
    let a := trim a in
    if starts_with [34] a && ends_with [34] a
    then match a with
         | _ :: _ :: _ => Ok (VString (removelast (tl a)))
         | _ => Panic "slice index starts at 1 but ends at 0"
         end
    else if str_eqb a (lit "true") then Ok (VBoolean true)
    else if str_eqb a (lit "false") then Ok (VBoolean false)
    else match f_from_str a with
         | Some n => Ok (VNumber n)
         | None => Err (mkErr (lit "Cannot parse argument: " ++ a) None)
         end.
  (** js_management.rs:426-455 *)
  Definition parse_function_arguments (s : str) : res (list value) :=
    match trim s with [] => Ok [] | _ => mapM call_argument (split_char 44 s) end.
  (** js_management.rs:457-477 *)
  Fixpoint format_value_for_comparison (v : value) : str :=
    match v with
    | VNumber n => if f_eqb (f_fract n) f_zero then Z_to_str (f_to_i64 n) else f_display n
    | VString s | VJson s => s
    | VBoolean b => if b then lit "true" else lit "false"
    | VNull => lit "null"
    | VArray xs => lit "[" ++ join (lit ", ") (map format_value_for_comparison xs) ++ lit "]"
    | VCurrency c => f_display c
    | VDateTime t => Z_to_str t
    end.
  (** js_management.rs:387-424; [Ok] and [Err] texts *)
  Definition test_js_function_example (f : js_function) (example : str) : res (str + str) :=
    match split_once (lit " returns ") example with
    | None => Ok (inr (lit "Invalid example format: expected 'FUNCTION(args) returns result'"))
    | Some (call, expected) =>
        let expected := trim expected in
        match match strip_prefix (js_name f ++ lit "(") (trim call) with Some s => strip_suffix (lit ")") s | None => None end with
        | None => Ok (inr (lit "Invalid example format: cannot parse function call"))
        | Some args =>
            match parse_function_arguments args with
            | Panic p => Panic p
            | Err e => Ok (inr (e_msg e))
            | Ok vs =>
                match js_execute (js_code f) vs with
                | Panic p => Panic p
                | Err e => Ok (inr (lit "Function execution failed: " ++ show_error e))
                | Ok v =>
                    let got := format_value_for_comparison v in
                    if str_eqb got expected || str_eqb (34 :: got ++ [34]) expected
                    then Ok (inl (lit "Expected: " ++ expected ++ lit ", Got: " ++ got ++ [32; 10003]))
                    else Ok (inr (lit "Expected: " ++ expected ++ lit ", Got: " ++ got))
                end
            end
        end
    end.
  (** types.rs:224-231 *)
  Record validation := mkVal { v_passed : bool; v_result : option str; v_error : option str }.
  (** js_management.rs:341-385; syntax and structure are valid in every result *)
  Definition validate_js_function (code : str) : res (js_function * validation) :=
    match parse_js_function code with
    | Panic p => Panic p
    | Err e => Err (mkErr (lit "Syntax/structure validation failed: " ++ show_error e) None)
    | Ok f =>
        match js_example f with
        | None => Ok (f, mkVal true (Some (lit "No example provided to test")) None)
        | Some ex =>
            r <- test_js_function_example f ex ;;
            Ok (f, match r with inl t => mkVal true (Some t) None | inr t => mkVal false None (Some t) end)
        end
    end.
  Definition validation_json (v : validation) : json :=
    JObj [(lit "syntax_valid", JBool true); (lit "structure_valid", JBool true); (lit "example_test_passed", JBool (v_passed v));
          (lit "example_result", opt_text (v_result v)); (lit "example_error", opt_text (v_error v))].
  (** types.rs:154-161, 172-179 *)
  Definition js_answer (success : bool) (message : str) (name : option str) (v : option validation) (error : option str) : str :=
    json_print (JObj [(lit "success", JBool success); (lit "message", JStr message); (lit "function_name", opt_text name);
                      (lit "validation_results", match v with Some v => validation_json v | None => JNull end); (lit "error", opt_text error)]).

  (** types.rs:145-152, 163-170 *)
  Record js_request := mkJsReq { j_filename : str; j_code : option str; j_content : option str }.
  Definition js_fields (f c t : option json) : option js_request :=
    match f with
    | Some (JStr f) =>
        match json_optional json_text c, json_optional json_text t with
        | Some c, Some t => Some (mkJsReq f c t)
        | _, _ => None
        end
    | _ => None
    end.
  Definition js_request_of (j : json) : option js_request :=
    match j with
    | JObj kvs => js_fields (mget (lit "filename") kvs) (mget (lit "js_code") kvs) (mget (lit "file_content") kvs)
    | JArr [f; c; t] => js_fields (Some f) (Some c) (Some t)
    | _ => None
    end.
  (** js_management.rs:690-697 *)
  Fixpoint content_type_in (ls : list str) : option str :=
    match ls with
    | [] => None
    | l :: r => if starts_with (lit "content-type:") (to_lowercase l)
                then match split_char 58 l with _ :: v :: _ => Some (trim v) | _ => None end
                else content_type_in r
    end.
  (** js_management.rs:699-709 *)
  Definition extract_request_body (request : str) : option str :=
    match split_once crlf2 request with
    | Some (_, b) => Some b
    | None => match split_once [10; 10] request with Some (_, b) => Some b | None => None end
    end.
  (** js_management.rs:606-646, 648-688 (the two are the same) *)
  Definition parse_upload_request (request : str) : res js_request :=
    let ct := match content_type_in (lines request) with Some t => t | None => [] end in
    if is_multipart ct
    then boundary <- ok_or (extract_boundary ct) (err "Missing boundary in multipart Content-Type") ;;
         body <- ok_or (extract_request_body request) (err "Could not find request body separator") ;;
         fields <- parse_multipart_data body boundary ;;
         filename <- ok_or (option_map fd_content (mget (lit "filename") fields)) (err "Missing 'filename' field in multipart data") ;;
         match mget (lit "js_code") fields with
         | Some f => Ok (mkJsReq filename (Some (fd_content f)) None)
         | None =>
             match mget (lit "file") fields with
             | Some (mkField _ (Some _) _ content) => Ok (mkJsReq filename None (Some content))
             | _ => Err (err "Either 'js_code' text field or 'file' upload field must be provided")
             end
         end
    else match parse_json_body upload_names js_request_of request with inl r => Ok r | inr e => Err (mkErr e None) end.

  Definition js_path (filename : str) : str := resolve (path_join h_hooks filename).
  (** js_management.rs:479-496; [Some] is the error *)
  Definition save_js_file (filename code : str) (fs : files) : files * option str :=
    match h_mkdir_fails with
    | Some e => (fs, Some (lit "Failed to create hooks directory: " ++ e))
    | None =>
        match h_write_fails (js_path filename) with
        | Some e => (fs, Some (lit "Failed to write JS file: " ++ e))
        | None => (minsert (js_path filename) code fs, None)
        end
    end.
  (** js_management.rs:498-514 *)
  Definition delete_js_file (filename : str) (fs : files) : files * option str :=
    if mhas (js_path filename) fs
    then match h_remove_fails (js_path filename) with
         | Some e => (fs, Some (lit "Failed to delete JS file: " ++ e))
         | None => (mremove (js_path filename) fs, None)
         end
    else (fs, Some (lit "File '" ++ filename ++ lit "' does not exist")).
  Definition refused (message error : string) : str := js_answer false (lit message) None None (Some (lit error)).
  Definition js_source (r : js_request) : option str := match j_code r with Some c => Some c | None => j_content r end.
  (** the common end of upload and update (js_management.rs:118-153, 262-299) *)
  Definition store_js (verb verb_failed : string) (filename code : str) : prog :=
    unless_panic (validate_js_function code)
      (fun fv => let (f, v) := fv in
         act (fun w => let (fs, e) := save_js_file filename code (w_files w) in (set_files fs w, e)) (fun e =>
         match e with
         | None => reply 200 (js_answer true (lit "JavaScript function '" ++ js_name f ++ lit "' " ++ lit verb) (Some (js_name f)) (Some v) None)
         | Some e => reply 500 (js_answer false (lit "Validation passed but failed to " ++ lit verb_failed ++ lit " file") (Some (js_name f)) (Some v) (Some e))
         end))
      (fun e => reply 400 (js_answer false (lit "JavaScript function validation failed") None None (Some (e_msg e)))).
  (** js_management.rs:214-300 *)
  Definition handle_upload_js (request : str) (admin : option str) : prog :=
    guarded (check_admin_authentication request admin)
      (unless_panic (parse_upload_request request)
        (fun r => if ends_with (lit ".js") (j_filename r)
                  then match js_source r with
                       | Some code => store_js "uploaded and validated successfully" "save" (j_filename r) code
                       | None => reply 400 (refused "Either js_code or file_content must be provided" "Missing JS content")
                       end
                  else reply 400 (refused "Filename must end with .js extension" "Invalid file extension"))
        (fun e => send_error 400 (e_msg e))).
  (** js_management.rs:49-154 *)
  Definition handle_update_js (request : str) (admin : option str) : prog :=
    guarded (check_admin_authentication request admin)
      (unless_panic (parse_upload_request request)
        (fun r => if ends_with (lit ".js") (j_filename r)
                  then act (fun w => (w, mhas (js_path (j_filename r)) (w_files w))) (fun there : bool =>
                       if there
                       then match js_source r with
                            | Some code => store_js "updated successfully" "update" (j_filename r) code
                            | None => reply 400 (refused "Either js_code or file_content must be provided" "Missing JS content")
                            end
                       else reply 404 (js_answer false (lit "File '" ++ j_filename r ++ lit "' does not exist") None None (Some (lit "File not found"))))
                  else reply 400 (refused "Filename must end with .js extension" "Invalid file extension"))
        (fun e => send_error 400 (e_msg e))).
  (** types.rs:181-191 *)
  Definition delete_request_of (j : json) : option str :=
    match j with
    | JObj kvs => match mget (lit "filename") kvs with Some (JStr f) => Some f | _ => None end
    | JArr [JStr f] => Some f
    | _ => None
    end.
  Definition delete_answer (success : bool) (message : str) (error : option str) : str :=
    json_print (JObj [(lit "success", JBool success); (lit "message", JStr message); (lit "error", opt_text error)]).
  (** js_management.rs:156-212 *)
  Definition handle_delete_js (request : str) (admin : option str) : prog :=
    guarded (check_admin_authentication request admin)
      match parse_json_body delete_names delete_request_of request with
      | inr e => send_error 400 e
      | inl name =>
          if ends_with (lit ".js") name
          then act (fun w => let (fs, e) := delete_js_file name (w_files w) in (set_files fs w, e)) (fun e =>
               match e with
               | None => reply 200 (delete_answer true (lit "JavaScript function file '" ++ name ++ lit "' deleted successfully") None)
               | Some e => reply 500 (delete_answer false (lit "Failed to delete file '" ++ name ++ lit "'") (Some e))
               end)
          else reply 400 (delete_answer false (lit "Filename must end with .js extension") (Some (lit "Invalid file extension")))
      end.
  (** types.rs:193-205, js_management.rs:556-601: one file *)
  Definition js_info (rel content : str) : json :=
    JObj (match parse_js_function content with
          | Ok f => [(lit "filename", JStr rel); (lit "function_name", JStr (js_name f)); (lit "description", opt_text (js_description f));
                     (lit "example", opt_text (js_example f)); (lit "min_args", jnat (js_min f)); (lit "max_args", opt_nat (js_max f));
                     (lit "file_size", jnat (byte_len content)); (lit "last_modified", JStr (h_modified rel));
                     (lit "is_valid", JBool true); (lit "validation_error", JNull)]
          | Err e => [(lit "filename", JStr rel); (lit "function_name", JNull); (lit "description", JNull);
                     (lit "example", JNull); (lit "min_args", JNull); (lit "max_args", JNull);
                     (lit "file_size", jnat (byte_len content)); (lit "last_modified", JStr (h_modified rel));
                     (lit "is_valid", JBool false); (lit "validation_error", JStr (show_error e))]
          | Panic _ => []
          end).
  (** [sort_by] the file name: stable *)
  Fixpoint insert_file (x : str * str) (xs : list (str * str)) : list (str * str) :=
    match xs with
    | [] => [x]
    | y :: r => match str_cmp (fst x) (fst y) with Gt => y :: insert_file x r | _ => x :: xs end
    end.
  Definition sort_files (xs : list (str * str)) : list (str * str) := fold_right insert_file [] xs.
  (** js_management.rs:516-604 *)
  Definition list_js_functions (fs : files) : list json + str :=
    match h_list_fails with
    | Some e => inr (lit "Failed to read directory: " ++ e)
    | None => inl (map (fun pc => js_info (fst pc) (snd pc)) (sort_files (hook_files fs)))
    end.
  Definition list_answer (success : bool) (fs : list json) (error : option str) : str :=
    json_print (JObj [(lit "success", JBool success); (lit "functions", JArr fs); (lit "total_count", jnat (N.of_nat (length fs))); (lit "error", opt_text error)]).
  (** js_management.rs:12-47 *)
  Definition handle_list_js (request : str) (admin : option str) : prog :=
    guarded (check_admin_authentication request admin)
      (act (fun w => (w, list_js_functions (w_files w))) (fun r =>
       match r with
       | inl fs => reply 200 (list_answer true fs None)
       | inr e => reply 500 (list_answer false [] (Some e))
       end)).
  Definition reload_answer (success : bool) (message : str) (count : N) (error : option str) : str :=
    json_print (JObj [(lit "success", JBool success); (lit "message", JStr message); (lit "functions_loaded", jnat count); (lit "error", opt_text error)]).
  (** js_plugin.rs:339-349: each registration takes the lock *)
  Fixpoint register_all (fs : list js_function) (ok : prog) (bad : error -> prog) : prog :=
    match fs with
    | [] => ok
    | f :: r => act (fun w => match reg_register (w_registry w) (js_custom f) with
                              | Ok reg => (set_registry reg w, None)
                              | Err e => (w, Some e)
                              | Panic p => (w, Some (err p))
                              end)
                    (fun e => match e with None => register_all r ok bad | Some e => bad e end)
    end.
  Definition auto_register (ok : N -> prog) (bad : error -> prog) : prog :=
    act (fun w => (w, load_functions (w_files w))) (fun r =>
    unless_panic r (fun fs => register_all fs (ok (N.of_nat (length fs))) bad) bad).
  (** js_management.rs:302-339 *)
  Definition handle_reload_hooks (request : str) (admin : option str) : prog :=
    guarded (check_admin_authentication request admin)
      (auto_register
        (fun n => reply 200 (reload_answer true (lit "Successfully reloaded " ++ N_to_str n ++ lit " JavaScript function(s)") n None))
        (fun e => reply 500 (reload_answer false (lit "Failed to reload JavaScript functions") 0 (Some (show_error e))))).

  (** ** Routing (sk_http_server.rs:23-111) *)
  Definition is_route (method path : str) (m p : string) : bool := str_eqb method (lit m) && str_eqb path (lit p).
  Definition route (token admin : option str) (request : str) : prog :=
    match lines request with
    | [] => Reply None
    | l :: _ =>
        match split_whitespace l with
        | method :: path :: _ :: _ =>
            let path := hd [] (split_char 63 path) in
            if is_route method path "GET" "/health" then handle_health
            else if is_route method path "GET" "/" then Reply (Some (http_response 200 (lit "text/html") h_root))
            else if is_route method path "GET" "/docs" then Reply (Some (http_response 200 (lit "text/html") h_docs))
            else if is_route method path "GET" "/openapi.yml" then Reply (Some (http_response 200 (lit "application/x-yaml") h_openapi))
            else if is_route method path "POST" "/eval" then handle_eval_post request token
            else if is_route method path "GET" "/eval" then handle_eval_get request token
            else if is_route method path "POST" "/upload-js" then handle_upload_js request admin
            else if is_route method path "PUT" "/update-js" then handle_update_js request admin
            else if is_route method path "DELETE" "/delete-js" then handle_delete_js request admin
            else if is_route method path "GET" "/list-js" then handle_list_js request admin
            else if is_route method path "POST" "/reload-hooks" then handle_reload_hooks request admin
            else if is_route method path "DELETE" "/cache" then handle_cache_clear request admin
            else if str_eqb method (lit "OPTIONS") then Reply (Some preflight)
            else send_error 404 (lit "Not Found")
        | _ => send_error 400 (lit "Bad Request")
        end
    end.
  (** sk_http_server.rs:33-46 *)
  Definition read_error (e : io_error) : str :=
    match io_kind_of e with
    | InvalidData => if contains (lit "too large") (io_text e) then lit "413 Payload Too Large" else lit "400 Bad Request"
    | TimedOut => lit "408 Request Timeout"
    | OtherIo => lit "500 Internal Server Error"
    end.
  (** sk_http_server.rs:23-88, once the request has been read (or not) *)
  Definition handle_http_request (token admin : option str) (r : str + io_error) : prog :=
    match r with
    | inr e => send_error 400 (read_error e)
    | inl request => route token admin request
    end.
End Server.
