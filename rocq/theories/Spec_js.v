(** Vocabulary for functions written in JavaScript and their files. *)
From Coq Require Import String List ZArith NArith Bool Permutation.
From Verif Require Import Base F64 Utf8 Syntax Ext Json Struct Lines JsEngine Host Registry JsPlugin HttpServer Spec Spec_cross Spec_syntax Spec_text Spec_json Spec_http Spec_args Spec_registry.
Import ListNotations.
Local Open Scope N_scope.

(** ** Annotations *)
(** the line reads "// @key: value", with white space around *)
Definition annotates (key : string) (l value : str) : Prop :=
  exists rest, trimmed l (lit "// @" ++ lit key ++ lit ":" ++ rest) /\ trimmed rest value.
(** the value of the last line that has the annotation, if any *)
Inductive last_annotation (key : string) (ls : list str) : option str -> Prop :=
| annotated : forall before l after value, ls = before ++ l :: after -> annotates key l value -> Forall (fun l => forall v, ~ annotates key l v) after ->
    last_annotation key ls (Some value)
| not_annotated : Forall (fun l => forall v, ~ annotates key l v) ls -> last_annotation key ls None.
(** what the source says about the function: the last annotation of each kind *)
Record says (source : str) (f : js_function) : Prop := {
  says_code : js_code f = source;
  says_name : last_annotation "name" (lines source) (Some (js_name f));
  says_description : last_annotation "description" (lines source) (js_description f);
  says_example : last_annotation "example" (lines source) (js_example f);
  says_min : exists o, last_annotation "min_args" (lines source) o /\ match o with None => js_min f = 1 | Some t => count_text t (js_min f) end;
  says_max : exists o, last_annotation "max_args" (lines source) o /\ match js_max f with None => o = None \/ o = Some (lit "unlimited") | Some n => exists t, o = Some t /\ count_text t n end }.
(** all its numbers of arguments are numbers *)
Definition bounds_read (source : str) : Prop :=
  Forall (fun l => (forall v, annotates "min_args" l v -> exists n, count_text v n) /\ (forall v, annotates "max_args" l v -> v = lit "unlimited" \/ exists n, count_text v n)) (lines source).

(** ** Examples *)
(** the example reads "NAME(args) returns expected" *)
Definition example_of (f : js_function) (args expected : str) : Prop :=
  exists ex call rest, js_example f = Some ex /\ ex = call ++ lit " returns " ++ rest /\ (forall a b, ex = a ++ lit " returns " ++ b -> (length call <= length a)%nat)
    /\ trimmed call (js_name f ++ lit "(" ++ args ++ lit ")") /\ trimmed rest expected.
(** the pieces between the commas *)
Definition comma_pieces (args : str) (ps : list str) : Prop := ps <> [] /\ args = join [44] ps /\ Forall (fun p => ~ In 44 p) ps.
Inductive example_argument : str -> value -> Prop :=
| text_in_quotes : forall p s, trimmed p ([34] ++ s ++ [34]) -> example_argument p (VString s)
| true_word : forall p, trimmed p (lit "true") -> example_argument p (VBoolean true)
| false_word : forall p, trimmed p (lit "false") -> example_argument p (VBoolean false)
| number_word : forall p core x, trimmed p core -> float_text core x -> example_argument p (VNumber x).
Inductive example_arguments (args : str) : list value -> Prop :=
| no_arguments : white args -> example_arguments args []
| some_arguments : forall ps vs, ~ white args -> comma_pieces args ps -> Forall2 example_argument ps vs -> example_arguments args vs.
(** how a result is written in an example *)
Inductive result_text : value -> str -> Prop :=
| text_result : forall s, result_text (VString s) s
| json_result : forall s, result_text (VJson s) s
| true_result : result_text (VBoolean true) (lit "true")
| false_result : result_text (VBoolean false) (lit "false")
| null_result : result_text VNull (lit "null")
| whole_result : forall z t, (Z.abs z < 2 ^ 53)%Z -> integer_written z t -> result_text (num z) t
| array_result : forall vs ts, Forall2 result_text vs ts -> result_text (VArray vs) (lit "[" ++ join (lit ", ") ts ++ lit "]").

(** ** Files *)
(** [a] comes before [b]: it is the beginning of it, or its character is the smaller one where they first differ *)
Definition alphabetical (a b : str) : Prop :=
  exists p, (a = p /\ exists c r, b = p ++ c :: r) \/ exists c d r s, a = p ++ c :: r /\ b = p ++ d :: s /\ c < d.
Section Files.
  Context {X : Ext} {H : Host}.
  (** walking through a path from one directory to another, both by the names that lead to them *)
  Inductive walks : list str -> list str -> list str -> Prop :=
  | arrived : forall d, walks d [] d
  | stays : forall d c r e, In c [[]; lit "."] -> walks d r e -> walks d (c :: r) e
  | leaves_root : forall r e, walks [] r e -> walks [] (lit ".." :: r) e
  | leaves : forall d x r e, walks d r e -> walks (d ++ [x]) (lit ".." :: r) e
  | enters : forall d c r e, ~ In c [[]; lit "."; lit ".."] -> walks (d ++ [c]) r e -> walks d (c :: r) e.
  (** the absolute path that [p] leads to, from the working directory *)
  Definition leads (p absolute : str) : Prop :=
    exists cs e, cs <> [] /\ p = join [47] cs /\ Forall (fun c => ~ In 47 c) cs /\ walks (if hd 0 p =? 47 then [] else h_cwd) cs e /\ absolute = concat (map (fun c => 47 :: c) e).
  (** a name, or names of directories and a name, separated by slashes *)
  Definition file_name (s : str) : Prop :=
    exists cs, cs <> [] /\ s = join [47] cs /\ Forall (fun c => ~ In c [[]; lit "."; lit ".."] /\ ~ In 47 c) cs.
  (** where the file [name] of the hooks directory is *)
  Definition hook_path (name path : str) : Prop := exists dir, leads h_hooks dir /\ path = dir ++ [47] ++ name.
  (** a name that ends with ".js" and has something in front of that *)
  Definition js_file (name : str) : Prop := exists a c, name = a ++ [c] ++ lit ".js" /\ c <> 47.
  (** the JavaScript files of the hooks directory *)
  Definition hook_file (fs : files) (name source : str) : Prop := js_file name /\ exists path, hook_path name path /\ mget path fs = Some source.
  (** no function returns an array that contains itself *)
  Definition js_returns : Prop := forall code args r, h_js code args = JsReturned r -> ~ endless r.
  (** the disk accepts what is written *)
  Definition writable : Prop := h_mkdir_fails = None /\ forall p, h_write_fails p = None.
  Definition readable : Prop := h_mkdir_fails = None /\ h_list_fails = None /\ forall l, Permutation l (h_dir_order l).
  (** an example with an argument that is one quotation mark *)
  Definition lone_quote (f : js_function) : Prop := exists args expected ps p, example_of f args expected /\ comma_pieces args ps /\ In p ps /\ trimmed p [34].
  (** the request names a file *)
  Definition names_file (text name : str) : Prop :=
    exists ls body kvs, text = request ls body /\ Forall a_line ls /\ ls <> [] /\ struct_parse delete_names body = Some (JObj kvs) /\ mget (lit "filename") kvs = Some (JStr name).
  (** each file is there once *)
  Definition distinct_files (w : world) : Prop := NoDup (map fst (w_files w)).
  (** whether the example is reported as passed *)
  Record report (f : js_function) (passed : bool) : Prop := {
    report_none : js_example f = None -> passed = true;
    report_result : forall args expected vs v t, example_of f args expected -> example_arguments args vs -> js_gives (js_code f) vs v -> result_text v t ->
      (passed = true <-> expected = t \/ expected = [34] ++ t ++ [34]);
    report_error : forall args expected vs, example_of f args expected -> example_arguments args vs -> (forall v, ~ js_gives (js_code f) vs v) -> passed = false;
    report_arguments : forall args expected, example_of f args expected -> (forall vs, ~ example_arguments args vs) -> passed = false;
    report_form : js_example f <> None -> (forall args expected, ~ example_of f args expected) -> passed = false }.
  (** one answer to one request, no other being served *)
  Definition serves (token admin : option str) (text : str) (w w' : world) (answer : str) : Prop :=
    run (handle_http_request token admin (inl text)) w = (w', Some answer).
  (** the answer has this status, and this JSON object in its body *)
  Definition answers (status : string) (answer : str) (kvs : list (str * json)) : Prop :=
    status_is status answer /\ exists front, answer = front ++ crlf ++ crlf ++ json_print (JObj kvs).
  Definition has_entry (kvs : list (str * json)) (key : string) (j : json) : Prop := mget (lit key) kvs = Some j.
  Definition optional_text (o : option str) : json := match o with Some s => JStr s | None => JNull end.
  Definition optional_count (o : option N) : json := match o with Some n => JNum (JPos n) | None => JNull end.
  (** the answer says that the function is stored, and whether its example passed *)
  Definition stored_answer (answer : str) (f : js_function) : Prop :=
    exists kvs v b, answers "200" answer kvs /\ has_entry kvs "success" (JBool true) /\ has_entry kvs "function_name" (JStr (js_name f)) /\ has_entry kvs "validation_results" (JObj v)
      /\ has_entry v "example_test_passed" (JBool b) /\ report f b.
  (** what a listing says about a file *)
  Inductive describes (name source : str) : json -> Prop :=
  | describes_function : forall f kvs, says source f -> bounds_read source ->
      Forall (fun e => has_entry kvs (fst e) (snd e)) [("filename"%string, JStr name); ("function_name"%string, JStr (js_name f)); ("description"%string, optional_text (js_description f));
        ("example"%string, optional_text (js_example f)); ("min_args"%string, optional_count (Some (js_min f))); ("max_args"%string, optional_count (js_max f));
        ("file_size"%string, optional_count (Some (N.of_nat (length (encode source))))); ("is_valid"%string, JBool true); ("validation_error"%string, JNull)] ->
      describes name source (JObj kvs)
  | describes_fault : forall kvs e, (forall f, ~ (says source f /\ bounds_read source)) ->
      Forall (fun e => has_entry kvs (fst e) (snd e)) [("filename"%string, JStr name); ("function_name"%string, JNull);
        ("file_size"%string, optional_count (Some (N.of_nat (length (encode source))))); ("is_valid"%string, JBool false); ("validation_error"%string, JStr e)] ->
      describes name source (JObj kvs).
  (** the functions the loader finds: those of the JavaScript files that can be read *)
  Definition found (fs : files) (f : js_function) : Prop := exists name source, hook_file fs name source /\ says source f /\ bounds_read source.
  (** [g] is what the registry runs for the function [f] *)
  Definition runs_as (g : custom_fn) (f : js_function) : Prop :=
    cf_name g = js_name f /\ cf_min g = js_min f /\ cf_max g = js_max f /\ forall vs, cf_exec g vs = js_execute (js_code f) vs.
  (** a function that may be registered *)
  Definition registrable (f : js_function) : Prop := to_uppercase (js_name f) <> [] /\ forall m, js_max f = Some m -> js_min f <= m.
End Files.

(** ** Examples *)
Definition double_source : str := join [10] [lit "// @name: DOUBLE"; lit "// @max_args: 1"; lit "// @example: DOUBLE(4) returns 8"; lit "return 2 * args[0];"].
Definition triple_source : str := join [10] [lit "// @name: TRIPLE"; lit "return 3 * args[0];"].
Definition upload_of (name source : str) : str :=
  request [lit "POST /upload-js HTTP/1.1"; lit "Content-Type: application/json"] (@json_print example_ext (JObj [(lit "filename", JStr name); (lit "js_code", JStr source)])).
Definition delete_of (name : str) : str := request [lit "DELETE /delete-js HTTP/1.1"] (@json_print example_ext (JObj [(lit "filename", JStr name)])).
Definition reload_request : str := to "POST /reload-hooks HTTP/1.1" "".
Definition list_request : str := to "GET /list-js HTTP/1.1" "".
