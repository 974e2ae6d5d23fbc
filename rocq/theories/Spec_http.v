(** Vocabulary for the HTTP server. *)
From Coq Require Import String List ZArith NArith Bool Permutation.
From Verif Require Import JsEngine Base F64 Syntax Utf8 Ext Json Registry Methods Api Lines Host HttpRead HttpAuth HttpCache HttpServer HttpThreads Spec Spec_syntax.
Import ListNotations.
Local Open Scope N_scope.

(** Facts about Unicode's lower-case table: no character outside ASCII has an
    ASCII character in its lower case, except I with dot above and the Kelvin sign. *)
Definition unicode (X : Ext) : Prop :=
  x_lower_char 304 = [105; 775] /\ x_lower_char 8490 = [107]
  /\ forall c, 128 <= c -> c <> 304 -> c <> 8490 -> x_lower_char c <> [] /\ Forall (fun d => 128 <= d) (x_lower_char c).

Definition white (s : str) : Prop := Forall (fun c => is_whitespace c = true) s.
(** no white space at either end *)
Definition unspaced (s : str) : Prop :=
  (forall c r, s = c :: r -> is_whitespace c = false) /\ (forall r c, s = r ++ [c] -> is_whitespace c = false).
(** [core] is [s] without the white space around it *)
Definition trimmed (s core : str) : Prop := exists w1 w2, s = w1 ++ core ++ w2 /\ white w1 /\ white w2 /\ unspaced core.
(** [l] reads "name:value", the name in any letter case *)
Definition is_header (name : string) (l value : str) : Prop :=
  exists n, l = n ++ 58 :: value /\ map lower_ascii n = lit name.
Definition not_header (name : string) (l : str) : Prop := forall value, ~ is_header name l value.
(** a line of a request: not empty, no line break in it *)
Definition a_line (l : str) : Prop := l <> [] /\ ~ In 13 l /\ ~ In 10 l.
(** the limit for a request, headers and body together *)
Definition one_megabyte : N := 1024 * 1024.
Definition crlf : str := [13; 10].
(** a request: its lines (the request line and the headers), an empty line, its body *)
Definition request (ls : list str) (body : str) : str := join crlf ls ++ crlf ++ crlf ++ body.
(** the lines announce a body of [n] bytes: the first Content-Length line
    holds the number [n], or there is no such line and [n] is 0 *)
Definition announces (ls : list str) (n : N) : Prop :=
  (exists before l after value w1 ds w2, ls = before ++ l :: after /\ Forall (not_header "content-length") before
     /\ is_header "content-length" l value /\ value = w1 ++ ds ++ w2 /\ white w1 /\ white w2 /\ digits ds /\ digits_value ds = n)
  \/ (Forall (not_header "content-length") ls /\ n = 0).

(** a connection: no read but the last returns nothing *)
Definition connection (s : stream) : Prop := Forall (fun p => p <> []) (s_pieces s).
Definition sent (s : stream) : list N := concat (s_pieces s).
Section Threads.
  Context {X : Ext} {H : Host}.
  (** the buffers of a thread that has read these requests *)
  Definition buffers_after (earlier : list stream) : buffers :=
    fold_left (fun p s => snd (read_complete_http_request p s)) earlier [].
  (** what such a thread reads next *)
  Definition reads_next (earlier : list stream) (s : stream) : str + io_error :=
    fst (read_complete_http_request (buffers_after earlier) s).
End Threads.

(** ** Requests by their first line *)
Definition spaceless (s : str) : Prop := Forall (fun c => is_whitespace c = false) s.
(** the request asks for path [p] by method [m]; [q] is empty or starts with "?" *)
Definition asks (m p : string) (q : str) (text : str) : Prop :=
  (exists version rest, text = lit m ++ 32 :: (lit p ++ q) ++ 32 :: version ++ crlf ++ rest /\ spaceless version /\ version <> [])
  /\ spaceless q /\ (q = [] \/ hd 0 q = 63).

(** ** Credentials *)
(** the value of an Authorization header: a token, or "Bearer " (any letter case) and a token *)
Definition credential (core tok : str) : Prop :=
  (exists b rest, core = b ++ rest /\ map lower_ascii b = lit "bearer " /\ trimmed rest tok)
  \/ ((forall b rest, core = b ++ rest -> map lower_ascii b <> lit "bearer ") /\ tok = core).
Definition no_authorization (l : str) : Prop := forall t, trimmed l t -> not_header "authorization" t.
(** the token a request supplies: that of its first Authorization line, empty without one *)
Definition supplies (text tok : str) : Prop :=
  (exists before l after t value core, lines text = before ++ l :: after /\ Forall no_authorization before
     /\ trimmed l t /\ is_header "authorization" t value /\ trimmed value core /\ credential core tok)
  \/ (Forall no_authorization (lines text) /\ tok = []).
(** the requests protected by the token, and those protected by the administration token *)
Definition eval_endpoints : list (string * string) := [("POST", "/eval"); ("GET", "/eval")]%string.
Definition admin_endpoints : list (string * string) :=
  [("POST", "/upload-js"); ("PUT", "/update-js"); ("DELETE", "/delete-js"); ("GET", "/list-js"); ("POST", "/reload-hooks"); ("DELETE", "/cache")]%string.
Definition public_endpoints : list (string * string) :=
  [("GET", "/health"); ("GET", "/"); ("GET", "/docs"); ("GET", "/openapi.yml")]%string.
(** an HTTP answer with this status *)
Definition status_is (status : string) (text : str) : Prop := exists rest, text = lit "HTTP/1.1 " ++ lit status ++ 32 :: rest.

(** ** What a thread may do to what the threads share *)
(** every step of the program, from whatever the other threads left, changes the shared state within [G] *)
Inductive within (G : world -> world -> Prop) : prog -> Prop :=
| within_reply r : within G (Reply r)
| within_act f : (forall w, G w (fst (f w))) -> (forall w, within G (snd (f w))) -> within G (Act f).
Definition unchanged (w w' : world) : Prop := w' = w.
(** functions and files as before *)
Definition keeps_functions (w w' : world) : Prop := w_registry w' = w_registry w /\ w_files w' = w_files w.
(** nothing but the file at this path is different *)
Definition changes_file (path : str) (w w' : world) : Prop :=
  w_cache w' = w_cache w /\ w_registry w' = w_registry w /\ w_counter w' = w_counter w /\ w_processed w' = w_processed w /\ w_micros w' = w_micros w
  /\ forall p, p <> path -> mget p (w_files w') = mget p (w_files w).
(** nothing but the functions is different; the functions under names the loader did not find are as before *)
Definition changes_functions (w w' : world) : Prop :=
  w_cache w' = w_cache w /\ w_counter w' = w_counter w /\ w_processed w' = w_processed w /\ w_micros w' = w_micros w /\ w_files w' = w_files w.
(** nothing but the result cache is different *)
Definition changes_cache (w w' : world) : Prop :=
  w_registry w' = w_registry w /\ w_counter w' = w_counter w /\ w_processed w' = w_processed w /\ w_micros w' = w_micros w /\ w_files w' = w_files w.

Section Runs.
  Context {X : Ext} {H : Host}.
  (** the server, with these tokens, having started in [w] and gone through these events *)
  Definition serving (token admin : option str) (w : world) (evs : list event) : server := sv_run token admin (mkServer w []) evs.
  (** job [i] is the request [r], and what is left of its program is [p] *)
  Definition job_at (s : server) (i : nat) (r : str + io_error) (p : prog) : Prop := nth_error (sv_jobs s) i = Some (mkJob r p).
  Definition answered (s : server) (i : nat) (r : str + io_error) (answer : str) : Prop := job_at s i r (Reply (Some answer)).
End Runs.
Definition is_arrival (ev : event) : bool := match ev with Arrive _ => true | Move _ => false end.
(** how many requests arrive in these events *)
Definition arrivals (evs : list event) : N := N.of_nat (length (filter is_arrival evs)).
(** the text ends with this request number *)
Definition ends_with_id (n : N) (text : str) : Prop := exists front ds, text = front ++ lit """request_id"":" ++ ds ++ lit "}" /\ digits ds /\ digits_value ds = n.
Section Evals.
  Context {X : Ext} {H : Host}.
  (** a request to evaluate: by the first three words of its first line *)
  Definition is_eval (r : str + io_error) : Prop :=
    exists text l ls m p q v more, r = inl text /\ lines text = l :: ls /\ split_whitespace l = lit m :: (lit p ++ q) :: v :: more
      /\ (q = [] \/ hd 0 q = 63) /\ In (m, p) eval_endpoints.
  (** job [i] was a request to evaluate, and its answer carries the number [n] *)
  Definition evaluated (s : server) (i : nat) (n : N) : Prop := exists r t, is_eval r /\ answered s i r t /\ ends_with_id n t.
  Definition all_done (s : server) : Prop := forall i r p, job_at s i r p -> exists a, p = Reply a.
  (** the statistics as they are when the server starts *)
  Definition started (w : world) : Prop := w_counter w = 0 /\ w_processed w = 0 /\ w_micros w = 0.
  Definition total (l : list N) : N := fold_right N.add 0 l.
End Evals.

(** every number in the value is a double *)
Fixpoint doubles (v : value) : Prop :=
  match v with
  | VNumber n | VCurrency n => representable n
  | VArray xs => (fix all xs := match xs with [] => True | x :: r => doubles x /\ all r end) xs
  | _ => True
  end.
(** what may follow the debug text of a value *)
Definition stop (r : str) : Prop := r = [] \/ exists c r', r = c :: r' /\ In c [44; 93; 41].

(** ** Results *)
Section Cached.
  Context {X : Ext} {H : Host}.
  (** every map is iterated over in some order *)
  Definition orders : Prop := forall id kvs, Permutation kvs (h_order id kvs).
  (** the expression could not be mistaken for an expression followed by variables *)
  Definition unmistakable (expression : str) : Prop := forall a b c, expression <> a ++ lit "|" ++ b ++ lit "arguments:" ++ c.
  (** the expression has statements *)
  Definition has_statements (expression : str) : Prop := exists a b, expression = a ++ lit ";" ++ b \/ expression = a ++ lit ":=" ++ b.
  (** what evaluating the expression gives: custom functions can be used, unless it has statements *)
  Definition gives (reg : registry) (expression : str) (vars : env) (r : res value) : Prop :=
    (has_statements expression /\ r = evaluate_with_assignments expression vars)
    \/ (~ has_statements expression /\ r = evaluate_with_custom reg expression vars).
  (** the functions at some moment of the run *)
  Definition registry_during (token admin : option str) (w : world) (evs : list event) (reg : registry) : Prop :=
    exists before after, evs = before ++ after /\ reg = w_registry (sv_world (serving token admin w before)).
  (** the request may have its expression evaluated *)
  Definition authorised (token : option str) (text : str) : Prop := match token with None => True | Some t => supplies text t end.
End Cached.

(** ** The result cache by itself *)
Inductive cache_op := Get (k : str) | Put (k : str) (e : entry) | Clear.
Definition cache_do (c : cache) (op : cache_op) : cache :=
  match op with Get k => snd (cache_get k c) | Put k e => cache_put k e c | Clear => cache_clear c end.
Definition cache_after (ops : list cache_op) : cache := fold_left cache_do ops new_cache.
Section Answers.
  Context {X : Ext} {H : Host}.
  (** a request to load the functions again: by the first three words of its first line *)
  Definition is_reload (text : str) : Prop :=
    exists l ls q v more, lines text = l :: ls /\ split_whitespace l = lit "POST" :: (lit "/reload-hooks" ++ q) :: v :: more /\ (q = [] \/ hd 0 q = 63).
End Answers.

(** ** Answers as HTTP *)
(** a response: a status line and headers, of which the first Content-Length
    gives the number of bytes of the body, an empty line, the body *)
Definition framed (answer : str) : Prop :=
  exists status reason headers body, let ls := (lit "HTTP/1.1 " ++ status ++ 32 :: reason) :: headers in
    answer = request ls body /\ digits status /\ Forall a_line ls /\ announces ls (byte_len body).
(** the words of the first line of a request *)
Definition first_words (text : str) (ws : list str) : Prop := exists l ls, lines text = l :: ls /\ split_whitespace l = ws.
Definition all_endpoints : list (string * string) := eval_endpoints ++ admin_endpoints ++ public_endpoints.

(** ** Examples *)
Definition example_host : Host :=
  Build_Host (fun _ => []) (fun _ kvs => kvs) (fun _ => f_zero) (fun n => n) (fun _ => f_zero) (fun _ => lit "bad")
    (fun code _ => JsReturned (JsText (to_units code))) (fun _ => lit "not Unicode") [] [] [] [lit "srv"] (lit "hooks") (fun fs => fs) (fun _ => None) (fun _ => None) None None (fun _ => []).
(** requests served one after the other, each to its end *)
Fixpoint one_by_one (i : nat) (texts : list str) : list event :=
  match texts with [] => [] | t :: r => Arrive (inl t) :: repeat (Move i) 8 ++ one_by_one (S i) r end.
Definition to (start : string) (body : string) : str := request [lit start] (lit body).
Definition mentions (part : string) (text : str) : Prop := exists a b, text = a ++ lit part ++ b.
(** the example server, without tokens, with no file in the hooks directory, after these requests *)
Definition example_run (texts : list str) : server := @serving example_ext example_host None None (first_world []) (one_by_one 0 texts).
