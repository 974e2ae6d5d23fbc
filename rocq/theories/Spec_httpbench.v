(** Vocabulary for the program that measures the HTTP server. *)
From Coq Require Import String List ZArith NArith Bool.
From Verif Require Import Base Utf8 Syntax Ext Json Host HttpServer HttpBench Spec Spec_syntax Spec_args Spec_http Spec_bench Spec_eval.
Import ListNotations.
Local Open Scope N_scope.

(** ** The command line *)
(** the options, with the numbers of connections, requests and first requests before and after them *)
Inductive settled : N * N * N -> list str -> N * N * N -> Prop :=
| settled_none : forall k, settled k [] k
| settled_connections : forall c n w o x m args k, In o [lit "-c"; lit "--concurrent"] -> count_text x m -> settled (m, n, w) args k -> settled (c, n, w) (o :: x :: args) k
| settled_requests : forall c n w o x m args k, In o [lit "-n"; lit "--requests"] -> count_text x m -> settled (c, m, w) args k -> settled (c, n, w) (o :: x :: args) k
| settled_warmup : forall c n w o x m args k, In o [lit "-w"; lit "--warmup"] -> count_text x m -> settled (c, n, m) args k -> settled (c, n, w) (o :: x :: args) k.
(** an address and options *)
Definition bench_command (args : list str) (c : bench_config) : Prop :=
  exists port options, args = (h_host c ++ lit ":" ++ port) :: options /\ ~ In 58 port /\ port_text port (h_port c)
    /\ settled (10, 100, 20) options (h_concurrent c, h_requests c, h_warmup c).

(** ** Requests *)
(** a name or address of a host *)
Definition host_name (host : str) : Prop := valid_str host /\ ~ In 123 host /\ ~ In 10 host /\ ~ In 13 host.
(** a text is a request as a server reads it, and this is what it asks for *)
Definition requests (text : str) (t : task) : Prop :=
  exists ls body, text = request ls body /\ ls <> [] /\ Forall a_line ls /\ announces ls (byte_len body) /\ valid_str text /\ wants text t.
(** an expression alone *)
Definition just (expression : str) (i : included) : task := mkTask expression None false i.
(** what is asked for in each test, and how often *)
Definition tests (requests warmup : N) : list (task * N) :=
  [(just (lit "2+2") nothing, if warmup <=? 10 then warmup else warmup / 10 * 10)]
  ++ map (fun e => (just (lit e) nothing, 10))
       ["2+2"; "10*5+3/2-1"; "2^10+sqrt(144)*3"; ":a:=10;:b:=20;:c:=:a*:b"; "range(1,50).sum()"; "[1,2,3,4,5,6,7,8,9,10].map(:x*2).filter(:x>10).sum()"]%string
  ++ map (fun _ => (just (lit "10*5+sqrt(25)") nothing, requests)) (filter (fun level => level <=? requests) [1; 5; 10; 20; 50])
  ++ map (fun i => (just (lit ":a:=10;:b:=20;:c:=30;:d:=40;:result:=:a*:b+:c*:d") i, 10)) [nothing; everything; only [lit "a"; lit "result"]].

(** ** One test *)
(** the answers in the order they came *)
Definition arrived (es : list stage_event) : list (option str * N) :=
  flat_map (fun e => match e with Gets _ a took => [(a, took)] | Counts _ => [] end) es.
(** the answer says that the evaluation succeeded *)
Definition says_success (answer : option str) : Prop := exists a, answer = Some a /\ mentions """success"":true" a.
Definition sum_of (l : list nat) : nat := fold_right Nat.add 0%nat l.
(** [x] is the least (the most) of a list *)
Definition least_of (l : list N) (x : N) : Prop := In x l /\ Forall (fun y => x <= y) l.
Definition most_of (l : list N) (x : N) : Prop := In x l /\ Forall (fun y => y <= x) l.
(** characters that mean themselves in a JSON text *)
Definition means_itself (s : str) : Prop := Forall (fun c => 32 <= c /\ c <> 34 /\ c <> 92) s.
