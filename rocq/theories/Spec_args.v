(** Vocabulary for the command lines of the two servers. *)
From Coq Require Import String List ZArith NArith Bool.
From Verif Require Import Base Syntax Spec_syntax.
Import ListNotations.
Local Open Scope N_scope.

(** what an option asks for *)
Inductive setting := RunAsDaemon | BindHost (address : str) | UseThreads (n : N) | PidFile (file : str) | LogFile (file : str) | EvalToken (token : str) | AdminToken (token : str).

(** a decimal text of a number of 64 bits *)
Definition count_text (s : str) (n : N) : Prop := exists ds, (s = ds \/ s = lit "+" ++ ds) /\ digits ds /\ digits_value ds = n /\ n < 2 ^ 64.
(** a port: a decimal text of a number of 16 bits *)
Definition port_text (s : str) (n : N) : Prop := count_text s n /\ n < 2 ^ 16.

(** the words of an option both servers have *)
Inductive shared_words : setting -> list str -> Prop :=
| daemon_words : forall w, In w [lit "-d"; lit "--daemon"] -> shared_words RunAsDaemon [w]
| host_words : forall w a, In w [lit "-H"; lit "--host"] -> shared_words (BindHost a) [w; a]
| pid_words : forall f, shared_words (PidFile f) [lit "--pid-file"; f]
| log_words : forall f, shared_words (LogFile f) [lit "--log-file"; f]
| token_words : forall t, shared_words (EvalToken t) [lit "--token"; t].
(** the words of an option of the server of JSON lines: the number of threads stands alone *)
Inductive line_words : setting -> list str -> Prop :=
| line_shared : forall s ws, shared_words s ws -> line_words s ws
| line_threads : forall w n, count_text w n -> line_words (UseThreads n) [w].
(** the words of an option of the HTTP server *)
Inductive http_words : setting -> list str -> Prop :=
| http_shared : forall s ws, shared_words s ws -> http_words s ws
| http_threads : forall w x n, In w [lit "-t"; lit "--threads"] -> count_text x n -> n <> 0 -> http_words (UseThreads n) [w; x]
| http_admin : forall t, http_words (AdminToken t) [lit "--admin-token"; t].
(** [args] are the words of these options, one after another *)
Inductive written (words : setting -> list str -> Prop) : list setting -> list str -> Prop :=
| written_none : written words [] []
| written_one : forall s ss ws args, words s ws -> written words ss args -> written words (s :: ss) (ws ++ args).

(** the value asked for last, if any *)
Inductive last_asked {A} (what : A -> setting) (ss : list setting) : option A -> Prop :=
| asked_last : forall before after x, ss = before ++ what x :: after -> (forall y, ~ In (what y) after) -> last_asked what ss (Some x)
| never_asked : (forall y, ~ In (what y) ss) -> last_asked what ss None.
Definition chosen {A} (what : A -> setting) (ss : list setting) (default : A) (x : A) : Prop :=
  exists o, last_asked what ss o /\ x = match o with Some y => y | None => default end.
