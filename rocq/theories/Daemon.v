(** Starting a server in the background: bin/http_server/daemon.rs:3-68 and the same functions in
    bin/sk_server.rs:243-311, called from bin/sk_http_server.rs:303-322 and bin/sk_server.rs:418-436.
    The operating system is modelled as far as these functions use it: processes with a session and a table of
    open descriptors, files, and what was written to descriptor 2.  The outcomes of its calls are arguments. *)
From Coq Require Import String List ZArith NArith Bool.
From Verif Require Import Base ServerArgs.
Import ListNotations.
Local Open Scope N_scope.

(** what a descriptor refers to: something the starting process already had open, /dev/null, or a file opened by name *)
Inductive target := Inherited (n : N) | DevNull | Opened (name : str).
Record process := mkProcess { pid : N; session : N; descriptors : list (N * target) }.
(** [current] is the process that runs the program's code; [exited] the processes that ended, with their status, latest first *)
Record world := mkWorld { current : process; exited : list (N * N); stored : smap str; reported : list (target * str) }.
(** a call returns to the current process, or the current process exits *)
Inductive outcome := Goes (w : world) | Ended (w : world).

(** what the operating system answers *)
Record system := mkSystem {
  first_child : option N;    (** [fork]: [None] stands for -1 *)
  new_session : bool;        (** [setsid] succeeds *)
  second_child : option N;
  null_opens : bool;         (** /dev/null can be opened *)
  file_stored : bool }.      (** the pid file can be created and written *)

(** [libc::fork] with the parent's [exit(0)] (daemon.rs:9-18, 26-35): the child has the parent's session and descriptors *)
Definition fork_and_leave (child : N) (w : world) : world :=
  let p := current w in
  mkWorld (mkProcess child (session p) (descriptors p)) ((pid p, 0) :: exited w) (stored w) (reported w).
(** [libc::setsid] (daemon.rs:21) *)
Definition own_session (w : world) : world :=
  let p := current w in mkWorld (mkProcess (pid p) (pid p) (descriptors p)) (exited w) (stored w) (reported w).
Definition with_descriptors (ds : list (N * target)) (w : world) : world :=
  let p := current w in mkWorld (mkProcess (pid p) (session p) ds) (exited w) (stored w) (reported w).
Fixpoint descriptor (n : N) (ds : list (N * target)) : option target :=
  match ds with [] => None | (m, t) :: r => if n =? m then Some t else descriptor n r end.
(** [libc::close], also the end of a [File] *)
Definition close (n : N) (ds : list (N * target)) : list (N * target) := filter (fun d => negb (n =? fst d)) ds.
(** a file is opened as the lowest free descriptor *)
Fixpoint lowest_from (fuel : nat) (n : N) (ds : list (N * target)) : N :=
  match fuel with
  | O => n
  | S k => match descriptor n ds with None => n | Some _ => lowest_from k (n + 1) ds end
  end.
Definition lowest (ds : list (N * target)) : N := lowest_from (length ds) 0 ds.
Definition open (t : target) (ds : list (N * target)) : N * list (N * target) := let n := lowest ds in (n, (n, t) :: ds).
(** [libc::dup2] *)
Definition dup2 (old new : N) (ds : list (N * target)) : list (N * target) :=
  if old =? new then ds else match descriptor old ds with Some t => (new, t) :: close new ds | None => ds end.
(** daemon.rs:41-59: the descriptors after the standard ones are closed and pointed at /dev/null.  [dev_null] goes out
    of scope at the end of the function, which closes [null_fd] *)
Definition redirected (ds : list (N * target)) : list (N * target) :=
  let '(null_fd, ds) := open DevNull (close 2 (close 1 (close 0 ds))) in
  close null_fd (dup2 null_fd 2 (dup2 null_fd 1 (dup2 null_fd 0 ds))).
(** [eprintln!]; nothing happens when descriptor 2 is closed *)
Definition say (m : str) (w : world) : world :=
  match descriptor 2 (descriptors (current w)) with
  | Some t => mkWorld (current w) (exited w) (stored w) ((t, m) :: reported w)
  | None => w
  end.
Definition exit (status : N) (w : world) : outcome :=
  Ended (mkWorld (current w) ((pid (current w), status) :: exited w) (stored w) (reported w)).
(** daemon.rs:4-60: [inr] is the error returned *)
Definition daemonize (o : system) (w : world) : world + (world * str) :=
  match first_child o with
  | None => inr (w, lit "Failed to fork process")
  | Some c =>
      let w := fork_and_leave c w in
      if negb (new_session o) then inr (w, lit "Failed to create new session")
      else
        let w := own_session w in
        match second_child o with
        | None => inr (w, lit "Failed to fork second time")
        | Some c =>
            let w := fork_and_leave c w in
            let ds := close 2 (close 1 (close 0 (descriptors (current w)))) in
            if null_opens o then inl (with_descriptors (redirected (descriptors (current w))) w)
            else inr (with_descriptors ds w, lit "No such file or directory (os error 2)")
        end
  end.
(** daemon.rs:62-70: the file holds the number of the current process; it is closed again.  Simplified: creating
    and writing is one step, which fails as a whole *)
Definition write_pid_file (o : system) (name : str) (w : world) : option world :=
  if file_stored o then Some (mkWorld (current w) (exited w) (minsert name (N_to_str (pid (current w)) ++ [10]) (stored w)) (reported w)) else None.
(** sk_http_server.rs:303-322, sk_server.rs:418-436.  Simplified: the lines about the settings that are written before are left out *)
Definition handle_daemon_mode (o : system) (pid_file : str) (w : world) : outcome :=
  match daemonize o w with
  | inr (w, e) => exit 1 (say (lit "Failed to daemonize: " ++ e) w)
  | inl w => match write_pid_file o pid_file w with
             | None => exit 1 w
             | Some w => Goes w
             end
  end.
(** sk_http_server.rs:134-137, sk_server.rs:418: before the signal handler, the hooks and the listener *)
Definition enter (o : system) (s : settings) (w : world) : outcome :=
  if s_daemon s then handle_daemon_mode o (s_pid_file s) w else Goes w.
