(** [sk_http_server.rs:137-175]: the worker threads.  Requests arrive at any
    time; a job is one request with what is left of its program; at each moment
    any job may make its next step.  Simplification: the number of threads only
    limits which jobs may be under way, so every run of the real pool is one of
    these; the accept loop and shutdown are not modelled. *)
From Coq Require Import List ZArith NArith Bool.
From Verif Require Import Base Syntax Ext Host HttpRead HttpServer.
Import ListNotations.

Record job := mkJob { jb_read : str + io_error; jb_prog : prog }.
Record server := mkServer { sv_world : world; sv_jobs : list job }.
Inductive event :=
| Arrive (r : str + io_error)  (* :161-163, a connection, and what is read from it *)
| Move (i : nat).              (* job [i] makes a step *)

Definition move (p : prog) (w : world) : world * prog := match p with Reply _ => (w, p) | Act f => f w end.
Fixpoint replace {A} (i : nat) (x : A) (l : list A) : list A :=
  match l, i with
  | [], _ => []
  | _ :: r, O => x :: r
  | y :: r, S i => y :: replace i x r
  end.

Section Threads.
  Context {X : Ext} {H : Host} (token admin : option str).
  Definition sv_step (s : server) (ev : event) : server :=
    match ev with
    | Arrive r => mkServer (sv_world s) (sv_jobs s ++ [mkJob r (handle_http_request token admin r)])
    | Move i =>
        match nth_error (sv_jobs s) i with
        | Some j => let (w, p) := move (jb_prog j) (sv_world s) in mkServer w (replace i (mkJob (jb_read j) p) (sv_jobs s))
        | None => s
        end
    end.
  Definition sv_run (s : server) (evs : list event) : server := fold_left sv_step evs s.
End Threads.
