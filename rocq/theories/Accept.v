(** The accept loop and the thread pool of both servers: bin/sk_server.rs:488-519 and bin/sk_http_server.rs:145-186.
    The pool is the crate [threadpool]: a fixed number of threads that take jobs from one queue, first in first out; a
    thread whose job panics is replaced.  One step is one action of one thread or of a client.  What happens inside a
    job is the subject of LineServer.v and HttpThreads.v; here a job starts and ends. *)
From Coq Require Import List NArith Bool Arith.
Import ListNotations.
Local Open Scope nat_scope.

(** where the main thread is: about to test [running]; about to call [accept]; waiting in [pool.join()]; gone, and the process with it *)
Inductive place := Testing | Accepting | Joining | Gone.
(** [arrived]: the connections in the system's queue of the listener, oldest first; [queued]: jobs in the pool's queue; [handled]:
    jobs being run; [completed]: jobs that ended, latest first *)
Record pool := mkPool { arrived : list N; queued : list N; handled : list N; completed : list N; running : bool; main : place }.
Inductive event :=
| Arrives (c : N)   (** a client connects *)
| Interrupt         (** the signal handler (daemon.rs:72-80, sk_server.rs:313-322) *)
| Main              (** the main thread goes on *)
| Refused           (** [accept] fails, or there is nothing yet (sk_server.rs:505-514, sk_http_server.rs:171-180) *)
| Starts            (** a free thread takes the oldest job *)
| Ends (c : N).     (** a job returns or panics *)

Fixpoint drop_one (c : N) (l : list N) : list N :=
  match l with [] => [] | x :: r => if N.eqb c x then r else x :: drop_one c r end.
(** [joins]: sk_server.rs:518 waits for the pool after the loop, sk_http_server.rs:183 does not *)
Definition step (threads : nat) (joins : bool) (s : pool) (e : event) : option pool :=
  match main s with
  | Gone => None
  | _ =>
      match e with
      | Arrives c => Some (mkPool (arrived s ++ [c]) (queued s) (handled s) (completed s) (running s) (main s))
      | Interrupt => Some (mkPool (arrived s) (queued s) (handled s) (completed s) false (main s))
      | Main =>
          match main s with
          | Testing => (* [while running.load(..)] *)
              Some (mkPool (arrived s) (queued s) (handled s) (completed s) (running s)
                      (if running s then Accepting else if joins then Joining else Gone))
          | Accepting =>
              match arrived s with
              | c :: r => (* [pool.execute] *) Some (mkPool r (queued s ++ [c]) (handled s) (completed s) (running s) Testing)
              | [] => None
              end
          | Joining =>
              match queued s, handled s with
              | [], [] => Some (mkPool (arrived s) [] [] (completed s) (running s) Gone)
              | _, _ => None
              end
          | Gone => None
          end
      | Refused =>
          match main s with
          | Accepting => Some (mkPool (arrived s) (queued s) (handled s) (completed s) (running s) Testing)
          | _ => None
          end
      | Starts =>
          match queued s with
          | c :: r => if length (handled s) <? threads
                      then Some (mkPool (arrived s) r (c :: handled s) (completed s) (running s) (main s)) else None
          | [] => None
          end
      | Ends c =>
          if existsb (N.eqb c) (handled s)
          then Some (mkPool (arrived s) (queued s) (drop_one c (handled s)) (c :: completed s) (running s) (main s)) else None
      end
  end.
(** both programs start with an empty pool, after the listener is set up *)
Definition begin : pool := mkPool [] [] [] [] true Testing.
Fixpoint steps (threads : nat) (joins : bool) (s : pool) (es : list event) : option pool :=
  match es with
  | [] => Some s
  | e :: r => match step threads joins s e with Some s' => steps threads joins s' r | None => None end
  end.
(** sk_server.rs:488, 518 and sk_http_server.rs:153 *)
Definition line_server (threads : nat) (es : list event) : option pool := steps threads true begin es.
Definition http_server (threads : nat) (es : list event) : option pool := steps threads false begin es.
