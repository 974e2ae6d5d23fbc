(** [http_server/utils.rs:21-120], [http_server/cache.rs:177-236]: reading one
    HTTP request from a connection. *)
From Coq Require Import String List ZArith NArith Bool.
From Verif Require Import Base Syntax Utf8 Ext Lines Host.
Import ListNotations.
Local Open Scope N_scope.

(** [std::io::ErrorKind], as far as it is distinguished *)
Inductive io_kind := InvalidData | TimedOut | OtherIo.
Record io_error := mkIo { io_kind_of : io_kind; io_text : str }.

(** what the peer sends: the pieces in which the bytes arrive, and how the
    connection ends (closed, or an error such as a time-out) *)
Record stream := mkStream { s_pieces : list (list N); s_failure : option io_error }.

(** the first [n] bytes and the rest *)
Fixpoint take_bytes (n : N) (l : list N) : list N * list N :=
  match l with
  | [] => ([], [])
  | b :: r => if n =? 0 then ([], l) else let (a, z) := take_bytes (n - 1) r in (b :: a, z)
  end.
(** [TcpStream::read] into a buffer of [n] bytes: some of the next piece; no
    bytes at the end of the stream *)
Definition read (n : N) (s : stream) : (list N + io_error) * stream :=
  match s_pieces s with
  | [] => (match s_failure s with Some e => inr e | None => inl [] end, s)
  | p :: r => let (a, z) := take_bytes n p in
              (inl a, mkStream (match z with [] => r | _ => z :: r end) (s_failure s))
  end.

(** utils.rs:34 *)
Definition max_request : N := 1048576.
Definition size (b : list N) : N := N.of_nat (length b).
Definition crlf2 : list N := [13; 10; 13; 10].
(** utils.rs:106-109 *)
Definition find_headers_end (b : list N) : option nat := find_str crlf2 b.

Section Read.
  Context {X : Ext} {H : Host}.

  (** utils.rs:111-120 *)
  Fixpoint content_length_in (ls : list str) : N :=
    match ls with
    | [] => 0
    | l :: r =>
        if starts_with (lit "content-length:") (to_lowercase l)
        then match split_char 58 l with
             | _ :: v :: _ => match usize_from_str (trim v) with Some n => n | None => 0 end
             | _ => content_length_in r
             end
        else content_length_in r
    end.
  Definition parse_content_length (headers : str) : N := content_length_in (lines headers).
  (** [String::from_utf8_lossy] *)
  Definition lossy (b : list N) : str := match decode b with Some s => s | None => h_lossy b end.

  Definition bad (t : string) : io_error := mkIo InvalidData (lit t).
  (** utils.rs:36-68: buffer, end of the headers, content length, rest of the
      stream.  The fuel is never used up when it exceeds the bytes to come. *)
  Fixpoint read_headers (fuel : nat) (buf : list N) (s : stream) : (list N * nat * N * stream) + io_error :=
    match fuel with
    | O => inl (buf, O, 0, s)
    | S k =>
        match read 4096 s with
        | (inr e, _) => inr e
        | (inl [], s') => inl (buf, O, 0, s')
        | (inl bs, s') =>
            let buf := buf ++ bs in
            if max_request <? size buf then inr (bad "Request too large (max 1MB)")
            else match find_headers_end buf with
                 | Some pos =>
                     let n := parse_content_length (lossy (firstn pos buf)) in
                     if max_request <? n then inr (bad "Request body too large (max 1MB)")
                     else inl (buf, pos + 4, n, s')%nat
                 | None => read_headers k buf s'
                 end
        end
    end.
  (** utils.rs:81-99; [left] is [remaining_bytes - total_read] *)
  Fixpoint read_body (fuel : nat) (buf : list N) (left : N) (s : stream) : list N + io_error :=
    match fuel with
    | O => inl buf
    | S k =>
        if left =? 0 then inl buf
        else match read (N.min 8192 left) s with
             | (inr e, _) => inr e
             | (inl [], _) => inl buf
             | (inl bs, s') =>
                 let buf := buf ++ bs in
                 if max_request <? size buf then inr (bad "Request exceeded size limit during body read")
                 else read_body k buf (left - size bs) s'
             end
    end.
  (** the reads after which a stream is surely exhausted *)
  Definition enough (s : stream) : nat := S (length (concat (s_pieces s))).

  (** ** [BufferPool] (cache.rs:177-217), one per thread: the buffers, the last
      returned first.  A buffer is its contents; capacities are not modelled. *)
  Definition buffers := list (list N).
  (** cache.rs:193-195 *)
  Definition get_buffer (p : buffers) : list N * buffers := match p with b :: r => (b, r) | [] => ([], []) end.
  (** cache.rs:197-207 *)
  Definition return_buffer (p : buffers) (b : list N) : buffers :=
    if (length p <? 4)%nat then firstn 0 b (* clear *) :: p else p.

  (** utils.rs:21-104 *)
  Definition read_complete_http_request (p : buffers) (s : stream) : (str + io_error) * buffers :=
    let (buf, p) := get_buffer p in
    match read_headers (enough s) buf s with
    | inr e => (inr e, p)
    | inl (buf, pos, n, s) =>
        let got := size buf - N.of_nat pos in
        match read_body (enough s) buf (n - got) s with
        | inr e => (inr e, p)
        | inl buf => (match decode buf with Some t => inl t | None => inr (bad "Invalid UTF-8") end,
                      return_buffer p buf)
        end
    end.
End Read.
