(** Model of [lexer.rs].  The lexer works on the UTF-8 bytes of the input.
    A lexer state is the unread suffix of the input plus the absolute byte
    positions the Rust struct keeps. *)
From Coq Require Import String List ZArith NArith Bool.
From Verif Require Import Base F64 Utf8 Syntax.
Import ListNotations.
Local Open Scope N_scope.

(** [lexer.rs:46-52]: [input] and [pos] are represented by the unread suffix
    [lx_rest = input[pos..]] and [lx_pos = pos]. *)
Record lexer := mkLexer { lx_rest : list N; lx_pos : N; lx_start : N; lx_end : N }.

(** [lexer.rs:55-62] *)
Definition lexer_new (input : str) : lexer := mkLexer (encode input) 0 0 0.

(** [lexer.rs:74-78]; returns the suffix and the number of bytes skipped. *)
Definition is_ws (b : N) : bool := (b =? 32) || (b =? 9) || (b =? 10) || (b =? 13).
Fixpoint skip_ws (bs : list N) (pos : N) : list N * N :=
  match bs with
  | b :: r => if is_ws b then skip_ws r (pos + 1) else (bs, pos)
  | [] => (bs, pos)
  end.

(** [lexer.rs:84-111]: the scanning loop of [number]; returns the bytes
    consumed (in order), whether a dot was seen, and the unread suffix. *)
Fixpoint scan_number (bs : list N) (has_dot : bool) : list N * bool * list N :=
  match bs with
  | [] => ([], has_dot, [])
  | c :: r =>
      if is_digit c then
        let '(t, d, r') := scan_number r has_dot in (c :: t, d, r')
      else if (c =? 46) && negb has_dot then
        match r with
        | next :: _ =>
            if is_digit next then
              let '(t, d, r') := scan_number r true in (c :: t, d, r')
            else ([], has_dot, bs)
        | [] => ([c], true, [])
        end
      else ([], has_dot, bs)
  end.

(** [lexer.rs:114-119]: fast path. *)
Definition fast_int (txt : list N) : f64 :=
  fold_left (fun r b => f_add (f_mul r (f_of_Z 10)) (f_of_Z (Z.of_N (b - 48)))) txt f_zero.

(** [lexer.rs:121-126]: [str::parse::<f64>] on text made of digits and at most
    one dot.  Only such text reaches it, so signs, exponents, [inf]/[nan] and
    the two error returns (invalid UTF-8, invalid number) do not arise; the
    caller guarantees at least one digit. *)
Definition dec_value (digits : list N) : N :=
  fold_left (fun a b => a * 10 + (b - 48)) digits 0.
Fixpoint split_dot (txt : list N) : list N * list N :=
  match txt with
  | [] => ([], [])
  | c :: r => if c =? 46 then ([], r) else let '(a, b) := split_dot r in (c :: a, b)
  end.
Definition parse_simple_f64 (txt : list N) : f64 :=
  let '(ip, fp) := split_dot txt in
  f_of_dec false (dec_value (ip ++ fp)) (- Z.of_nat (length fp)).

(** [lexer.rs:80-130].  [first] has just been consumed; [pos] is the position
    after it. *)
Definition lex_number (first : N) (bs : list N) (pos : N) : token * lexer :=
  let start := pos - 1 in
  let '(t, has_dot, rest) := scan_number bs (first =? 46) in
  let txt := first :: t in
  let stop := pos + N.of_nat (length t) in
  let n := if (stop - start <=? 10) && negb has_dot then fast_int txt else parse_simple_f64 txt in
  (TNumber n, mkLexer rest stop start stop).

(** [lexer.rs:137] *)
Definition is_ident_byte (c : N) : bool := is_alpha_ascii c || is_digit c || (c =? 95).
Fixpoint scan_ident (bs : list N) : list N * list N :=
  match bs with
  | [] => ([], [])
  | c :: r => if is_ident_byte c then let '(t, r') := scan_ident r in (c :: t, r') else ([], bs)
  end.

(** [lexer.rs:148-183]: keywords.  The identifier bytes are ASCII, so
    [from_utf8] is the identity and cannot fail. *)
Definition keyword_or_ident (bytes : list N) : token :=
  if Nat.eqb (length bytes) 4 then
    if eq_ignore_ascii_case bytes (lit "TRUE") then TTrue
    else if eq_ignore_ascii_case bytes (lit "NULL") then TNull
    else TIdentifier bytes
  else if Nat.eqb (length bytes) 5 then
    if eq_ignore_ascii_case bytes (lit "FALSE") then TFalse else TIdentifier bytes
  else TIdentifier bytes.

(** [lexer.rs:132-186] *)
Definition lex_identifier (first : N) (bs : list N) (pos : N) : token * lexer :=
  let start := pos - 1 in
  let '(t, rest) := scan_ident bs in
  let stop := pos + N.of_nat (length t) in
  (keyword_or_ident (first :: t), mkLexer rest stop start stop).

(** [lexer.rs:200-211]: the byte pushed for the escape [\x]. *)
Definition unescape (x : N) : N :=
  if x =? 110 then 10 else if x =? 116 then 9 else x.

(** [lexer.rs:188-217]: loop of [string]; [buf] is the reversed buffer. *)
Fixpoint scan_string (quote : N) (bs : list N) (pos : N) (start0 : N) (buf : list N)
  : res (token * lexer) :=
  match bs with
  | [] => Err (mkErr (lit "Unterminated string literal") (Some pos))
  | c :: r =>
      if c =? quote then
        match decode (rev buf) with
        | Some s => Ok (TString s, mkLexer r (pos + 1) start0 (pos + 1))
        | None => Err (mkErr (lit "Invalid UTF-8 in string") (Some (pos + 1)))
        end
      else if c =? 92 then
        match r with
        | x :: r' => scan_string quote r' (pos + 2) start0 (unescape x :: buf)
        | [] => Err (mkErr (lit "Unterminated escape in string") (Some (pos + 1)))
        end
      else scan_string quote r (pos + 1) start0 (c :: buf)
  end.

(** [lexer.rs:336-375]: a token whose span is set to the last [k] bytes.
    [self.pos - k] is a checked subtraction (it panics in the default dev
    profile and wraps in release). *)
Definition mark (k : N) (tok : token) (rest : list N) (pos : N) : res (token * lexer) :=
  if pos <? k then Panic "attempt to subtract with overflow"
  else Ok (tok, mkLexer rest pos (pos - k) pos).

(** [lexer.rs:219-377] *)
Definition next_token (lx : lexer) : res (token * lexer) :=
  let '(bs, p0) := skip_ws (lx_rest lx) (lx_pos lx) in
  match bs with
  | [] => Ok (TEof, mkLexer [] p0 (lx_start lx) (lx_end lx))
  | ch :: r =>
      let pos := p0 + 1 in
      let peek_is (x : N) := match r with c :: _ => c =? x | [] => false end in
      let r2 := tl r in
      let two tok := mark 2 tok r2 (pos + 1) in
      let one tok := mark 1 tok r pos in
      if is_digit ch then Ok (lex_number ch r pos)
      else if is_alpha_ascii ch || (ch =? 95) then Ok (lex_identifier ch r pos)
      else if ch =? 46 (* . *) then
        if peek_is 46 then
          match r2 with
          | c :: r3 => if c =? 46 then mark 3 TEllipsis r3 (pos + 2) else one TDot
          | [] => one TDot
          end
        else if match r with c :: _ => is_digit c | [] => false end then Ok (lex_number ch r pos)
        else one TDot
      else if ch =? 43 then one TPlus
      else if ch =? 45 then one TMinus
      else if ch =? 42 then one TStar
      else if ch =? 47 then one TSlash
      else if ch =? 37 then one TPercent
      else if ch =? 94 then one TCaret
      else if ch =? 34 then scan_string 34 r pos (pos - 1) []
      else if ch =? 39 then scan_string 39 r pos (pos - 1) []
      else if ch =? 33 (* ! *) then if peek_is 61 then two TNotEq else one TBang
      else if ch =? 63 then one TQMark
      else if ch =? 40 then one TLParen
      else if ch =? 41 then one TRParen
      else if ch =? 91 then one TLBracket
      else if ch =? 93 then one TRBracket
      else if ch =? 123 then one TLBrace
      else if ch =? 125 then one TRBrace
      else if ch =? 44 then one TComma
      else if ch =? 58 (* : *) then
        if peek_is 58 then two TDoubleColon
        else if peek_is 61 then two TColonEquals
        else one TColon
      else if ch =? 62 then if peek_is 61 then two TGe else one TGreater
      else if ch =? 60 then if peek_is 61 then two TLe else one TLess
      else if ch =? 61 (* = : one or two characters, span always 2 *) then
        if peek_is 61 then two TEqEq else mark 2 TEqEq r pos
      else if ch =? 38 (* & *) then
        if peek_is 38 then two TAndAnd
        else if peek_is 46 then two TSafeNavigation
        else Err (mkErr (lit "Unexpected '&'") (Some (pos - 1)))
      else if ch =? 124 (* | *) then
        if peek_is 124 then two TOrOr
        else Err (mkErr (lit "Unexpected '|'") (Some (pos - 1)))
      else if ch =? 59 then one TSemicolon
      else Err (mkErr (lit "Unexpected character") (Some (pos - 1)))
  end.

(** The sequence of results the parser sees: the lexer gets no feedback from
    the parser and is only ever advanced by [next_token], so its output is a
    stream determined by the input ([tokenize_unfold] in [Lexer_proofs]).
    [TSEnd p]: the end-of-input token, for ever; [p] is [last_start]. *)
Inductive tstream : Type :=
| TSEnd (p : N)
| TSCons (t : token) (p : N) (rest : tstream)
| TSErr (e : error)
| TSPanic (why : string).

Fixpoint tokenize_fuel (fuel : nat) (lx : lexer) : tstream :=
  match next_token lx with
  | Err e => TSErr e
  | Panic w => TSPanic w
  | Ok (TEof, lx') => TSEnd (lx_start lx')
  | Ok (t, lx') =>
      match fuel with
      | O => TSEnd 0 (* never reached: every token consumes a byte *)
      | S f => TSCons t (lx_start lx') (tokenize_fuel f lx')
      end
  end.
Definition tokenize (lx : lexer) : tstream := tokenize_fuel (length (lx_rest lx)) lx.
