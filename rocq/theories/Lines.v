(** Text functions of Rust's std that the servers and the plugin loader use. *)
From Coq Require Import List NArith Bool.
From Verif Require Import Base Utf8.
Import ListNotations.
Local Open Scope N_scope.

(** [str::lines]: split at "\n"; a "\r" before the "\n" belongs to the ending;
    nothing after the last ending is not a line *)
Definition strip_cr (l : str) : str := match strip_suffix [13] l with Some r => r | None => l end.
Fixpoint end_lines (pieces : list str) : list str :=
  match pieces with
  | [] => []
  | [last] => match last with [] => [] | _ => [last] end
  | p :: r => strip_cr p :: end_lines r
  end.
Definition lines (s : str) : list str := end_lines (split_char 10 s).

(** [str::split_whitespace] *)
Fixpoint words_from (acc : str) (s : str) : list str :=
  match s with
  | [] => match acc with [] => [] | _ => [rev acc] end
  | c :: r => if is_whitespace c
              then match acc with [] => words_from [] r | _ => rev acc :: words_from [] r end
              else words_from (c :: acc) r
  end.
Definition split_whitespace (s : str) : list str := words_from [] s.

(** [str::split_once(pat)] *)
Definition split_once (p s : str) : option (str * str) :=
  match find_str p s with
  | Some i => Some (firstn i s, skipn (i + length p) s)
  | None => None
  end.

(** [str::split(pat: &str)], [pat] not empty *)
Fixpoint split_str_fuel (fuel : nat) (p s : str) : list str :=
  match fuel with
  | O => [s]
  | S k => match split_once p s with
           | Some (a, b) => a :: split_str_fuel k p b
           | None => [s]
           end
  end.
Definition split_str (p s : str) : list str := split_str_fuel (S (length s)) p s.

(** [&s[n..]] with [n] in bytes: [None] is the panic (past the end or inside a character) *)
Fixpoint slice_from (n : N) (s : str) : option str :=
  if n =? 0 then Some s
  else match s with
       | [] => None
       | c :: r => let l := N.of_nat (length (enc1 c)) in if l <=? n then slice_from (n - l) r else None
       end.

(** [usize::from_str] (64 bits): an optional "+" and decimal digits *)
Definition usize_from_str (s : str) : option N :=
  let ds := match s with 43 :: r => r | _ => s end in
  match ds with
  | [] => None
  | _ => if forallb is_digit ds
         then let n := fold_left (fun a b => a * 10 + (b - 48)) ds 0 in
              if n <=? 18446744073709551615 then Some n else None
         else None
  end.
