(** UTF-8 as used by [str::as_bytes] and [String::from_utf8] (Rust std). *)
From Coq Require Import List NArith Bool.
From Verif Require Import Base.
Import ListNotations.
Local Open Scope N_scope.

(** Unicode scalar values: what a Rust [char] can be. *)
Definition is_scalar (c : N) : bool := (c <? 55296) || ((57343 <? c) && (c <? 1114112)).
Definition valid_str (s : str) : Prop := Forall (fun c => is_scalar c = true) s.

Definition enc1 (c : N) : list N :=
  if c <? 128 then [c]
  else if c <? 2048 then [192 + c / 64; 128 + c mod 64]
  else if c <? 65536 then [224 + c / 4096; 128 + (c / 64) mod 64; 128 + c mod 64]
  else [240 + c / 262144; 128 + (c / 4096) mod 64; 128 + (c / 64) mod 64; 128 + c mod 64].

(** [str::as_bytes] *)
Definition encode (s : str) : list N := flat_map enc1 s.

Definition is_cont (b : N) : bool := (128 <=? b) && (b <? 192).

(** [String::from_utf8]: [None] is the error.  Rejects overlong forms,
    surrogates and values above 10FFFF. *)
Fixpoint decode (bs : list N) : option str :=
  match bs with
  | [] => Some []
  | b :: r =>
      if b <? 128 then option_map (cons b) (decode r)
      else if b <? 194 then None
      else if b <? 224 then
        match r with
        | c1 :: r1 =>
            if is_cont c1 then option_map (cons ((b - 192) * 64 + (c1 - 128))) (decode r1) else None
        | _ => None
        end
      else if b <? 240 then
        match r with
        | c1 :: c2 :: r2 =>
            let c := (b - 224) * 4096 + (c1 - 128) * 64 + (c2 - 128) in
            if is_cont c1 && is_cont c2 && (2048 <=? c) && is_scalar c
            then option_map (cons c) (decode r2) else None
        | _ => None
        end
      else if b <? 245 then
        match r with
        | c1 :: c2 :: c3 :: r3 =>
            let c := (b - 240) * 262144 + (c1 - 128) * 4096 + (c2 - 128) * 64 + (c3 - 128) in
            if is_cont c1 && is_cont c2 && is_cont c3 && (65536 <=? c) && is_scalar c
            then option_map (cons c) (decode r3) else None
        | _ => None
        end
      else None
  end.

Definition byte_len (s : str) : N := N.of_nat (length (encode s)).
