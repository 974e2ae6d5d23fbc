(** How serde_json reads a Rust struct from a text (serde_json 1.0, de.rs, and
    the code derived by [#[derive(Deserialize)]] for the structs of
    bin/sk_server.rs:13-19, bin/sk_client.rs:15-23 and
    bin/http_server/types.rs:69-76, 145-191): the fields it knows are read
    once each, the others are skipped without being looked at closely. *)
From Coq Require Import String List ZArith NArith Bool.
From Verif Require Import Base F64 Syntax Ext Json.
Import ListNotations.
Local Open Scope N_scope.

(** ** Skipping a value (de.rs, [ignore_value]).
    Only the form of the text counts: nesting is not limited, numbers may be
    too large, and "\ud800" needs no partner.  Simplification: [ignore_value]
    keeps the open brackets on a stack of its own; here they are recursive
    calls. *)

(** read.rs, [ignore_escape]: after the backslash *)
Definition skip_escape (s : str) : option str :=
  match s with
  | c :: r =>
      if existsb (N.eqb c) [34; 92; 47; 98; 102; 110; 114; 116] then Some r
      else if c =? 117 then option_map snd (read_hex4 r)
      else None
  | [] => None
  end.
(** read.rs, [ignore_str]: after the opening quote; the callers pass enough [fuel] *)
Fixpoint skip_string (fuel : nat) (s : str) : option str :=
  match fuel with
  | O => None
  | S f =>
      match s with
      | [] => None
      | c :: r =>
          if c =? 34 then Some r
          else if c =? 92 then match skip_escape r with Some r' => skip_string f r' | None => None end
          else if c <? 32 then None
          else skip_string f r
      end
  end.
(** one digit and more *)
Definition skip_some_digits (s : str) : option str :=
  match s with c :: r => if is_digit c then Some (skip_digits r) else None | [] => None end.
(** de.rs, [ignore_exponent]: an exponent, if there is one *)
Definition skip_exponent (s : str) : option str :=
  match s with
  | c :: r =>
      if (c =? 101) || (c =? 69)
      then skip_some_digits (match r with d :: r' => if (d =? 43) || (d =? 45) then r' else r | [] => r end)
      else Some s
  | [] => Some s
  end.
(** de.rs, [ignore_decimal]: a fraction, if there is one, and an exponent *)
Definition skip_fraction (s : str) : option str :=
  match s with
  | c :: r => if c =? 46 then match skip_some_digits r with Some r' => skip_exponent r' | None => None end else skip_exponent s
  | [] => Some s
  end.
(** de.rs, [ignore_integer]: after the sign; no digits may follow a zero *)
Definition skip_number (s : str) : option str :=
  match s with
  | c :: r =>
      if c =? 48 then match r with d :: _ => if is_digit d then None else skip_fraction r | [] => Some r end
      else if is_digit c then skip_fraction (skip_digits r)
      else None
  | [] => None
  end.

Section Loops.
  Context (rec : str -> option str).
  (** elements, after '[' *)
  Fixpoint skip_elems (fuel : nat) (first : bool) (s : str) : option str :=
    match fuel with
    | O => None
    | S f =>
        match skip_ws s with
        | c :: r =>
            if c =? 93 then Some r
            else if first then match rec (c :: r) with Some r1 => skip_elems f false r1 | None => None end
            else if c =? 44 then match rec r with Some r1 => skip_elems f false r1 | None => None end
            else None
        | [] => None
        end
    end.
  (** a member: its name, a colon and a value *)
  Definition skip_member (s : str) : option str :=
    match skip_ws s with
    | c :: r =>
        if c =? 34
        then match skip_string (S (length r)) r with
             | Some r1 => match skip_ws r1 with d :: r2 => if d =? 58 then rec r2 else None | [] => None end
             | None => None
             end
        else None
    | [] => None
    end.
  (** members, after '{' *)
  Fixpoint skip_members (fuel : nat) (first : bool) (s : str) : option str :=
    match fuel with
    | O => None
    | S f =>
        match skip_ws s with
        | c :: r =>
            if c =? 125 then Some r
            else if first then match skip_member (c :: r) with Some r1 => skip_members f false r1 | None => None end
            else if c =? 44 then match skip_member r with Some r1 => skip_members f false r1 | None => None end
            else None
        | [] => None
        end
    end.
End Loops.

(** de.rs, [ignore_value]; the callers pass enough [fuel] *)
Fixpoint skip_value (fuel : nat) (s : str) : option str :=
  match fuel with
  | O => None
  | S f =>
      match skip_ws s with
      | [] => None
      | c :: r =>
          if c =? 34 then skip_string (S (length r)) r
          else if c =? 91 then skip_elems (skip_value f) (S (length r)) true r
          else if c =? 123 then skip_members (skip_value f) (S (length r)) true r
          else if c =? 45 then skip_number r
          else if is_digit c then skip_number (c :: r)
          else match strip_prefix (lit "true") (c :: r) with
               | Some r' => Some r'
               | None => match strip_prefix (lit "false") (c :: r) with
                         | Some r' => Some r'
                         | None => strip_prefix (lit "null") (c :: r)
                         end
               end
      end
  end.

(** ** The fields (the derived [visit_map]) *)
Definition named (names : list str) (k : str) : bool := existsb (str_eqb k) names.
Section Fields.
  Context (names : list str).
  (** a field that is known and was read before is an error; [read_value 127]:
      the struct itself is one level of nesting *)
  Definition read_field (acc : list (str * json)) (s : str) : option (list (str * json) * str) :=
    match skip_ws s with
    | c :: r =>
        if c =? 34
        then match read_string (S (length r)) r with
             | Some (k, r1) =>
                 match skip_ws r1 with
                 | d :: r2 =>
                     if d =? 58
                     then if named names k
                          then if mhas k acc then None
                               else match read_value (pred json_depth) r2 with Some (v, r3) => Some (acc ++ [(k, v)], r3) | None => None end
                          else match skip_value (S (length r2)) r2 with Some r3 => Some (acc, r3) | None => None end
                     else None
                 | [] => None
                 end
             | None => None
             end
        else None
    | [] => None
    end.
  Fixpoint read_fields (fuel : nat) (first : bool) (acc : list (str * json)) (s : str) : option (list (str * json) * str) :=
    match fuel with
    | O => None
    | S f =>
        match skip_ws s with
        | c :: r =>
            if c =? 125 then Some (acc, r)
            else if first then match read_field acc (c :: r) with Some (acc', r1) => read_fields f false acc' r1 | None => None end
            else if c =? 44 then match read_field acc r with Some (acc', r1) => read_fields f false acc' r1 | None => None end
            else None
        | [] => None
        end
    end.
  (** the derived [visit_map] or [visit_seq]; nothing may follow.  As an array,
      the fields come in their order; the reader of the struct counts them. *)
  Definition struct_parse (s : str) : option json :=
    match skip_ws s with
    | c :: r =>
        if c =? 123
        then match read_fields (S (length r)) true [] r with
             | Some (kvs, r') => match skip_ws r' with [] => Some (JObj kvs) | _ => None end
             | None => None
             end
        else if c =? 91 then json_parse s
        else None
    | [] => None
    end.
End Fields.

(** the fields of the structs: sk_server.rs:14-19, sk_client.rs:17-23,
    types.rs:69-76, types.rs:145-152 and 163-170, types.rs:181-184 *)
Definition line_names : list str := [lit "expression"; lit "variables"; lit "output_json"; lit "token"].
Definition answer_names : list str := [lit "success"; lit "result"; lit "error"; lit "execution_time_ms"; lit "request_id"].
Definition eval_names : list str := [lit "expression"; lit "arguments"; lit "output_json"; lit "include_variables"].
Definition upload_names : list str := [lit "filename"; lit "js_code"; lit "file_content"].
Definition delete_names : list str := [lit "filename"].
