(** [runtime/logical.rs] *)
From Coq Require Import String List ZArith NArith Bool.
From Verif Require Import Base F64 Syntax Utils.
Import ListNotations.

(** [match v { Boolean(b) => *b, Number(n) => *n != 0.0, _ => false }] *)
Definition truthy (v : value) : bool :=
  match v with
  | VBoolean b => b
  | VNumber n => negb (f_eqb n f_zero)
  | _ => false
  end.

(** [logical.rs:8-12]: the eager ternary; the evaluators intercept this name *)
Definition fn_ternary (args : list value) : res value :=
  match args with
  | [c; a; b] =>
      match c with
      | VBoolean t => Ok (if t then a else b)
      | _ => Err (err "Ternary condition must be boolean")
      end
  | _ => Err (err "Ternary expects 3 args")
  end.

(** [logical.rs:13-18] *)
Definition fn_xor (args : list value) : res value :=
  match args with
  | [a; b] => Ok (VBoolean (xorb (truthy a) (truthy b)))
  | _ => Err (err "XOR expects 2 arguments")
  end.

(** [logical.rs:19-27]; the loop with its early exit *)
Fixpoint and_loop (args : list value) : bool :=
  match args with
  | [] => true
  | a :: r => if truthy a then and_loop r else false
  end.
(** [logical.rs:28-36] *)
Fixpoint or_loop (args : list value) : bool :=
  match args with
  | [] => false
  | a :: r => if truthy a then true else or_loop r
  end.

(** [logical.rs:37-40] *)
Definition fn_not (args : list value) : res value :=
  Ok (VBoolean (negb (match args with a :: _ => truthy a | [] => false end))).

(** [logical.rs:41-49] *)
Definition fn_if (args : list value) : res value :=
  match args with
  | c :: t :: r =>
      Ok (if truthy c then t else match r with e :: _ => e | [] => VBoolean false end)
  | _ => Err (err "IF expects at least 2 arguments")
  end.

(** [logical.rs:50-61] *)
Fixpoint ifs_loop (args : list value) : value :=
  match args with
  | c :: v :: r => if truthy c then v else ifs_loop r
  | _ => VBoolean false
  end.
Definition fn_ifs (args : list value) : res value :=
  if Nat.even (length args) then Ok (ifs_loop args)
  else Err (err "IFS expects pairs of condition,value arguments").

(** [logical.rs:62-68] *)
Definition fn_between (args : list value) : res value :=
  match args with
  | [a; b; c] =>
      lo <- ok_or (as_number a) (err "BETWEEN min must be a number") ;;
      hi <- ok_or (as_number b) (err "BETWEEN max must be a number") ;;
      x <- ok_or (as_number c) (err "BETWEEN value must be a number") ;;
      Ok (VBoolean (f_leb lo x && f_leb x hi))
  | _ => Err (err "BETWEEN expects 3 arguments: (min, max, value)")
  end.

(** [logical.rs:4-71] *)
Definition exec_logical (name : str) (args : list value) : res value :=
  if is name "__CONST_TRUE__" then Ok (VBoolean true)
  else if is name "__CONST_FALSE__" then Ok (VBoolean false)
  else if is name "__TERNARY__" then fn_ternary args
  else if is name "XOR" then fn_xor args
  else if is name "AND" then Ok (VBoolean (and_loop args))
  else if is name "OR" then Ok (VBoolean (or_loop args))
  else if is name "NOT" then fn_not args
  else if is name "IF" then fn_if args
  else if is name "IFS" then fn_ifs args
  else if is name "BETWEEN" then fn_between args
  else Err (mkErr (lit "Unknown logical function: " ++ name) None).
