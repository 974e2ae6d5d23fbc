(** Vocabulary for the arguments of the functions on numbers and on times. *)
From Coq Require Import String List ZArith NArith.
From Verif Require Import Base F64 Syntax Spec Spec_dates.
Import ListNotations.
Local Open Scope Z_scope.

(** the functions that read numbers, each with what it takes for an argument that is missing or is no number *)
Definition number_functions : list (string * list Z) :=
  [("CEIL", [0]); ("CEILING", [0]); ("FLOOR", [0]); ("INT", [0]); ("ABS", [0]); ("SQRT", [0]); ("POW", [0; 0]); ("POWER", [0; 0]); ("MOD", [0; 1])]%string.
(** the numbers among the arguments, with the others filled in; what follows is not read *)
Fixpoint filled (missing : list Z) (vs : list value) : list value :=
  match missing with
  | [] => []
  | d :: more => match vs with
                 | VNumber x :: r => VNumber x :: filled more r
                 | _ :: r => num d :: filled more r
                 | [] => num d :: filled more []
                 end
  end.
(** the kinds of argument a function on times needs *)
Inductive wanted := ATime | ANumber | AText.
Definition fits (w : wanted) (v : value) : Prop :=
  match w with ATime => exists t, v = VDateTime t | ANumber => exists x, v = VNumber x | AText => exists s, v = VString s end.
Definition time_functions : list (string * list wanted) :=
  [("YEAR", [ATime]); ("MONTH", [ATime]); ("DAY", [ATime]); ("DATEADD", [ATime; ANumber; AText]); ("DATEDIFF", [ATime; ATime; AText])]%string.
(** the first arguments are of these kinds *)
Definition begins_with (ws : list wanted) (vs : list value) : Prop := exists first more, vs = first ++ more /\ Forall2 fits ws first.
(** the names of the units, in lower case *)
Definition unit_names : list string := map fst (fixed_units ++ month_units).
