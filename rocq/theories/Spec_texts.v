(** Vocabulary for the arguments of the functions on texts. *)
From Coq Require Import String List NArith.
From Verif Require Import Base F64 Syntax Spec.
Import ListNotations.
Local Open Scope N_scope.

Inductive kind := AText | ANumber.
Definition of_kind (k : kind) (v : value) : Prop :=
  match k with AText => exists s, v = VString s | ANumber => exists x, v = VNumber x end.
(** the arguments a function needs, and those it may have besides *)
Definition text_arguments : list (string * (list kind * list kind)) :=
  [("SUBSTITUTE", ([AText; AText; AText], [])); ("SUBSTITUTEM", ([AText; AText; AText], [])); ("LEFT", ([AText], [ANumber])); ("RIGHT", ([AText], [ANumber])); ("MID", ([AText; ANumber], [ANumber]));
   ("SUBSTRING", ([AText; ANumber], [])); ("SPLIT", ([AText], [AText])); ("REPLACE", ([AText; ANumber; ANumber; AText], [])); ("UPPER", ([AText], [])); ("LOWER", ([AText], [])); ("TRIM", ([AText], [])); ("INCLUDES", ([AText; AText], []))]%string.
(** enough arguments, each of its kind *)
Definition well_given (needed besides : list kind) (vs : list value) : Prop :=
  (length needed <= length vs)%nat /\ forall i k v, nth_error (needed ++ besides) i = Some k -> nth_error vs i = Some v -> of_kind k v.
(** the replacement before, between and after the characters *)
Fixpoint spread (new s : str) : str := match s with [] => new | c :: r => new ++ [c] ++ spread new r end.
