(** Vocabulary for the arguments of methods. *)
From Coq Require Import String List ZArith NArith.
From Verif Require Import Base F64 Syntax Spec Spec_methods.
Import ListNotations.
Local Open Scope Z_scope.

(** what a method is called on *)
Inductive receiver := OnText | OnNumber | OnObject.
Definition receives (r : receiver) (v : value) : Prop :=
  match r with OnText => exists s, v = VString s | OnNumber => exists x, v = VNumber x | OnObject => exists s, v = VJson s end.
(** what an argument must be; a figure is a number or an amount *)
Inductive sort_of := GText | GNumber | GFigure | GArray.
Definition suits (k : sort_of) (v : value) : Prop :=
  match k with
  | GText => exists s, v = VString s
  | GNumber => exists x, v = VNumber x
  | GFigure => exists x, v = VNumber x \/ v = VCurrency x
  | GArray => exists xs, v = VArray xs
  end.
(** the arguments a method needs, and one it may have besides *)
Definition method_arguments : list (string * (receiver * (list sort_of * list sort_of))) :=
  [("includes", (OnText, ([GText], []))); ("contains", (OnText, ([GText], []))); ("startswith", (OnText, ([GText], []))); ("starts_with", (OnText, ([GText], [])));
   ("endswith", (OnText, ([GText], []))); ("ends_with", (OnText, ([GText], []))); ("split", (OnText, ([GText], []))); ("replace", (OnText, ([GText; GText], [])));
   ("substring", (OnText, ([GNumber], [GNumber]))); ("substr", (OnText, ([GNumber], [GNumber]))); ("round", (OnNumber, ([], [GNumber]))); ("between", (OnNumber, ([GFigure; GFigure], [])));
   ("has_key", (OnObject, ([GText], []))); ("has", (OnObject, ([GText], []))); ("dig", (OnObject, ([GArray], [])))]%string.
(** enough arguments, each of its sort *)
Definition suited (needed besides : list sort_of) (vs : list value) : Prop :=
  (length needed <= length vs)%nat /\ forall i k v, nth_error (needed ++ besides) i = Some k -> nth_error vs i = Some v -> suits k v.
