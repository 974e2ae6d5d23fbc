(** Vocabulary for the extension registry. *)
From Coq Require Import String List.
From Verif Require Import Base Syntax Methods Traits.
Import ListNotations.

(** registering something with the extension registry *)
Inductive registration :=
| Function (f : ext_fn)
| Converter (c : converter)
| Handler (h : handler)
| Source (s : source).
Definition register_one (x : extensions) (r : registration) : extensions :=
  match r with
  | Function f => ext_register_function x f
  | Converter c => ext_register_converter x c
  | Handler h => ext_register_handler x h
  | Source s => ext_register_source x s
  end.
(** the registry after these registrations, the oldest first *)
Definition extended (rs : list registration) : extensions := fold_left register_one rs ext_new.
(** [r] is the last of [rs] among those that satisfy [p] *)
Definition last_such {A} (p : A -> Prop) (rs : list A) (r : A) : Prop :=
  exists a b, rs = a ++ r :: b /\ p r /\ Forall (fun r => ~ p r) b.
Definition first_such {A} (p : A -> Prop) (rs : list A) (r : A) : Prop :=
  exists a b, rs = a ++ r :: b /\ p r /\ Forall (fun r => ~ p r) a.
Definition function_named (n : str) (r : registration) : Prop := match r with Function f => xf_name f = n | _ => False end.
Definition converter_to (n : str) (r : registration) : Prop := match r with Converter c => cv_target c = n | _ => False end.
Definition source_named (n : str) (r : registration) : Prop := match r with Source s => so_name s = n | _ => False end.
Definition handles (v : value) (m : str) (r : registration) : Prop := match r with Handler h => hd_can h v m = true | _ => False end.
