(** Vocabulary for custom functions. *)
From Coq Require Import String List ZArith NArith Bool.
From Verif Require Import Base Syntax Ext Registry Dispatch Api.
Import ListNotations.
Local Open Scope N_scope.

Section Registrations.
  Context {X : Ext}.
  (** names that differ only in letter case *)
  Definition same_name (a b : str) : Prop := to_uppercase a = to_uppercase b.
  (** a function that may be registered: it has a name, and its maximum is not below its minimum *)
  Definition well_formed (f : custom_fn) : Prop :=
    to_uppercase (cf_name f) <> [] /\ (forall m, cf_max f = Some m -> cf_min f <= m).
  (** the number of arguments is within the function's bounds *)
  Definition accepts (f : custom_fn) (n : nat) : Prop :=
    cf_min f <= N.of_nat n /\ (forall m, cf_max f = Some m -> N.of_nat n <= m).

  Inductive operation := Register (f : custom_fn) | Unregister (name : str).
  (** the registry after a history of calls, the oldest first; a rejected registration leaves it as it was *)
  Definition after_one (r : registry) (o : operation) : registry :=
    match o with
    | Register f => match register_function r f with Ok r' => r' | _ => r end
    | Unregister n => snd (unregister_function r n)
    end.
  Definition after (h : list operation) : registry := fold_left after_one h reg_new.

  (** [o] says something about [name] *)
  Definition concerns (name : str) (o : operation) : Prop :=
    match o with
    | Register f => well_formed f /\ same_name (cf_name f) name
    | Unregister n => same_name n name
    end.
  (** the last operation about [name] registered [f] *)
  Definition registered (h : list operation) (name : str) (f : custom_fn) : Prop :=
    exists h1 h2, h = h1 ++ Register f :: h2 /\ concerns name (Register f) /\ Forall (fun o => ~ concerns name o) h2.
End Registrations.

(** every part of an expression satisfies [p] *)
Fixpoint everywhere (p : expr -> bool) (e : expr) {struct e} : bool :=
  p e &&
  match e with
  | ENumber _ | EStringLit _ | ENull | EVariable _ => true
  | EUnary _ a | EPropertyAccess a _ | ESafePropertyAccess a _ | ESpread a | ETypeCast a _ | EAssignment _ a => everywhere p a
  | EBinary a _ b | EIndex a b => everywhere p a && everywhere p b
  | ESafeMethodCall a _ args | EMethodCall a _ args _ => everywhere p a && forallb (everywhere p) args
  | EFunctionCall _ es | EArray es | ESequence es => forallb (everywhere p) es
  | EObjectLiteral kvs => forallb (fun kv => everywhere p (snd kv)) kvs
  | ESlice a s t => everywhere p a && match s with Some x => everywhere p x | None => true end && match t with Some x => everywhere p x | None => true end
  end.
(** no function called anywhere in [e] is registered *)
Definition calls_nothing_of {X : Ext} (reg : registry) (e : expr) : Prop :=
  everywhere (fun e => match e with EFunctionCall n _ => negb (has_custom_function reg n) | _ => true end) e = true.
(** arguments of method calls contain no positions, slices or calls of FILTER, FIND, MAP, REDUCE *)
Definition simple_part (e : expr) : bool :=
  match e with
  | EIndex _ _ | ESlice _ _ _ => false
  | EFunctionCall n _ => negb (one_of ["FILTER"; "FIND"; "MAP"; "REDUCE"]%string n)
  | _ => true
  end.
Definition simple_methods (e : expr) : Prop :=
  everywhere (fun e => match e with ESafeMethodCall _ _ args | EMethodCall _ _ args _ => forallb (everywhere simple_part) args | _ => true end) e = true.
