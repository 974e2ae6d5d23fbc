(** [custom.rs]: user-supplied functions and the function registry. *)
From Coq Require Import String List ZArith NArith Bool.
From Verif Require Import Base F64 Syntax Ext.
Import ListNotations.
Local Open Scope N_scope.

(** A [Box<dyn CustomFunction>] ([custom.rs:26-44]).  Simplification: the
    outcome of [execute] is a function of the arguments (a user function with
    hidden state is a different [custom_fn] each time); description and
    example, which are only documentation, are left out. *)
Record custom_fn := mkFn {
  cf_name : str;
  cf_min : N;
  cf_max : option N;
  cf_exec : list value -> res value
}.

(** [custom.rs:48-50]: keys are upper-cased names *)
Definition registry := smap custom_fn.
(** [custom.rs:54-58] *)
Definition reg_new : registry := [].

Section Registry.
  Context {X : Ext}.

  (** [custom.rs:61-75]; [usize::MAX] stands for "no maximum", which no
      [min_args] exceeds *)
  Definition reg_register (r : registry) (f : custom_fn) : res registry :=
    let name := to_uppercase (cf_name f) in
    match name with
    | [] => Err (err "Function name cannot be empty")
    | _ => if match cf_max f with Some m => m <? cf_min f | None => false end
           then Err (err "min_args cannot be greater than max_args")
           else Ok (minsert name f r)
    end.
  (** [custom.rs:78-80] *)
  Definition reg_get (r : registry) (name : str) : option custom_fn := mget (to_uppercase name) r.
  (** [custom.rs:83-85] *)
  Definition reg_list (r : registry) : list str := mkeys r.
  (** [custom.rs:88-90] *)
  Definition reg_unregister (r : registry) (name : str) : bool * registry :=
    let k := to_uppercase name in (mhas k r, mremove k r).
  (** [custom.rs:93-95] *)
  Definition reg_has (r : registry) (name : str) : bool := mhas (to_uppercase name) r.

  (** [custom.rs:98-124] *)
  Definition reg_execute (r : registry) (name : str) (args : list value) : res value :=
    match reg_get r name with
    | None => Err (mkErr (lit "Unknown custom function: " ++ name) None)
    | Some f =>
        let n := N.of_nat (length args) in
        if n <? cf_min f
        then Err (mkErr (name ++ lit " expects at least " ++ N_to_str (cf_min f)
                              ++ lit " arguments, got " ++ N_to_str n) None)
        else if match cf_max f with Some m => m <? n | None => false end
        then Err (mkErr (name ++ lit " expects at most "
                              ++ N_to_str (match cf_max f with Some m => m | None => 0 end)
                              ++ lit " arguments, got " ++ N_to_str n) None)
        else cf_exec f args
    end.
End Registry.
