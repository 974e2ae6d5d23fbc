(** [lib.rs]: the public functions.  The global registry is an argument; the
    functions that change it return the new one.  Lock poisoning (a panic in
    a thread that holds the registry for writing) is not modelled. *)
From Coq Require Import String List ZArith NArith Bool.
From Verif Require Import Base F64 Syntax Ext Json Utils Registry Methods Core Evaluator Lexer Parser.
Import ListNotations.

Section Api.
  Context {X : Ext}.

  (** [lib.rs:24-34] *)
  Definition sanitize_json_key (key : str) : str :=
    map (fun c => if is_alphanumeric c || N.eqb c 95 then c else 95%N) key.

  (** [lib.rs:51-54] *)
  Definition evaluate (input : str) : res value :=
    e <- parse input ;; eval e empty_ctx.
  (** [lib.rs:57-60] *)
  Definition evaluate_with (input : str) (vars : env) : res value :=
    e <- parse input ;; eval e (vars_ctx vars).
  (** [lib.rs:156-159] *)
  Definition evaluate_with_custom (reg : registry) (input : str) (vars : env) : res value :=
    e <- parse input ;; eval e (custom_ctx vars reg).

  (** [lib.rs:67-85], [164-182] *)
  Definition json_vars (text : str) : res env :=
    j <- parse_json text ;;
    match j with
    | JObj kvs =>
        Ok (fold_left (fun m kv => minsert (sanitize_json_key (fst kv)) (json_to_value (snd kv)) m)
                      kvs (minsert (lit "arguments") (VJson text) []))
    | _ => Err (err "JSON must be an object with key-value pairs")
    end.
  (** [lib.rs:66-88] *)
  Definition evaluate_with_json (input text : str) : res value :=
    vars <- json_vars text ;; evaluate_with input vars.
  (** [lib.rs:163-185] *)
  Definition evaluate_with_json_custom (reg : registry) (input text : str) : res value :=
    vars <- json_vars text ;; evaluate_with_custom reg input vars.

  (** [lib.rs:189-192] *)
  Definition evaluate_with_assignments (input : str) (vars : env) : res value :=
    e <- parse input ;; '(v, _) <- eval_assign e vars ;; Ok v.
  (** [lib.rs:195-198] *)
  Definition evaluate_with_assignments_and_context (input : str) (vars : env) : res (value * env) :=
    e <- parse input ;; eval_assign e vars.

  (** [lib.rs:122-126] *)
  Definition register_function (reg : registry) (f : custom_fn) : res registry := reg_register reg f.
  (** [lib.rs:129-135] *)
  Definition unregister_function (reg : registry) (name : str) : bool * registry :=
    reg_unregister reg name.
  (** [lib.rs:138-144] *)
  Definition list_custom_functions (reg : registry) : list str := reg_list reg.
  (** [lib.rs:147-153] *)
  Definition has_custom_function (reg : registry) (name : str) : bool := reg_has reg name.
End Api.
