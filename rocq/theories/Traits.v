(** [traits.rs]: extension points and the registry that holds them. *)
From Coq Require Import String List ZArith NArith Bool.
From Verif Require Import Base F64 Syntax Methods.
Import ListNotations.
Local Open Scope N_scope.

(** ** Implementations a user supplies: a [dyn Trait] is the record of what its
    methods return.  Simplification: results are functions of the arguments;
    descriptions and [supported_methods] are left out. *)
(** [traits.rs:6-35] *)
Record ext_fn := mkExtFn { xf_name : str; xf_arity : option N; xf_exec : list value -> res value }.
(** [traits.rs:38-47] *)
Record converter := mkConverter { cv_target : str; cv_convert : value -> res value; cv_can : value -> bool }.
(** [traits.rs:62-76] *)
Record handler := mkHandler { hd_can : value -> str -> bool; hd_exec : value -> str -> list value -> res value }.
(** [traits.rs:106-121] *)
Record source := mkSource { so_name : str; so_fetch : str -> res value; so_exists : str -> bool }.

(** [traits.rs:23-34]: the default [validate_args] *)
Definition validate_args (f : ext_fn) (args : list value) : res unit :=
  match xf_arity f with
  | Some expected =>
      let n := N.of_nat (length args) in
      if negb (n =? expected)
      then Err (mkErr (xf_name f ++ lit " expects " ++ N_to_str expected ++ lit " arguments, got " ++ N_to_str n) None)
      else Ok tt
  | None => Ok tt
  end.

(** ** [ExtensionRegistry] ([traits.rs:124-188]) *)
Record extensions := mkExtensions {
  x_functions : smap ext_fn;
  x_converters : smap converter;
  x_handlers : list handler;
  x_sources : smap source
}.
(** [traits.rs:132-139] *)
Definition ext_new : extensions := mkExtensions [] [] [] [].
(** [traits.rs:142-144] *)
Definition ext_register_function (x : extensions) (f : ext_fn) : extensions :=
  mkExtensions (minsert (xf_name f) f (x_functions x)) (x_converters x) (x_handlers x) (x_sources x).
(** [traits.rs:147-149] *)
Definition ext_register_converter (x : extensions) (c : converter) : extensions :=
  mkExtensions (x_functions x) (minsert (cv_target c) c (x_converters x)) (x_handlers x) (x_sources x).
(** [traits.rs:152-154] *)
Definition ext_register_handler (x : extensions) (h : handler) : extensions :=
  mkExtensions (x_functions x) (x_converters x) (x_handlers x ++ [h]) (x_sources x).
(** [traits.rs:157-159] *)
Definition ext_register_source (x : extensions) (s : source) : extensions :=
  mkExtensions (x_functions x) (x_converters x) (x_handlers x) (minsert (so_name s) s (x_sources x)).
(** [traits.rs:162-164] *)
Definition ext_function (x : extensions) (name : str) : option ext_fn := mget name (x_functions x).
(** [traits.rs:167-169] *)
Definition ext_converter (x : extensions) (target : str) : option converter := mget target (x_converters x).
(** [traits.rs:172-177] *)
Definition ext_handler (x : extensions) (v : value) (m : str) : option handler := find (fun h => hd_can h v m) (x_handlers x).
(** [traits.rs:180-182] *)
Definition ext_source (x : extensions) (name : str) : option source := mget name (x_sources x).

(** ** [MemoryVariableResolver] ([traits.rs:194-216]) *)
Definition resolve (variables : env) (name : str) : res (option value) := Ok (mget name variables).
Definition has_variable (variables : env) (name : str) : bool := mhas name variables.
Definition get_all_variables (variables : env) : env := variables.
(** ** [ConstantDataSource] ([traits.rs:219-245]) *)
Definition constant_source (name : str) (data : env) : source :=
  mkSource name
    (fun key => match mget key data with
                | Some v => Ok v
                | None => Err (mkErr (lit "Key '" ++ key ++ lit "' not found in data source '" ++ name ++ lit "'") None)
                end)
    (fun key => mhas key data).
