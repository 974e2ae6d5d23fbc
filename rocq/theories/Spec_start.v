(** Vocabulary for what the programs do before anything else: they load the
    functions of the hooks directory. *)
From Coq Require Import String List ZArith NArith Bool.
From Verif Require Import Base F64 Syntax Ext Registry Lines Host JsPlugin HttpServer Command Spec Spec_syntax Spec_text Spec_registry Spec_http Spec_js.
Import ListNotations.
Local Open Scope N_scope.

Section Start.
  Context {X : Ext} {H : Host}.
  (** the functions of the JavaScript files, in some order of these files,
      without the files whose annotations cannot be read *)
  Definition listing (fs : files) (l : list js_function) : Prop :=
    exists named, NoDup (map fst named)
      /\ (forall name source, In (name, source) named <-> hook_file fs name source /\ exists f, says source f /\ bounds_read source)
      /\ Forall2 (fun ns f => says (snd ns) f) named l.
  (** the registry has the functions of the list and no others; of functions
      with the same name, the last one *)
  Definition registered_as (l : list js_function) (reg : registry) : Prop :=
    (forall before f after name, l = before ++ f :: after -> same_name (js_name f) name -> (forall g, In g after -> ~ same_name (js_name g) name) ->
       exists g, reg_get reg name = Some g /\ runs_as g f)
    /\ (forall name, (forall f, In f l -> ~ same_name (js_name f) name) -> reg_get reg name = None).
  (** the same outcome, but for a text written to standard error first *)
  Inductive after_notice (text : str) : outcome -> outcome -> Prop :=
  | noticed : forall status out errors, after_notice text (Exited status out errors) (Exited status out (text ++ errors))
  | noticed_crash : after_notice text Crashed Crashed.
  (** what is said about [n] functions that have been loaded: nothing if there are none *)
  Inductive loaded_notice (n : nat) : str -> Prop :=
  | none_loaded : n = 0%nat -> loaded_notice n []
  | some_loaded : forall t, n <> 0%nat -> integer_written (Z.of_nat n) t -> loaded_notice n (lit "Loaded " ++ t ++ lit " custom JavaScript function(s)" ++ [10]).
  Inductive warning : str -> Prop :=
  | warned : forall msg, warning (lit "Warning: Failed to load JavaScript functions: " ++ msg ++ [10]).
End Start.

(** ** Examples *)
Definition two_hooks : files := [(lit "/srv/hooks/double.js", double_source); (lit "/srv/hooks/sub/triple.js", triple_source)].
Definition bad_hook : str := join [10] [lit "// @name: BAD"; lit "// @min_args: 2"; lit "// @max_args: 1"; lit "return 8;"].
