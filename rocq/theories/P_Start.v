(** Property theorems about the start of the programs. *)
From Coq Require Import String List ZArith NArith Bool.
From Verif Require Import Base F64 Syntax Ext Registry Methods Core Evaluator Api Lines Host JsPlugin HttpServer Command Spec Spec_syntax Spec_text Spec_registry Spec_http Spec_js Spec_start Start_proofs Start_examples_proofs.
Import ListNotations.
Local Open Scope N_scope.

(** * C60 The command [sk] starts with the functions of the hooks directory *)

(** all functions of the JavaScript files are loaded and counted on standard
    error; or, if one of them is refused, those before it are, and a warning is
    written.  The rest is the command of C78 with these functions. *)
Theorem C60_loads : forall (X : Ext) (H : Host) fs ms args, readable -> NoDup (map fst fs) -> exists l, listing fs l /\
  ((Forall registrable l /\ exists reg text, registered_as l reg /\ loaded_notice (length l) text /\ after_notice text (sk_main reg ms args) (sk fs ms args))
   \/ exists before refused after reg text, l = before ++ refused :: after /\ Forall registrable before /\ ~ registrable refused /\
        registered_as before reg /\ warning text /\ after_notice text (sk_main reg ms args) (sk fs ms args)).
Proof. exact @loads. Qed.
Print Assumptions C60_loads.

(** if the directory cannot be created or read, there is a warning and no function *)
Theorem C60_unreadable : forall (X : Ext) (H : Host) fs ms args, h_mkdir_fails <> None \/ h_list_fails <> None ->
  exists reg text, registered_as [] reg /\ warning text /\ after_notice text (sk_main reg ms args) (sk fs ms args).
Proof. exact @unreadable_hooks. Qed.
Print Assumptions C60_unreadable.

(** a call of a loaded function runs its source with the values of the arguments *)
Theorem C60_call : forall (X : Ext) (H : Host) l reg before f after call es vs vars, registered_as l reg -> l = before ++ f :: after -> (forall g, In g after -> ~ same_name (js_name g) (js_name f)) ->
  same_name call (js_name f) -> ~ In call (map lit ["__TERNARY__"; "__CONST_TRUE__"; "__CONST_FALSE__"]%string) -> evaluate_to (custom_ctx vars reg) es vs ->
  js_min f <= N.of_nat (length vs) -> (forall m, js_max f = Some m -> N.of_nat (length vs) <= m) ->
  eval (EFunctionCall call es) (custom_ctx vars reg) = js_execute (js_code f) vs.
Proof. exact @loaded_call. Qed.
Print Assumptions C60_call.
Example C60_nonvacuous : let X := example_ext in let H := example_host in
  readable /\ NoDup (map fst two_hooks) /\ (exists f g, listing two_hooks [f; g] /\ registrable f /\ registrable g /\ js_name f = lit "DOUBLE" /\ js_name g = lit "TRIPLE")
  /\ sk two_hooks f_zero [lit "double(4).length()"] = Exited 0 (lit "Number(" ++ N_to_str (N.of_nat (length double_source)) ++ lit ".0)" ++ [10]) (lit "Loaded 2 custom JavaScript function(s)" ++ [10]).
Proof. exact two_hooks_example. Qed.

(** an expression with statements is evaluated without the functions *)
Theorem C60_statements : forall (X : Ext) (H : Host) reg reg' ms expr args, has_statements expr -> sk_main reg ms (expr :: args) = sk_main reg' ms (expr :: args).
Proof. exact @statements_alone. Qed.
Print Assumptions C60_statements.

(** so loaded functions cannot be called everywhere *)
Theorem C60_everywhere_refuted : let X := example_ext in let H := example_host in
  sk two_hooks f_zero [lit "double(4).length() = 1"] = Exited 0 (lit "Boolean(false)" ++ [10]) (lit "Loaded 2 custom JavaScript function(s)" ++ [10])
  /\ sk two_hooks f_zero [lit ":x := double(4).length(); :x = 1"] = Exited 2 [] (lit "Loaded 2 custom JavaScript function(s)" ++ [10] ++ lit "Error: Unknown function: DOUBLE" ++ [10]).
Proof. exact statements_example. Qed.
Print Assumptions C60_everywhere_refuted.

(** and one function that is refused keeps the others from being loaded *)
Theorem C60_blocked_refuted : let X := example_ext in let H := example_host in
  sk [(lit "/srv/hooks/a.js", bad_hook); (lit "/srv/hooks/double.js", double_source)] f_zero [lit "DOUBLE(4)"]
    = Exited 2 [] (lit "Warning: Failed to load JavaScript functions: min_args cannot be greater than max_args" ++ [10] ++ lit "Error: Unknown function: DOUBLE" ++ [10])
  /\ hook_file [(lit "/srv/hooks/a.js", bad_hook); (lit "/srv/hooks/double.js", double_source)] (lit "double.js") double_source.
Proof. exact blocked_start. Qed.
Print Assumptions C60_blocked_refuted.
