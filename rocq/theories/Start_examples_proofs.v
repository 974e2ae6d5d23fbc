(** Loading the functions of the hooks directory at the start: examples. *)
From Coq Require Import String List ZArith NArith Bool Lia.
From Verif Require Import Base F64 Utf8 Syntax Ext Json Registry Methods Core Evaluator Api Lines Host JsPlugin HttpServer Command Spec Spec_syntax Spec_text Spec_registry Spec_http Spec_js Spec_start.
From Verif Require Import Base_proofs JsPlugin_proofs Hooks_proofs Lifecycle_proofs Js_examples_proofs Start_proofs.
Import ListNotations.
Local Open Scope N_scope.

Lemma two_hooks_example : let X := example_ext in let H := example_host in
  readable /\ NoDup (map fst two_hooks) /\ (exists f g, listing two_hooks [f; g] /\ registrable f /\ registrable g /\ js_name f = lit "DOUBLE" /\ js_name g = lit "TRIPLE")
  /\ sk two_hooks f_zero [lit "double(4).length()"] = Exited 0 (lit "Number(" ++ N_to_str (N.of_nat (length double_source)) ++ lit ".0)" ++ [10]) (lit "Loaded 2 custom JavaScript function(s)" ++ [10]).
Proof.
  intros X H. assert (Nd : NoDup (map fst two_hooks)) by (repeat constructor; cbn; intuition discriminate). split; [exact readable_example|]. split; [exact Nd|]. split; [|vm_compute; reflexivity].
  exists double_function, triple_function. split; [|split; [|split]].
  - change [double_function; triple_function] with (loaded (hook_files two_hooks)). apply listed_functions; [exact readable_example|exact Nd].
  - split; [vm_compute; discriminate|]. intros m K. injection K as <-. vm_compute. discriminate.
  - split; [vm_compute; discriminate|]. intros m K. discriminate.
  - split; reflexivity.
Qed.
Lemma statements_example : let X := example_ext in let H := example_host in
  sk two_hooks f_zero [lit "double(4).length() = 1"] = Exited 0 (lit "Boolean(false)" ++ [10]) (lit "Loaded 2 custom JavaScript function(s)" ++ [10])
  /\ sk two_hooks f_zero [lit ":x := double(4).length(); :x = 1"] = Exited 2 [] (lit "Loaded 2 custom JavaScript function(s)" ++ [10] ++ lit "Error: Unknown function: DOUBLE" ++ [10]).
Proof. intros X H. split; vm_compute; reflexivity. Qed.
Lemma blocked_start : let X := example_ext in let H := example_host in
  sk [(lit "/srv/hooks/a.js", bad_hook); (lit "/srv/hooks/double.js", double_source)] f_zero [lit "DOUBLE(4)"]
    = Exited 2 [] (lit "Warning: Failed to load JavaScript functions: min_args cannot be greater than max_args" ++ [10] ++ lit "Error: Unknown function: DOUBLE" ++ [10])
  /\ hook_file [(lit "/srv/hooks/a.js", bad_hook); (lit "/srv/hooks/double.js", double_source)] (lit "double.js") double_source.
Proof.
  intros X H. split; [vm_compute; reflexivity|].
  split; [exists (lit "doubl"), 101; split; [reflexivity|discriminate]|]. exists (lit "/srv/hooks/double.js"). split; [exists (lit "/srv/hooks"); split; [exact hooks_at|reflexivity]|]. vm_compute. reflexivity.
Qed.
