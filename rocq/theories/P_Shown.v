(** Property theorems about the text the command [sk] prints for a result. *)
From Coq Require Import Floats.SpecFloat QArith.
From Coq Require Import String List ZArith NArith Bool Lia.
From Verif Require Import Base F64 F64Text Syntax Lexer Parser Ext Json Registry Core Methods Api Lines Host HttpServer Pretty Command Spec Spec_syntax Spec_numbers Spec_text Spec_json Spec_http Spec_command Spec_crash
  Base_proofs HttpRoutes_proofs HttpCache_proofs Command_proofs Crash_examples_proofs Shown_proofs.
From Verif Require Import Spec_http Spec_command Spec_shown.
Import ListNotations.
Local Open Scope N_scope.

(** * C91 What [sk] prints *)

(** without "--output-json", the result is printed as [shown] says, followed by a line feed *)
Theorem C91_variables : forall (X : Ext) (H : Host), unicode X -> platform_doubles X -> forall reg, functions_double reg -> forall ms expr ps args vars v, command_line ps args -> json_given ps = None -> ~ as_json ps -> bound ps vars ->
  Spec_http.gives reg expr vars (Ok v) -> exists out, sk_main reg ms (expr :: args) = Exited 0 (out ++ [10]) [] /\ shown v out.
Proof. exact @shown_variables. Qed.
Print Assumptions C91_variables.

Theorem C91_json : forall (X : Ext) (H : Host), unicode X -> platform_doubles X -> forall reg, functions_double reg -> forall ms expr ps args text v, command_line ps args -> Forall (fun b => exists w, argument_value (snd b) w) (bindings ps) -> json_given ps = Some text ->
  ~ has_statements expr -> ~ as_json ps -> evaluate_with_json_custom reg expr text = Ok v -> exists out, sk_main reg ms (expr :: args) = Exited 0 (out ++ [10]) [] /\ shown v out.
Proof. exact @shown_object. Qed.
Print Assumptions C91_json.

(** two runs print the same exactly if their results are the same *)
Theorem C91_distinct : forall (X : Ext) (H : Host), unicode X -> platform_doubles X -> forall reg reg', functions_double reg -> functions_double reg' -> forall ms ms' expr expr' ps ps' args args' vars vars' v v',
  command_line ps args -> json_given ps = None -> ~ as_json ps -> bound ps vars -> Spec_http.gives reg expr vars (Ok v) ->
  command_line ps' args' -> json_given ps' = None -> ~ as_json ps' -> bound ps' vars' -> Spec_http.gives reg' expr' vars' (Ok v') ->
  (sk_main reg ms (expr :: args) = sk_main reg' ms' (expr' :: args') <-> v = v').
Proof. exact @shown_distinct. Qed.
Print Assumptions C91_distinct.

Example C91_nonvacuous :
  let X := example_ext in let H := example_host in let sk := fun args => sk_main reg_new f_zero (map lit args) in
  unicode X /\ platform_doubles X /\ functions_double reg_new /\ command_line [] [] /\ json_given [] = None /\ ~ as_json [] /\ bound [] [] /\ ~ has_statements (lit "1/20000") /\ Spec_http.gives reg_new (lit "1/20000") [] (evaluate_with_custom reg_new (lit "1/20000") [])
  /\ sk ["1/20000"]%string = Exited 0 (lit "Number(5e-5)" ++ [10]) [] /\ sk ["1/10000"]%string = Exited 0 (lit "Number(0.0001)" ++ [10]) [] /\ sk ["10000000000000000"]%string = Exited 0 (lit "Number(1e16)" ++ [10]) [] /\ sk ["1234567.5 * -1"]%string = Exited 0 (lit "Number(-1234567.5)" ++ [10]) []
  /\ sk ["[1, TRUE, NULL]"]%string = Exited 0 (lit "Array([Number(1.0), Boolean(true), Null])" ++ [10]) [] /\ sk [":x"; "x=a""b\c"]%string = Exited 0 (lit "String(""a\""b\\c"")" ++ [10]) []
  /\ sk_main reg_new f_zero [lit ":x"; lit "x=" ++ [9; 1; 127]] = Exited 0 (lit "String(""\t\u{1}\u{7f}"")" ++ [10]) [].
Proof. intros X H sk. split; [apply example_unicode|]. split; [apply doubles_example|]. split; [intros name f vs v K; discriminate K|]. split; [now split; [constructor|]|]. split; [reflexivity|]. split; [intros []|].
  assert (Ns : ~ has_statements (lit "1/20000")) by (rewrite <- statements_bool; vm_compute; discriminate).
  split. { split; [constructor|]. intros name v. split; [discriminate|]. intros (text & (b & a & E & _) & _). destruct b; discriminate E. }
  split; [exact Ns|]. split; [right; now split|]. vm_compute. repeat split. Qed.
