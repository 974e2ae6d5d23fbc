(** Property theorems about the arguments of the functions on texts. *)
From Coq Require Import String List ZArith NArith Bool.
From Verif Require Import Base F64 F64Text Syntax Ext Registry Core Methods Evaluator Api Spec Spec_http Spec_texts Base_proofs Texts_proofs.
From Verif Require Import Spec_http.
Import ListNotations.
Local Open Scope N_scope.

(** * C92 Arguments left out, empty or of the wrong kind *)

(** SPLIT without a separator: the pieces between commas, without the white space around them *)
Theorem C92_split_default : forall (X : Ext) c e s, uncustomised c "SPLIT" -> eval e c = Ok (VString s) ->
  exists items cores, eval (call "SPLIT" [e]) c = Ok (VArray (map VString cores)) /\ items <> [] /\ joined (lit ",") items s /\ Forall (fun i => ~ In 44 i) items /\ Forall2 trimmed items cores.
Proof. exact @split_default. Qed.
Print Assumptions C92_split_default.

(** SPLIT at the empty text: the characters, between two empty texts *)
Theorem C92_split_empty : forall (X : Ext) c e d s, uncustomised c "SPLIT" -> eval e c = Ok (VString s) -> eval d c = Ok (VString []) ->
  eval (call "SPLIT" [e; d]) c = Ok (VArray (map VString ([[]] ++ map (fun ch => [ch]) s ++ [[]]))).
Proof. exact @split_nothing. Qed.
Print Assumptions C92_split_empty.

(** SUBSTITUTE of the empty text puts the replacement before, between and after the characters *)
Theorem C92_substitute_empty : forall (X : Ext) name c e o n s new, name = "SUBSTITUTE"%string \/ name = "SUBSTITUTEM"%string -> uncustomised c name ->
  eval e c = Ok (VString s) -> eval o c = Ok (VString []) -> eval n c = Ok (VString new) -> eval (call name [e; o; n]) c = Ok (VString (spread new s)).
Proof. exact @substitute_nothing. Qed.
Print Assumptions C92_substitute_empty.

(** too few arguments, or one of the wrong kind, are an error, whatever the others are *)
Theorem C92_wrong_arguments : forall (X : Ext) name needed besides c es vs, In (name, (needed, besides)) text_arguments -> uncustomised c name -> evaluate_to c es vs ->
  ~ well_given needed besides vs -> fails (eval (call name es) c).
Proof. exact @wrong_arguments. Qed.
Print Assumptions C92_wrong_arguments.

(** but the length given to SUBSTRING is not checked: one of another kind counts as none *)
Theorem C92_substring_length_refuted : let X := example_ext in evaluate (lit "SUBSTRING('hello', 1, '2')") = Ok (VString (lit "ello")) /\ evaluate (lit "SUBSTRING('hello', 1, 2)") = Ok (VString (lit "el")).
Proof. vm_compute. split; reflexivity. Qed.
Print Assumptions C92_substring_length_refuted.

Example C92_nonvacuous :
  let X := example_ext in
  evaluate (lit "SPLIT(' a b ,c,, d')") = Ok (VArray (map (fun t => VString (lit t)) ["a b"; "c"; ""; "d"]%string))
  /\ evaluate (lit "SPLIT('ab', '')") = Ok (VArray (map (fun t => VString (lit t)) [""; "a"; "b"; ""]%string))
  /\ evaluate (lit "SUBSTITUTE('ab', '', '-')") = Ok (VString (lit "-a-b-"))
  /\ In ("MID"%string, ([AText; ANumber], [ANumber])) text_arguments /\ ~ well_given [AText; ANumber] [ANumber] [VString []; VNumber f_one; VNull] /\ well_given [AText; ANumber] [ANumber] [VString []; VNumber f_one]
  /\ (exists er, evaluate (lit "MID('abc', 1, NULL)") = Err er).
Proof. intros X. split; [vm_compute; reflexivity|]. split; [vm_compute; reflexivity|]. split; [vm_compute; reflexivity|]. split; [unfold text_arguments; cbn [In]; tauto|]. split; [|split].
  - intros [_ W]. destruct (W 2%nat ANumber VNull eq_refl eq_refl) as [x E]. discriminate E.
  - split; [apply le_n|]. intros [|[|[|i]]] k v K1 K2; try discriminate K2; injection K1 as <-; injection K2 as <-; cbn; eauto.
  - vm_compute. eexists. reflexivity. Qed.
