(** Property theorems about the arguments of methods. *)
From Coq Require Import String List ZArith NArith Bool Lia.
From Verif Require Import Base F64 Syntax Ext Json Dispatch Methods Core Evaluator Api Spec Spec_methods Spec_given Given_proofs.
Import ListNotations.
Local Open Scope Z_scope.

(** * C96 The arguments of methods *)

(** a method fails on an argument of another sort than [method_arguments] says, or on too few *)
Theorem C96_wrong : forall (X : Ext) name r needed besides c t v n args vs, In (name, (r, (needed, besides))) method_arguments -> spelled name n -> eval t c = Ok v -> receives r v ->
  Forall2 (argument c) args vs -> ~ suited needed besides vs -> fails (eval (method t n args) c).
Proof. exact @wrong_given. Qed.
Print Assumptions C96_wrong.

(** and with the error of its first argument, if that fails *)
Theorem C96_first_fails : forall (X : Ext) name r needed besides c t v n a more er, In (name, (r, (needed, besides))) method_arguments -> spelled name n -> eval t c = Ok v -> receives r v ->
  ev a (Some (c_vars c)) = Err er -> (length needed <= S (length more))%nat -> (name = "between"%string -> length more = 1%nat) -> eval (method t n (a :: more)) c = Err er.
Proof. exact @first_fails. Qed.
Print Assumptions C96_first_fails.

(** round(d) with d > 0 is ROUND with d digits, about which see C49_round_decimals *)
Theorem C96_round : forall (X : Ext) c t a n x d, uncustomised c "ROUND" -> spelled "round" n -> eval t c = Ok (VNumber x) -> eval a c = Ok (num d) -> argument c a (num d) -> 0 < d < 2 ^ 53 ->
  eval (method t n [a]) c = eval (call "ROUND" [t; a]) c.
Proof. exact @round_same. Qed.
Print Assumptions C96_round.
Theorem C96_round_negative_refuted : let X := example_ext in evaluate (lit "1234.round(0 - 2)") = Ok (num 1200) /\ evaluate (lit "ROUND(1234, 0 - 2)") = Ok (num 1234).
Proof. vm_compute. split; reflexivity. Qed.
Print Assumptions C96_round_negative_refuted.

(** join takes texts, numbers and truth values only; a separator that is no text counts as none, like an order of sort that is no text *)
Theorem C96_join : forall (X : Ext) c t xs n args v, spelled "join" n -> eval t c = Ok (VArray xs) -> In v xs -> (forall s, v <> VString s) -> (forall x, v <> VNumber x) -> (forall b, v <> VBoolean b) ->
  (args = [] \/ exists a w more, args = a :: more /\ argument c a w) -> fails (eval (method t n args) c).
Proof. exact @join_rejects. Qed.
Print Assumptions C96_join.
Theorem C96_separator : forall (X : Ext) c t xs n a w more, spelled "join" n -> eval t c = Ok (VArray xs) -> argument c a w -> (forall s, w <> VString s) -> eval (method t n (a :: more)) c = eval (method t n []) c.
Proof. exact @join_separator. Qed.
Print Assumptions C96_separator.
Theorem C96_order : forall (X : Ext) c t xs n a w more, spelled "sort" n -> eval t c = Ok (VArray xs) -> argument c a w -> (forall s, w <> VString s) -> eval (method t n (a :: more)) c = eval (method t n []) c.
Proof. exact @sort_argument. Qed.
Print Assumptions C96_order.

(** the methods of objects fail on text that is not JSON *)
Theorem C96_not_json : forall (X : Ext) c t s n args vs name, In name ["keys"; "values"; "has_key"; "has"; "dig"]%string -> spelled name n -> eval t c = Ok (VJson s) -> json_parse s = None -> Forall2 (argument c) args vs ->
  fails (eval (method t n args) c).
Proof. exact @not_json. Qed.
Print Assumptions C96_not_json.

Example C96_nonvacuous :
  let X := example_ext in
  fails (evaluate (lit "'abc'.split(5)")) /\ fails (evaluate (lit "'abc'.substring('x')")) /\ fails (evaluate (lit "'abc'.substring(1, 'x')")) /\ fails (evaluate (lit "5.between(1, 'x')")) /\ fails (evaluate (lit "('{}'::Json).dig('a')"))
  /\ fails (evaluate (lit "[1, null].join()")) /\ evaluate (lit "[1, 2].join(7)") = Ok (VString (lit "1,2")) /\ evaluate (lit "[3, 1].sort(0)") = Ok (VArray [num 1; num 3]) /\ fails (evaluate (lit "('a b'::Json).keys()"))
  /\ evaluate (lit "2.345.round(1)") = evaluate (lit "ROUND(2.345, 1)") /\ suited [GText] [] [VString []] /\ ~ suited [GText] [] [num 5].
Proof. intros X. split; [vm_compute; eexists; reflexivity|]. split; [vm_compute; eexists; reflexivity|]. split; [vm_compute; eexists; reflexivity|]. split; [vm_compute; eexists; reflexivity|]. split; [vm_compute; eexists; reflexivity|].
  split; [vm_compute; eexists; reflexivity|]. split; [vm_compute; reflexivity|]. split; [vm_compute; reflexivity|]. split; [vm_compute; eexists; reflexivity|]. split; [vm_compute; reflexivity|]. split.
  - split; [cbn; lia|]. intros [|[|i]] k v K1 K2; cbn in K1, K2; try (destruct i; discriminate); try discriminate. injection K1 as <-. injection K2 as <-. exists []. reflexivity.
  - intros (_ & K). destruct (K 0%nat GText (num 5) eq_refl eq_refl) as (s & E). discriminate E. Qed.
