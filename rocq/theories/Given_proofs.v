(** The arguments of methods. *)
From Coq Require Import String List ZArith NArith Bool Lia.
From Verif Require Import Base Base_proofs F64 F64Text Syntax Ext Json Utils Arrays Arith Strings Dispatch Methods Core Evaluator Api Spec Spec_methods Spec_given.
From Verif Require Import Float_proofs Exact_proofs Value_proofs DateFn_proofs Method_proofs Method_array_proofs.
Import ListNotations.
Local Open Scope Z_scope.
Section Given.
  Context {X : Ext}.
  Ltac not_suited W := exfalso; apply W; split; [cbn [length]; lia|]; intros [|[|[|i]]] k v K1 K2; cbn in K1, K2; try (destruct i; discriminate); try discriminate; injection K1 as <-; injection K2 as <-; cbn; eauto.
  Ltac failed := match goal with |- fails (Err ?e) => exists e; reflexivity end.
  Ltac read_args :=
    repeat match goal with
    | F : Forall2 _ [] _ |- _ => inversion F; clear F; subst
    | F : Forall2 _ (_ :: _) _ |- _ => let A := fresh "A" in let F' := fresh "F" in inversion F as [|? ? ? ? A F']; clear F; subst; unfold argument in A
    end.
  Lemma wrong_given : forall name r needed besides c t v n args vs, In (name, (r, (needed, besides))) method_arguments -> spelled name n -> eval t c = Ok v -> receives r v -> Forall2 (argument c) args vs -> ~ suited needed besides vs ->
    fails (eval (method t n args) c).
  Proof. intros name r needed besides c t v n args vs I0 S0 Hv Hr F W.
    repeat (destruct I0 as [I0|I0]; [injection I0 as <- <- <- <-; destruct Hr as (? & ->)|]); [..|contradiction I0].
    all: method_call Hv S0. all: unfold m_substring; destruct args as [|a0 [|a1 [|a2 args]]]. all: read_args. all: cbn [margs_of map arg0 m_eval].
    all: repeat match goal with A : ev _ _ = Ok _ |- _ => rewrite A; clear A end; cbn [bind]; try failed.
    all: try solve [not_suited W].
    all: repeat match goal with |- context [str_of ?v _] => is_var v; destruct v | |- context [num_of ?v _] => is_var v; destruct v | |- context [bound_of ?v _] => is_var v; destruct v
        | |- fails (match ?v with VArray _ => _ | _ => _ end) => is_var v; destruct v | |- fails (match ?v with VString _ => _ | _ => _ end) => is_var v; destruct v end; cbn [bind str_of num_of bound_of].
    all: try failed.
    all: repeat match goal with |- context [str_of ?v _] => is_var v; destruct v | |- context [num_of ?v _] => is_var v; destruct v | |- context [bound_of ?v _] => is_var v; destruct v
        | |- fails (match ?v with VArray _ => _ | _ => _ end) => is_var v; destruct v | |- fails (match ?v with VString _ => _ | _ => _ end) => is_var v; destruct v end; cbn [bind str_of num_of bound_of].
    all: try failed. all: not_suited W. Qed.
  Lemma round_same : forall c t a n x d, uncustomised c "ROUND" -> spelled "round" n -> eval t c = Ok (VNumber x) -> eval a c = Ok (num d) -> argument c a (num d) -> 0 < d < 2 ^ 53 ->
    eval (method t n [a]) c = eval (call "ROUND" [t; a]) c.
  Proof. intros c t a n x d Hu S0 Hv Ha Hb Hd.
    assert (E2 : eval (call "ROUND" [t; a]) c = fn_round [VNumber x; num d]). { assert (He : evaluate_to c [t; a] [VNumber x; num d]) by (repeat constructor; assumption). run_builtin. reflexivity. }
    rewrite E2. method_call Hv S0. cbn [margs_of map m_eval]. unfold argument in Hb. rewrite Hb. cbn [bind]. unfold num. cbn [num_of bind]. unfold fn_round. unfold f_to_i32. rewrite to_int_exact by lia.
    replace (Z.max (- 2 ^ 31) (Z.min (2 ^ 31 - 1) d) =? 0) with false by (symmetry; apply Z.eqb_neq; lia).
    replace (Z.max (Z.max (- 2 ^ 31) (Z.min (2 ^ 31 - 1) d)) 0) with (Z.max (- 2 ^ 31) (Z.min (2 ^ 31 - 1) d)) by lia. reflexivity. Qed.
  Lemma mapM_err : forall A B (f : A -> res B) xs x, In x xs -> (forall y, exists r, f y = Ok r \/ fails (f y)) -> fails (f x) -> fails (mapM f xs).
  Proof. intros A B f xs x I0 T Fx. induction xs as [|y xs IH]; [contradiction I0|]. cbn [mapM]. destruct (T y) as (r & [E|(e & E)]); rewrite E; cbn [bind]; [|eexists; reflexivity].
    destruct I0 as [->|I0]; [destruct Fx as (e & Fx); congruence|]. destruct (IH I0) as (e & ->). eexists. reflexivity. Qed.
  Lemma join_rejects : forall c t xs n args v, spelled "join" n -> eval t c = Ok (VArray xs) -> In v xs -> (forall s, v <> VString s) -> (forall x, v <> VNumber x) -> (forall b, v <> VBoolean b) ->
    (args = [] \/ exists a w more, args = a :: more /\ argument c a w) -> fails (eval (method t n args) c).
  Proof. intros c t xs n args v S0 Hv I0 N1 N2 N3 Hs. method_call Hv S0.
    assert (J : fails (mapM join_text xs)).
    { apply mapM_err with v; [exact I0| |destruct v; cbn [join_text]; try failed; exfalso; first [eapply N2; reflexivity|eapply N1; reflexivity|eapply N3; reflexivity]].
      intros y. destruct y; cbn [join_text]; try (eexists; left; reflexivity); exists []; right; eexists; reflexivity. }
    destruct J as (e & J). destruct Hs as [-> |(a & w & more & -> & A)]; cbn [margs_of map m_eval]; [cbn [bind]; rewrite J; eexists; reflexivity|]. unfold argument in A. rewrite A. cbn [bind]. rewrite J. eexists. reflexivity. Qed.
  Lemma join_separator : forall c t xs n a w more, spelled "join" n -> eval t c = Ok (VArray xs) -> argument c a w -> (forall s, w <> VString s) -> eval (method t n (a :: more)) c = eval (method t n []) c.
  Proof. intros c t xs n a w more S0 Hv A Nw. 
    transitivity (bind (mapM join_text xs) (fun parts => Ok (VString (join (lit ",") parts)))).
    - method_call Hv S0. cbn [margs_of map m_eval]. unfold argument in A. rewrite A. cbn [bind]. destruct w; try reflexivity. exfalso. eapply Nw. reflexivity.
    - symmetry. method_call Hv S0. reflexivity. Qed.
  Lemma sort_argument : forall c t xs n a w more, spelled "sort" n -> eval t c = Ok (VArray xs) -> argument c a w -> (forall s, w <> VString s) -> eval (method t n (a :: more)) c = eval (method t n []) c.
  Proof. intros c t xs n a w more S0 Hv A Nw. 
    transitivity (bind (mapM (fun v => num_of v (err "sort expects numeric array")) xs) (fun nums => bind (sort_method false nums) (fun sorted => Ok (VArray (map VNumber sorted))))).
    - method_call Hv S0. cbn [margs_of map m_eval]. unfold argument in A. rewrite A. cbn [bind]. destruct w; try reflexivity. exfalso. eapply Nw. reflexivity.
    - symmetry. method_call Hv S0. reflexivity. Qed.
  Lemma not_json : forall c t s n args vs name, In name ["keys"; "values"; "has_key"; "has"; "dig"]%string -> spelled name n -> eval t c = Ok (VJson s) -> json_parse s = None -> Forall2 (argument c) args vs -> fails (eval (method t n args) c).
  Proof. intros c t s n args vs name I0 S0 Hv J F.
    assert (P : fails (parse_json s)). { unfold parse_json. rewrite J. eexists. reflexivity. }
    destruct P as (e & P).
    repeat (destruct I0 as [<-|I0]); [..|contradiction I0]. all: method_call Hv S0. 1-2: rewrite P; eexists; reflexivity.
    all: destruct args as [|a0 [|a1 args]]. all: read_args. all: cbn [margs_of map arg0 m_eval].
    all: repeat match goal with A : ev _ _ = Ok _ |- _ => rewrite A; clear A end; cbn [bind]; try failed.
    all: repeat match goal with |- context [str_of ?v _] => is_var v; destruct v | |- fails (match ?v with VArray _ => _ | _ => _ end) => is_var v; destruct v end; cbn [bind str_of].
    all: try failed. all: rewrite P; cbn [bind]; failed. Qed.
  Lemma first_fails : forall name r needed besides c t v n a more er, In (name, (r, (needed, besides))) method_arguments -> spelled name n -> eval t c = Ok v -> receives r v -> ev a (Some (c_vars c)) = Err er -> (length needed <= S (length more))%nat -> (name = "between"%string -> length more = 1%nat) ->
    eval (method t n (a :: more)) c = Err er.
  Proof. intros name r needed besides c t v n a more er I0 S0 Hv Hr A L B.
    repeat (destruct I0 as [I0|I0]; [injection I0 as <- <- <- <-; destruct Hr as (? & ->)|]); [..|contradiction I0].
    all: method_call Hv S0. all: unfold m_substring; destruct more as [|a1 [|a2 more]]. all: cbn [margs_of map arg0 m_eval].
    all: try (rewrite A; reflexivity). all: exfalso; cbn in L; try lia; specialize (B eq_refl); discriminate B. Qed.
End Given.
