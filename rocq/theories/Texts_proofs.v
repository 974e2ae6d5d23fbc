(** The arguments of the functions on texts. *)
From Coq Require Import String List NArith ZArith Lia Bool.
From Verif Require Import Base F64 F64Text Syntax Ext Registry Core Strings Dispatch Evaluator Spec Spec_http Spec_texts Base_proofs Value_proofs String_proofs HttpRead_proofs HttpAuth_proofs Command_proofs.
Import ListNotations.
Local Open Scope N_scope.
Section Texts.
  Context {X : Ext}.
  Lemma joined_iff : forall sep ps, joined sep ps (join sep ps).
  Proof. intros sep ps. induction ps as [|p [|q ps] IH]; [constructor|constructor|]. change (join sep (p :: q :: ps)) with (p ++ sep ++ join sep (q :: ps)). now constructor. Qed.
  Lemma split_default : forall c e s, uncustomised c "SPLIT" -> eval e c = Ok (VString s) ->
    exists items cores, eval (call "SPLIT" [e]) c = Ok (VArray (map VString cores)) /\ items <> [] /\ joined (lit ",") items s /\ Forall (fun i => ~ In 44 i) items /\ Forall2 trimmed items cores.
  Proof. intros c e s Hu Hv. assert (He : evaluate_to c [e] [VString s]) by (repeat constructor; assumption). destruct (split_join 44 s) as (items & E & Ne & J & Nc).
    exists items, (map trim items). split; [run_builtin; cbn; rewrite E, map_map; reflexivity|]. split; [exact Ne|]. split; [rewrite J; apply joined_iff|]. split; [exact Nc|].
    clear. induction items; constructor; [apply trim_trimmed|assumption]. Qed.
  Lemma split_nothing : forall c e d s, uncustomised c "SPLIT" -> eval e c = Ok (VString s) -> eval d c = Ok (VString []) ->
    eval (call "SPLIT" [e; d]) c = Ok (VArray (map VString ([[]] ++ map (fun ch => [ch]) s ++ [[]]))).
  Proof. intros c e d s Hu Hv Hd. assert (He : evaluate_to c [e; d] [VString s; VString []]) by (repeat constructor; assumption). run_builtin. reflexivity. Qed.
  Lemma substitute_nothing : forall name c e o n s new, name = "SUBSTITUTE"%string \/ name = "SUBSTITUTEM"%string -> uncustomised c name -> eval e c = Ok (VString s) -> eval o c = Ok (VString []) -> eval n c = Ok (VString new) ->
    eval (call name [e; o; n]) c = Ok (VString (spread new s)).
  Proof. intros name c e o n s new Hn Hu Hv Ho Hw. assert (He : evaluate_to c [e; o; n] [VString s; VString []; VString new]) by (repeat constructor; assumption).
    assert (E : replace_str [] new s = spread new s). { change (new ++ flat_map (fun ch => ch :: new) s = spread new s). clear. induction s as [|ch s IH]; [apply app_nil_r|]. cbn [flat_map spread]. rewrite <- IH. reflexivity. }
    rewrite <- E. destruct Hn as [-> | ->]; run_builtin; reflexivity. Qed.
  Ltac each_kind W := exfalso; apply W; split; [cbn [length]; lia|]; intros [|[|[|[|i]]]] k v K1 K2; cbn in K1, K2; try (destruct i; discriminate); try discriminate; injection K1 as <-; injection K2 as <-; cbn; eauto.
  Lemma wrong_str1 : forall who f vs, ~ well_given [AText] [] vs -> fails (str1 who f vs).
  Proof. intros who f [|v0 vs] W; [eexists; reflexivity|]. destruct v0; try (eexists; reflexivity). each_kind W. Qed.
  Lemma wrong_substitute : forall who vs, ~ well_given [AText; AText; AText] [] vs -> fails (fn_substitute who vs).
  Proof. intros who [|v0 [|v1 [|v2 vs]]] W; try (eexists; reflexivity); destruct v0; try (eexists; reflexivity); destruct v1; try (eexists; reflexivity); destruct v2; try (eexists; reflexivity). each_kind W. Qed.
  Lemma wrong_left : forall vs, ~ well_given [AText] [ANumber] vs -> fails (fn_left vs).
  Proof. intros [|v0 [|v1 vs]] W; try (eexists; reflexivity); destruct v0; try (eexists; reflexivity); [each_kind W|]. destruct v1; try (eexists; reflexivity). each_kind W. Qed.
  Lemma wrong_right : forall vs, ~ well_given [AText] [ANumber] vs -> fails (fn_right vs).
  Proof. intros [|v0 [|v1 vs]] W; try (eexists; reflexivity); destruct v0; try (eexists; reflexivity); [each_kind W|]. destruct v1; try (eexists; reflexivity). each_kind W. Qed.
  Lemma wrong_mid : forall vs, ~ well_given [AText; ANumber] [ANumber] vs -> fails (fn_mid vs).
  Proof. intros [|v0 [|v1 [|v2 vs]]] W; try (eexists; reflexivity); destruct v0; try (eexists; reflexivity); destruct v1; try (eexists; reflexivity); [each_kind W|]. destruct v2; try (eexists; reflexivity). each_kind W. Qed.
  Lemma wrong_substring : forall vs, ~ well_given [AText; ANumber] [] vs -> fails (fn_substring vs).
  Proof. intros [|v0 [|v1 vs]] W; try (eexists; reflexivity); destruct v0; try (eexists; reflexivity); destruct v1; try (eexists; reflexivity). each_kind W. Qed.
  Lemma wrong_split : forall vs, ~ well_given [AText] [AText] vs -> fails (fn_split vs).
  Proof. intros [|v0 [|v1 vs]] W; try (eexists; reflexivity); destruct v0; try (eexists; reflexivity); [each_kind W|]. destruct v1; try (eexists; reflexivity). each_kind W. Qed.
  Lemma wrong_replace : forall vs, ~ well_given [AText; ANumber; ANumber; AText] [] vs -> fails (fn_replace vs).
  Proof. intros [|v0 [|v1 [|v2 [|v3 [|v4 vs]]]]] W; try (eexists; reflexivity); destruct v0; try (eexists; reflexivity); destruct v1; try (eexists; reflexivity); destruct v2; try (eexists; reflexivity); destruct v3; try (eexists; reflexivity). each_kind W. Qed.
  Lemma wrong_includes : forall vs, ~ well_given [AText; AText] [] vs -> fails (fn_includes vs).
  Proof. intros [|v0 [|v1 [|v2 vs]]] W; try (eexists; reflexivity); destruct v0; try (eexists; reflexivity); destruct v1; try (eexists; reflexivity); each_kind W. Qed.
  Lemma wrong_arguments : forall name needed besides c es vs, In (name, (needed, besides)) text_arguments -> uncustomised c name -> evaluate_to c es vs -> ~ well_given needed besides vs -> fails (eval (call name es) c).
  Proof. intros name needed besides c es vs I0 Hu He W.
    repeat (destruct I0 as [I0|I0]; [injection I0 as <- <- <-; run_builtin|]); [..|contradiction I0].
    - exact (wrong_substitute "SUBSTITUTE" vs W).
    - exact (wrong_substitute "SUBSTITUTEM" vs W).
    - exact (wrong_left vs W).
    - exact (wrong_right vs W).
    - exact (wrong_mid vs W).
    - exact (wrong_substring vs W).
    - exact (wrong_split vs W).
    - exact (wrong_replace vs W).
    - exact (wrong_str1 "UPPER" to_uppercase vs W).
    - exact (wrong_str1 "LOWER" to_lowercase vs W).
    - exact (wrong_str1 "TRIM" trim vs W).
    - exact (wrong_includes vs W). Qed.
End Texts.
