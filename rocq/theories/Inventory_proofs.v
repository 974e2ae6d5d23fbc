(** Which functions there are. *)
From Coq Require Import String List ZArith NArith Bool Lia.
From Verif Require Import Base F64 Syntax Ext Utils Dispatch Core Evaluator Api Inventory Spec Spec_inventory Base_proofs Value_proofs Logic_proofs.
Import ListNotations.
Local Open Scope string_scope.

Definition all_names : list string := (arithmetic_functions ++ logical_functions ++ string_functions ++ array_functions ++ datetime_functions ++ financial_functions ++ statistical_functions ++ json_functions)%list.
Lemma one_of_app : forall a b n, one_of (a ++ b)%list n = one_of a n || one_of b n.
Proof. intros a b n. unfold one_of. apply existsb_app. Qed.
Lemma has_all : forall n, has_builtin_function n = one_of all_names n.
Proof. intros n. unfold has_builtin_function, all_names. rewrite !one_of_app. now rewrite !orb_assoc. Qed.
Lemma one_of_in : forall names n, one_of names n = true <-> exists s, In s names /\ n = lit s.
Proof.
  intros names n. unfold one_of. rewrite existsb_exists. split; intros (s & I0 & E); exists s; (split; [exact I0|]); [now apply str_eqb_eq|subst; apply str_eqb_refl].
Qed.
Section Inventory.
  Context {X : Ext}.
  Let k (z : Z) : expr := ENumber (f_of_Z z).
  Let t (s : string) : expr := EStringLit (lit s).
  Let day : expr := ETypeCast (k 0) TyDateTime.
  (** arguments with which the function succeeds *)
  Definition good_call (name : string) : list expr :=
    let nm s := String.eqb name s in
    if nm "YEAR" || nm "MONTH" || nm "DAY" then [day]
    else if nm "DATEADD" then [day; k 1; t "days"]
    else if nm "DATEDIFF" then [day; day; t "days"]
    else if nm "NOW" || nm "DATE" || nm "TIME" then []
    else if nm "IF" then [k 1; k 2; k 3] else if nm "IFS" then [k 1; k 2]
    else if nm "PMT" || nm "FV" then [k 0; k 1; k 1]
    else if nm "IPMT" then [k 0; k 1; k 1; k 1]
    else if nm "DB" then [k 10; k 1; k 2; k 1]
    else if nm "DIG" then [ETypeCast (t "{}") TyJson; EArray []]
    else if existsb nm ["PERCENTILE.INC"; "PERCENTILEINC"; "PERCENTILE_INC"; "QUARTILE.INC"; "QUARTILEINC"; "QUARTILE_INC"] then [k 1; k 1]
    else if existsb nm ["LENGTH"; "UPPER"; "LOWER"; "TRIM"; "SPLIT"; "ISBLANK"; "ISNUMBER"; "ISTEXT"; "CONCAT"] then [t "a"]
    else if nm "SUBSTRING" then [t "a"; k 0; k 1] else if nm "MID" then [t "a"; k 1; k 1]
    else if existsb nm ["LEFT"; "RIGHT"] then [t "a"; k 1]
    else if existsb nm ["SUBSTITUTE"; "SUBSTITUTEM"] then [t "a"; t "a"; t "b"]
    else if nm "REPLACE" then [t "a"; k 1; k 1; t "b"] else if nm "XOR" then [k 1; k 1]
    else if nm "INCLUDES" then [t "a"; t "a"]
    else if existsb nm ["CONTAINS"; "IN"; "JOIN"] then [EArray [k 1]; k 1]
    else if existsb nm ["FLATTEN"; "FIRST"; "LAST"; "COUNT"; "UNIQUE"; "SORT"; "REVERSE"] then [EArray [k 1]]
    else [k 1].
  Definition is_ok {A} (r : res A) : bool := match r with Ok _ => true | _ => false end.
  Lemma ok_is : forall A (r : res A), is_ok r = true -> exists v, r = Ok v.
  Proof. intros A [v|e|w] K; [eauto|discriminate|discriminate]. Qed.
  Lemma good_calls : forall c name, In name all_names -> exists vs, evaluate_to c (good_call name) vs /\ is_ok (exec_builtin_fast (lit name) vs) = true.
  Proof.
    intros c name I0. unfold all_names in I0. cbn [app arithmetic_functions logical_functions string_functions array_functions datetime_functions financial_functions statistical_functions json_functions] in I0.
    repeat (destruct I0 as [<-|I0]; [eexists; split; [match goal with |- evaluate_to _ ?g _ => let g' := eval cbv [good_call String.eqb Ascii.eqb Bool.eqb orb existsb k t day] in g in change g with g' end; repeat (apply Forall2_cons; [reflexivity|]); apply Forall2_nil|vm_compute; reflexivity]|]). contradiction.
  Qed.
  Lemma special_split : forall name, ~ In name (map lit special_forms) -> one_of special_names name = false.
  Proof.
    intros name N0. destruct (one_of special_names name) eqn:E; [|reflexivity]. exfalso. apply N0. apply one_of_in in E as (s & I0 & ->). apply in_map. cbn in I0 |- *. intuition.
  Qed.
  Lemma plain_call : forall c name es, match c_reg c with Some reg => has_custom_function reg name = false | None => True end -> ~ In name (map lit special_forms) ->
    eval (EFunctionCall name es) c = bind (collect_args c (args_of es)) (fun vs => exec_builtin_fast name vs).
  Proof.
    intros c name es Hu N0. pose proof (special_split name N0) as Hs. rewrite eval_call. unfold top_call. unfold special_names, one_of in Hs. simpl existsb in Hs.
    repeat (apply orb_false_iff in Hs; destruct Hs as [? Hs]). repeat match goal with H : is _ _ = false |- _ => rewrite H; clear H end.
    unfold custom_hit. destruct (c_reg c) as [reg|]; [|reflexivity]. unfold has_custom_function in Hu. now rewrite Hu.
  Qed.
  Lemma not_listed : forall name vs, has_builtin_function name = false -> exec_builtin_fast name vs = Err (mkErr (lit "Unknown function: " ++ name)%list None).
  Proof.
    intros name vs E. unfold has_builtin_function in E. do 7 (apply orb_false_iff in E; destruct E as [E ?]). unfold exec_builtin_fast. repeat match goal with K : one_of _ name = false |- _ => rewrite K; clear K end. reflexivity.
  Qed.
  Lemma has_iff : forall c name, match c_reg c with Some reg => has_custom_function reg name = false | None => True end -> ~ In name (map lit special_forms) ->
    (has_builtin_function name = true <-> exists es v, eval (EFunctionCall name es) c = Ok v).
  Proof.
    intros c name Hu N0; split.
    - intros E. rewrite has_all in E. apply one_of_in in E as (s & I0 & ->). destruct (good_calls c s I0) as (vs & He & K). apply ok_is in K as (v & K). exists (good_call s), v. rewrite plain_call by assumption. rewrite (collect_ok _ _ _ He). exact K.
    - intros (es & v & E). rewrite plain_call in E by assumption. destruct (has_builtin_function name) eqn:B; [reflexivity|]. exfalso. destruct (collect_args c (args_of es)) as [vs| |]; cbn [bind] in E; try discriminate. rewrite not_listed in E by assumption. discriminate.
  Qed.
  Lemma unknown_message : forall c name es vs, match c_reg c with Some reg => has_custom_function reg name = false | None => True end -> ~ In name (map lit special_forms) -> has_builtin_function name = false -> evaluate_to c es vs ->
    eval (EFunctionCall name es) c = Err (mkErr (lit "Unknown function: " ++ name)%list None).
  Proof. intros c name es vs Hu N0 B He. rewrite plain_call by assumption. rewrite (collect_ok _ _ _ He). cbn [bind]. now apply not_listed. Qed.
End Inventory.
Lemma lit_injective : forall a b, lit a = lit b -> a = b.
Proof.
  induction a as [|x a IH]; intros [|y b] E; try discriminate; [reflexivity|]. cbn in E. injection E as E1 E2. f_equal; [|now apply IH].
  apply (f_equal Ascii.ascii_of_N) in E1. now rewrite !Ascii.ascii_N_embedding in E1.
Qed.
Lemma counted : exists names, NoDup names /\ (forall name, has_builtin_function name = true <-> In name names) /\ length names = builtin_function_count.
Proof.
  exists (map lit all_names). split.
  - apply FinFun.Injective_map_NoDup; [intros a b; apply lit_injective|]. assert (K : nodup string_dec all_names = all_names) by (vm_compute; reflexivity). rewrite <- K. apply NoDup_nodup.
  - split; [|vm_compute; reflexivity]. intros name. rewrite has_all, one_of_in, in_map_iff. split; intros (s & A & B); eauto.
Qed.
Lemma extracts : forall v ls, leaves_of v ls -> extract_numeric_values v = figures ls.
Proof.
  induction v as [n|xs IH| | | | | |] using value_ind'; intros ls L; inversion L as [? Hl|? parts F]; subst; try reflexivity; [now destruct (Hl xs)|].
  cbn [extract_numeric_values]. clear L. revert parts F. induction xs as [|x xs IHx]; intros parts F; inversion F as [|? ls ? rest A B]; subst; [reflexivity|]. inversion IH as [|? ? I1 I2]; subst. cbn [concat]. unfold figures in *. rewrite flat_map_app. f_equal; [now apply I1|now apply IHx].
Qed.
