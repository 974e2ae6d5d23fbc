(** Calls of functions written in JavaScript. *)
From Coq Require Import String List ZArith NArith Bool Lia.
From Verif Require Import Base F64 Utf8 Syntax Ext Registry Methods Core Evaluator Api JsEngine Host JsPlugin HttpServer Spec Spec_registry Spec_crash Spec_http Spec_cross Spec_js Spec_start Spec_jscall.
From Verif Require Import Base_proofs Value_proofs Doubles_proofs Start_proofs Cross_proofs.
Import ListNotations.
Local Open Scope N_scope.

Section Calls.
  Context {X : Ext} {H : Host}.
  Lemma call_executes : forall f call es vars reg vs, calls f call es vars reg vs -> eval (EFunctionCall call es) (custom_ctx vars reg) = js_execute (js_code f) vs.
  Proof. intros f call es vars reg vs [(l & b & a & R & E & N) [Sn Nc] Ev [Mi Ma]]. exact (loaded_call l reg b f a call es vs vars R E N Sn Nc Ev Mi Ma). Qed.
  Lemma call_gives : forall f call es vars reg vs v, calls f call es vars reg vs -> (eval (EFunctionCall call es) (custom_ctx vars reg) = Ok v <-> js_gives (js_code f) vs v).
  Proof. intros f call es vars reg vs v C. rewrite (call_executes _ _ _ _ _ _ C). apply executed. Qed.
  Lemma call_fails : forall f call es vars reg vs args msg, calls f call es vars reg vs -> Forall2 goes_in vs args ->
    (h_js (js_code f) args = JsNotLoaded msg -> eval (EFunctionCall call es) (custom_ctx vars reg) = Err (mkErr (lit "JS execution error: " ++ msg) None))
    /\ (h_js (js_code f) args = JsNoExecute msg -> eval (EFunctionCall call es) (custom_ctx vars reg) = Err (mkErr (lit "Function 'execute' not found in JS code: " ++ msg) None))
    /\ (h_js (js_code f) args = JsThrown msg -> eval (EFunctionCall call es) (custom_ctx vars reg) = Err (mkErr (lit "JS function execution failed: " ++ msg) None)).
  Proof. intros f call es vars reg vs args msg C A. rewrite (call_executes _ _ _ _ _ _ C). apply arguments_in in A. subst args. unfold js_execute. repeat split; intros E; now rewrite E. Qed.
  Lemma out_endless : forall r v, comes_out r v -> ~ endless r.
  Proof.
    induction r as [| |b|n|us|xs IH|s| |] using js_ind'; intros v C L; inversion C as [| | | | |? vs F| | |]; subst; inversion L as [|j ? I L']; subst.
    clear C L. induction F as [|x y xs vs Cx F IHF]; [contradiction|]. inversion IH as [|? ? Hx IH']; subst. destruct I as [-> |I]; [exact (Hx y Cx L')|now apply IHF].
  Qed.
  Lemma call_unread : forall f call es vars reg vs args r, calls f call es vars reg vs -> Forall2 goes_in vs args -> h_js (js_code f) args = JsReturned r -> ~ endless r -> (forall v, ~ comes_out r v) ->
    exists e, eval (EFunctionCall call es) (custom_ctx vars reg) = Err e.
  Proof.
    intros f call es vars reg vs args r C A E N U. rewrite (call_executes _ _ _ _ _ _ C). apply arguments_in in A. subst args. unfold js_execute. rewrite E. destruct (js_to_value r) as [v|e|x] eqn:K; [exfalso; apply (U v), comes_out_iff, K|eauto|exfalso; exact (N (out_panics r x K))].
  Qed.
  Lemma call_crashes : forall f call es vars reg vs, calls f call es vars reg vs ->
    (forall x, eval (EFunctionCall call es) (custom_ctx vars reg) = Panic x -> exists args r, Forall2 goes_in vs args /\ h_js (js_code f) args = JsReturned r /\ endless r)
    /\ (forall args r, Forall2 goes_in vs args -> h_js (js_code f) args = JsReturned r -> endless r -> forall v, eval (EFunctionCall call es) (custom_ctx vars reg) <> Ok v)
    /\ (forall args, Forall2 goes_in vs args -> h_js (js_code f) args = JsReturned JsLoop -> exists x, eval (EFunctionCall call es) (custom_ctx vars reg) = Panic x).
  Proof.
    intros f call es vars reg vs C. rewrite (call_executes _ _ _ _ _ _ C). split; [|split].
    - intros x. apply execute_panics.
    - intros args r A E L v K. apply executed in K. destruct K as (args' & r' & A' & E' & O). apply arguments_in in A, A'. subst. rewrite E in E'. injection E' as <-. exact (out_endless r v O L).
    - intros args A E. apply arguments_in in A. subst. unfold js_execute. rewrite E. cbn. eauto.
  Qed.
  Lemma call_back : forall f call es vars reg vs i v, calls f call es vars reg vs -> Forall unicode_value vs -> gives_back f vs i -> nth_error vs i = Some v ->
    exists w, eval (EFunctionCall call es) (custom_ctx vars reg) = Ok w /\ comes_back v w.
  Proof. intros f call es vars reg vs i v C U (args & j & A & Nj & E) Nv. rewrite (call_executes _ _ _ _ _ _ C). exact (returned (js_code f) vs i v args j U Nv A Nj E). Qed.
  Lemma call_plain : forall f call es vars reg vs i v, calls f call es vars reg vs -> Forall unicode_value vs -> gives_back f vs i -> nth_error vs i = Some v -> plain_value v ->
    eval (EFunctionCall call es) (custom_ctx vars reg) = Ok v.
  Proof. intros f call es vars reg vs i v C U G Nv P. destruct (call_back f call es vars reg vs i v C U G Nv) as (w & -> & B). f_equal. now apply plain_back. Qed.
  Lemma crossing_unique : (forall v, exists j, goes_in v j /\ forall j', goes_in v j' -> j' = j) /\ (forall j v w, comes_out j v -> comes_out j w -> v = w) /\ (forall v w w', comes_back v w -> comes_back v w' -> w = w').
  Proof.
    split; [|split].
    - intros v. exists (value_to_js v). split; [now apply goes_in_iff|]. intros j'. apply goes_in_iff.
    - intros j v w A B. apply comes_out_iff in A, B. congruence.
    - induction v as [n|xs IH|b|s| |n|t|s] using value_ind'; intros w w' A B; inversion A as [| | | |? ws F| | |]; subst; inversion B as [| | | |? ws' F'| | |]; subst; try reflexivity. f_equal.
      clear A B. revert ws' F'. induction F as [|x y xs ws Cx F IHF]; intros ws' F'; inversion F'; subst; [reflexivity|]. inversion IH; subst. f_equal; [match goal with J : forall w w', _ -> _ -> w = w' |- _ => now apply J end|now apply IHF].
  Qed.

  (** ** Doubles *)
  Lemma in_doubles : forall v, doubles v -> js_doubles (value_to_js v).
  Proof.
    induction v as [n|xs IH|b|s| |n|t|s] using value_ind'; intros D; cbn [value_to_js]; try solve [apply double_less; intros; discriminate]; try solve [now constructor].
    - apply double_array. induction IH as [|x xs Hx IH IHF]; [constructor|]. destruct D as [D1 D2]. constructor; [now apply Hx|now apply IHF].
    - constructor. apply representable_of_Z.
  Qed.
  Lemma out_doubles : forall r v, comes_out r v -> js_doubles r -> doubles v.
  Proof.
    induction r as [| |b|n|us|xs IH|s| |] using js_ind'; intros v C D; inversion C as [| | | | |? vs F| | |]; subst; try exact Logic.I.
    - inversion D as [| |? N1 N2]; subst; [assumption|]. now destruct (N1 n).
    - assert (G : Forall js_doubles xs) by (inversion D as [| |? N1 N2]; subst; [assumption|]; now destruct (N2 xs)). clear C D. induction F as [|x y xs vs Cx F IHF]; [exact Logic.I|]. inversion G; subst. inversion IH; subst. split; [auto|now apply IHF].
  Qed.
  Lemma last_named : forall (l : list js_function) name, (forall f, In f l -> ~ same_name (js_name f) name) \/
    exists before f after, l = before ++ f :: after /\ same_name (js_name f) name /\ forall g, In g after -> ~ same_name (js_name g) name.
  Proof.
    intros l name. induction l as [|x l [IH|(b & f & a & -> & Sn & N)]].
    - left. intros f [].
    - destruct (str_eqb (to_uppercase (js_name x)) (to_uppercase name)) eqn:E.
      + right. exists [], x, l. split; [reflexivity|]. split; [now apply str_eqb_eq|exact IH].
      + left. intros f [<- |I]; [|now apply IH]. intros K. unfold same_name in K. rewrite K, (proj2 (str_eqb_eq _ _) eq_refl) in E. discriminate.
    - right. exists (x :: b), f, a. auto.
  Qed.
  Lemma loaded_doubles : forall l reg, registered_as l reg -> engine_doubles -> functions_double reg.
  Proof.
    intros l reg [R1 R2] D name g vs v G A E. destruct (last_named l name) as [N|(b & f & a & El & Sn & N)]; [now rewrite R2 in G|].
    destruct (R1 b f a name El Sn N) as (g' & G' & _ & _ & _ & Ex). rewrite G in G'. injection G' as <-. rewrite Ex in E. apply executed in E. destruct E as (args & r & Ai & Er & O). apply (out_doubles r v O). apply (D (js_code f) args r); [|assumption].
    apply arguments_in in Ai. subst args. clear - A. induction A; constructor; [now apply in_doubles|assumption].
  Qed.
End Calls.
