(** Examples for crashes and doubles. *)
From Coq Require Import String List ZArith NArith Bool.
From Coq Require Import Floats.SpecFloat.
From Verif Require Import Base Base_proofs F64 F64Text Syntax Parser Ext Json Registry Methods Core Evaluator Api Spec Spec_text Spec_http Spec_registry Doubles_proofs Sqrt_proofs Spec_crash Crash_proofs.
Import ListNotations.

(** sorting with a NaN panics *)
Definition sorting_panics : Ext :=
  Build_Ext (fun c => [c]) (fun c => [c]) (fun _ _ => true) (fun _ => true) (fun x _ => x) (fun x => x) (fun x => x)
            (fun x => x) (fun _ => true) 0 0 0 (fun _ => lit "e") false (fun _ _ => inl [])
            (fun _ _ => Panic "user-provided comparison function does not correctly implement a total order").

Lemma either_located : forall (X : Ext) input vars w,
  evaluate_with_assignments input vars = Panic w \/ evaluate_with_assignments_and_context input vars = Panic w -> can_crash [] input.
Proof. intros X input vars w [H|H]; [eapply assignments_located|eapply context_located]; exact H. Qed.

Definition crashing_texts : list string :=
  [" ==1"; "[1, 2][0 - 1/0]"; "[[3]][0][0 - 9300000000000000000]"; "1 + SORT([3, SQRT(0-1)])[0]"; "MEDIAN(1, SQRT(0 - 1))";
        "PERCENTILE_INC(SQRT(0 - 1), 1, 0.5)"; "QUARTILE_INC([1, SQRT(0 - 1)], 2)"; "DATEADD(DATE(2024,3,1), 99999999999, ""days"")";
        "[1].map(MEDIAN(:x, SQRT(0 - :x)))"]%string.
Lemma no_crash_refuted :
  let X := example_ext in
  ~ (forall input w, evaluate input <> Panic w)
  /\ Forall (fun t => exists w, evaluate (lit t) = Panic w) crashing_texts
  /\ (exists w, evaluate_with_custom [(lit "BOOM", mkFn (lit "BOOM") 0 None (fun _ => Panic "boom"))] (lit "1 + boom()") [] = Panic w)
  /\ (exists w, @evaluate sorting_panics (lit "[1, SQRT(0 - 1)].sort()") = Panic w).
Proof.
  intros X. split; [|split; [|split]].
  - intros H. apply (H (lit " ==1") "attempt to subtract with overflow"%string). vm_compute. reflexivity.
  - assert (P : forall t, (match evaluate (lit t) with Panic _ => true | _ => false end) = true -> exists w, evaluate (lit t) = Panic w).
    { intros t H. destruct (evaluate (lit t)) as [| |w]; try discriminate. now exists w. }
    unfold crashing_texts. repeat (apply Forall_cons; [apply P; vm_compute; reflexivity|]). apply Forall_nil.
  - exists "boom"%string. vm_compute. reflexivity.
  - exists "user-provided comparison function does not correctly implement a total order"%string. vm_compute. reflexivity.
Qed.

Lemma everywhere_inside : forall p a e, inside a e -> everywhere p e = true -> everywhere p a = true.
Proof.
  assert (L : forall p x es, In x es -> forallb (everywhere p) es = true -> everywhere p x = true) by (intros p x es H F; rewrite forallb_forall in F; auto).
  intros p a e H E. destruct H; cbn [everywhere] in E; repeat (apply andb_true_iff in E as [E ?]); repeat match goal with H : _ && _ = true |- _ => apply andb_true_iff in H as [? H] end; eauto.
  match goal with Q : forallb _ kvs = true |- _ => rewrite forallb_forall in Q; exact (Q (k, x) H) end.
Qed.
Lemma everywhere_part : forall p s e, part s e -> everywhere p e = true -> p s = true.
Proof.
  intros p s e H. induction H as [e|a b e P IH I1]; intros E; [|apply IH; eapply everywhere_inside; eassumption].
  destruct e; cbn [everywhere] in E; apply andb_true_iff in E; apply E.
Qed.
Definition harmless_b {X : Ext} (e : expr) : bool :=
  match e with
  | EIndex _ _ => false
  | EFunctionCall name _ => negb (existsb (fun s => str_eqb name (lit s)) crashing_names)
  | EMethodCall _ name _ _ | ESafeMethodCall _ name _ => negb (str_eqb (to_lowercase name) (lit "sort"))
  | _ => true
  end.
Lemma harmless_b_ok : forall (X : Ext) e, harmless_b e = true -> harmless [] e.
Proof.
  intros X e H. destruct e; cbn [harmless harmless_b] in *; auto; try discriminate.
  - intros E. rewrite E in H. now rewrite (proj2 (str_eqb_eq _ _) eq_refl) in H.
  - split; [reflexivity|]. intros s Hs E. apply negb_true_iff in H. assert (K : existsb (fun s => str_eqb name (lit s)) crashing_names = true); [|congruence].
    apply existsb_exists. exists s. split; [exact Hs|]. now apply str_eqb_eq.
  - intros E. rewrite E in H. now rewrite (proj2 (str_eqb_eq _ _) eq_refl) in H.
Qed.
Definition harmless_tree : expr :=
  Eval vm_compute in match parse (lit "SUM([1, 2, :x].map(:x * 2)) + :y > 2 ? ""a"".upper() : MAX(...[1, 2][0:1])") with Ok e => e | _ => ENull end.
Lemma harmless_example :
  let X := example_ext in
  exists e, parse (lit "SUM([1, 2, :x].map(:x * 2)) + :y > 2 ? ""a"".upper() : MAX(...[1, 2][0:1])") = Ok e /\ (forall s, part s e -> harmless [] s).
Proof.
  intros X. exists harmless_tree. split; [vm_compute; reflexivity|]. intros s H. apply harmless_b_ok. revert s H. assert (E : everywhere harmless_b harmless_tree = true) by (vm_compute; reflexivity). intros s H. exact (everywhere_part _ _ _ H E).
Qed.

Lemma both_numbers : forall (p : res expr) (r : res value), match p, r with Ok _, Ok (VNumber _) => True | _, _ => False end -> exists e x, p = Ok e /\ r = Ok (VNumber x).
Proof. intros [e| |] [[x| | | | | | |]| |] H; try contradiction. now exists e, x. Qed.
Lemma doubles_example :
  let X := example_ext in
  let reg := [(lit "TWICE", mkFn (lit "TWICE") 1 (Some 1%N) (fun vs => match vs with [VNumber n] => Ok (VNumber (f_add n n)) | _ => Err (err "no") end))] in
  let vars := [(lit "x", VNumber (f_of_Z 3)); (lit "s", VString (lit "0.1"))] in
  platform_doubles X /\ functions_double reg /\ variables_double vars
  /\ (exists e x, parse (lit "twice(:x / 7) + :s::Float ^ 2") = Ok e /\ evaluate_with_custom reg (lit "twice(:x / 7) + :s::Float ^ 2") vars = Ok (VNumber x)).
Proof.
  intros X reg vars. split; [|split; [|split]].
  - constructor; auto; cbn.
    + intros j p rs H _. injection H as <-. constructor.
    + intros d l l' H. now injection H as <-.
  - intros name f vs v G A E. unfold reg_get, reg in G. cbn [mget] in G. destruct (str_eqb _ _); [|discriminate]. injection G as <-. cbn [cf_exec] in E.
    destruct vs as [|[n| | | | | | |] [|]]; try discriminate. injection E as <-. inversion A; subst. cbn in *. now apply representable_add.
  - intros k v G. unfold vars in G. cbn [mget] in G. destruct (str_eqb _ _); [injection G as <-; vm_compute; reflexivity|]. destruct (str_eqb _ _); [injection G as <-; exact I|discriminate].
  - apply both_numbers. vm_compute. exact I.
Qed.
