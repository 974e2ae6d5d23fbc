(** Functions written in JavaScript: proofs about their annotations. *)
From Coq Require Import String List ZArith NArith Bool Lia.
From Verif Require Import Base Syntax Ext Lines Host Registry JsPlugin Spec_syntax Spec_http Spec_args Spec_registry Spec_js Base_proofs HttpRead_proofs ServerArgs_proofs.
Import ListNotations.
Local Open Scope N_scope.

Definition mark (key : string) : str := lit "// @" ++ lit key ++ lit ":".
Lemma annotates_iff : forall key l v, annotates key l v <-> exists r, strip_prefix (mark key) (trim l) = Some r /\ v = trim r.
Proof.
  intros key l v. unfold annotates, mark. split; intros (r & A & B).
  - exists r. apply trimmed_iff in A. apply trimmed_iff in B. split; [|assumption]. apply strip_prefix_spec. rewrite <- A. now rewrite <- !app_assoc.
  - apply strip_prefix_spec in A. exists r. split; [|now apply trimmed_iff]. apply trimmed_iff. rewrite A. now rewrite <- !app_assoc.
Qed.
Lemma annotates_one : forall key l v w, annotates key l v -> annotates key l w -> v = w.
Proof. intros key l v w A B. apply annotates_iff in A as (r & A & ->). apply annotates_iff in B as (q & B & ->). congruence. Qed.
Lemma annotates_dec : forall key l, (exists v, annotates key l v) \/ forall v, ~ annotates key l v.
Proof.
  intros key l. destruct (strip_prefix (mark key) (trim l)) as [r|] eqn:E.
  - left. exists (trim r). apply annotates_iff. eauto.
  - right. intros v A. apply annotates_iff in A as (r & A & _). congruence.
Qed.
Lemma annotation_unique : forall key ls o o', last_annotation key ls o -> last_annotation key ls o' -> o = o'.
Proof.
  intros key.
  assert (forall b l a v b' l' a' v', b ++ l :: a = b' ++ l' :: a' -> annotates key l v -> annotates key l' v' -> Forall (fun l => forall v, ~ annotates key l v) a -> Forall (fun l => forall v, ~ annotates key l v) a' -> v = v') as U.
  { induction b as [|x b IH]; intros l a v b' l' a' v' E A A' N1 N2; destruct b' as [|x' b']; cbn [app] in E.
    - injection E as -> _. eapply annotates_one; eauto.
    - injection E as _ ->. apply Forall_app in N1 as [_ N1]. inversion N1 as [|? ? K]. exfalso. eapply K; eauto.
    - injection E as _ <-. apply Forall_app in N2 as [_ N2]. inversion N2 as [|? ? K]. exfalso. eapply K; eauto.
    - injection E as _ E. eapply IH; eauto. }
  intros ls o o' L L'. destruct L as [b l a v E A Na | Na]; destruct L' as [b' l' a' v' E' A' Na' | Na']; auto.
  - f_equal. subst ls. eapply U; eauto.
  - exfalso. rewrite E in Na'. apply Forall_app in Na' as [_ K]. inversion K as [|? ? K1]. eapply K1; eauto.
  - exfalso. rewrite E' in Na. apply Forall_app in Na as [_ K]. inversion K as [|? ? K1]. eapply K1; eauto.
Qed.
Lemma annotation_snoc : forall key ls l o, last_annotation key ls o ->
  (forall v, annotates key l v -> last_annotation key (ls ++ [l]) (Some v)) /\ ((forall v, ~ annotates key l v) -> last_annotation key (ls ++ [l]) o).
Proof.
  intros key ls l o L. split.
  - intros v A. eapply annotated; eauto.
  - intros Ne. destruct L as [b x a v -> A Na | Na].
    + apply (annotated _ _ b x (a ++ [l]) v); [now rewrite <- app_assoc|assumption|]. apply Forall_app. split; [assumption|]. constructor; [exact Ne|constructor].
    + apply not_annotated. apply Forall_app. split; [assumption|]. constructor; [exact Ne|constructor].
Qed.

Lemma snoc_yes : forall key ls l o v, last_annotation key ls o -> annotates key l v -> last_annotation key (ls ++ [l]) (Some v).
Proof. intros key ls l o v L A. now apply (annotation_snoc key ls l o L). Qed.
Lemma snoc_no : forall key ls l o, last_annotation key ls o -> (forall v, ~ annotates key l v) -> last_annotation key (ls ++ [l]) o.
Proof. intros key ls l o L A. now apply (annotation_snoc key ls l o L). Qed.
Ltac other O := apply O; [cbn; tauto|cbn; tauto|discriminate].
Ltac noted O := first [eapply snoc_yes; [eassumption|]; solve [eauto] | eapply snoc_no; [eassumption|]; solve [eauto | other O]].

(** a line has one annotation at most *)
Lemma marks_differ : forall k k' s, In k ["name"; "min_args"; "max_args"; "description"; "example"]%string -> In k' ["name"; "min_args"; "max_args"; "description"; "example"]%string -> k <> k' ->
  forall r, strip_prefix (mark k) s = Some r -> strip_prefix (mark k') s = None.
Proof.
  intros k k' s I I' Ne r E. apply strip_prefix_spec in E. subst s. cbn in I, I'.
  repeat (destruct I as [<- | I]; [repeat (destruct I' as [<- | I']; [first [reflexivity|congruence]|]); destruct I'|]); destruct I.
Qed.
Definition get_min (m : meta) (o : option str) : Prop := match o with None => m_min m = 1 | Some t => count_text t (m_min m) end.
Definition get_max (m : meta) (o : option str) : Prop := match m_max m with None => o = None \/ o = Some (lit "unlimited") | Some n => exists t, o = Some t /\ count_text t n end.
Definition reads_as (ls : list str) (m : meta) : Prop :=
  last_annotation "name" ls (m_name m) /\ last_annotation "description" ls (m_description m) /\ last_annotation "example" ls (m_example m)
  /\ (exists o, last_annotation "min_args" ls o /\ get_min m o) /\ (exists o, last_annotation "max_args" ls o /\ get_max m o).
Definition bounds_ok (l : str) : Prop := (forall v, annotates "min_args" l v -> exists n, count_text v n) /\ (forall v, annotates "max_args" l v -> v = lit "unlimited" \/ exists n, count_text v n).

Lemma meta_snoc : forall ls m l, meta_lines m (ls ++ [l]) = (m1 <- meta_lines m ls ;; meta_line m1 l).
Proof.
  induction ls as [|x ls IH]; intros m l; cbn [app meta_lines bind].
  - destruct (meta_line m l); reflexivity.
  - destruct (meta_line m x) as [m1|e|p]; cbn [bind]; [apply IH|reflexivity|reflexivity].
Qed.
Lemma line_read : forall ls m l, reads_as ls m -> match meta_line m l with Ok m' => reads_as (ls ++ [l]) m' /\ bounds_ok l | Err _ => ~ bounds_ok l | Panic _ => False end.
Proof.
  intros ls m l (Nm & Ds & Ex & (mn & Mn & Mn') & (mx & Mx & Mx')). unfold meta_line. set (t := trim l).
  change (lit "// @name:") with (mark "name"). change (lit "// @min_args:") with (mark "min_args"). change (lit "// @max_args:") with (mark "max_args"). change (lit "// @description:") with (mark "description"). change (lit "// @example:") with (mark "example").
  assert (forall key, strip_prefix (mark key) t = None -> forall v, ~ annotates key l v) as Not by (intros key E v A; apply annotates_iff in A as (r & A & _); unfold t in E; congruence).
  assert (forall key r, strip_prefix (mark key) t = Some r -> annotates key l (trim r)) as Yes by (intros key r E; apply annotates_iff; eauto).
  assert (forall k k' r, strip_prefix (mark k) t = Some r -> In k ["name"; "min_args"; "max_args"; "description"; "example"]%string -> In k' ["name"; "min_args"; "max_args"; "description"; "example"]%string -> k <> k' -> forall v, ~ annotates k' l v) as Other.
  { intros k k' r E I I' Ne. apply Not. eapply (marks_differ k k'); eauto. }
  assert ((forall v, ~ annotates "min_args" l v) -> (forall v, ~ annotates "max_args" l v) -> bounds_ok l) as Free by (intros A B; split; intros v K; exfalso; [eapply A|eapply B]; eauto).
  destruct (strip_prefix (mark "name") t) as [r|] eqn:E1.
  { pose proof (fun k' => Other "name"%string k' r E1) as O. split; [|apply Free; other O].
    split; [noted O|]. split; [noted O|]. split; [noted O|].
    split; [exists mn|exists mx]; (split; [noted O|assumption]). }
  destruct (strip_prefix (mark "min_args") t) as [r|] eqn:E2.
  { pose proof (fun k' => Other "min_args"%string k' r E2) as O. destruct (usize_from_str (trim r)) as [n|] eqn:U; cbn [ok_or bind].
    - apply usize_iff in U. split.
      + split; [noted O|]. split; [noted O|]. split; [noted O|]. split.
        * exists (Some (trim r)). split; [noted O|exact U].
        * exists mx. split; [noted O|assumption].
      + split; [intros v A; rewrite (annotates_one _ _ _ _ A (Yes _ _ E2)); eauto|]. intros v A. exfalso. eapply (O "max_args"%string); [cbn; tauto|cbn; tauto|discriminate|eassumption].
    - intros [B _]. destruct (B _ (Yes _ _ E2)) as [n C]. apply usize_iff in C. congruence. }
  destruct (strip_prefix (mark "max_args") t) as [r|] eqn:E3.
  { pose proof (fun k' => Other "max_args"%string k' r E3) as O. destruct (str_eqb (trim r) (lit "unlimited")) eqn:Un.
    - apply str_eqb_eq in Un. split.
      + split; [noted O|]. split; [noted O|]. split; [noted O|]. split.
        * exists mn. split; [noted O|assumption].
        * exists (Some (trim r)). split; [noted O|]. right. now rewrite Un.
      + split; [intros v A; exfalso; eapply (O "min_args"%string); [cbn; tauto|cbn; tauto|discriminate|eassumption]|]. intros v A. left. rewrite (annotates_one _ _ _ _ A (Yes _ _ E3)). exact Un.
    - destruct (usize_from_str (trim r)) as [n|] eqn:U; cbn [ok_or bind].
      + apply usize_iff in U. split.
        * split; [noted O|]. split; [noted O|]. split; [noted O|]. split.
          -- exists mn. split; [noted O|assumption].
          -- exists (Some (trim r)). split; [noted O|]. exists (trim r). auto.
        * split; [intros v A; exfalso; eapply (O "min_args"%string); [cbn; tauto|cbn; tauto|discriminate|eassumption]|]. intros v A. right. rewrite (annotates_one _ _ _ _ A (Yes _ _ E3)). eauto.
      + intros [_ B]. destruct (B _ (Yes _ _ E3)) as [K|[n C]]; [apply str_eqb_eq in K; congruence|]. apply usize_iff in C. congruence. }
  destruct (strip_prefix (mark "description") t) as [r|] eqn:E4.
  { pose proof (fun k' => Other "description"%string k' r E4) as O. split; [|apply Free; eauto].
    split; [noted O|]. split; [noted O|]. split; [noted O|].
    split; [exists mn|exists mx]; (split; [noted O|assumption]). }
  destruct (strip_prefix (mark "example") t) as [r|] eqn:E5.
  { split; [|apply Free; eauto].
    split; [noted Other|]. split; [noted Other|]. split; [noted Other|].
    split; [exists mn|exists mx]; (split; [noted Other|assumption]). }
  split; [|apply Free; eauto].
  split; [noted Other|]. split; [noted Other|]. split; [noted Other|].
  split; [exists mn|exists mx]; (split; [noted Other|assumption]).
Qed.
Lemma lines_read : forall ls, match meta_lines (mkMeta None 1 None None None) ls with Ok m => reads_as ls m /\ Forall bounds_ok ls | Err _ => ~ Forall bounds_ok ls | Panic _ => False end.
Proof.
  induction ls as [|l ls IH] using rev_ind.
  - cbn [meta_lines]. split; [|constructor]. repeat split; try (apply not_annotated; constructor); (exists None; split; [apply not_annotated; constructor|]); [reflexivity|now left].
  - rewrite meta_snoc. destruct (meta_lines _ ls) as [m|e|p]; cbn [bind].
    + destruct IH as [R F]. pose proof (line_read ls m l R) as L. destruct (meta_line m l) as [m'|e|p]; [|intros K; apply Forall_app in K as [_ K]; inversion K; contradiction|assumption].
      destruct L as [R' B]. split; [exact R'|]. apply Forall_app. split; [exact F|now constructor].
    + intros K. apply Forall_app in K as [K _]. contradiction.
    + assumption.
Qed.
Lemma source_read : forall source f, parse_js_function source = Ok f <-> says source f /\ bounds_read source.
Proof.
  intros source f. unfold parse_js_function. pose proof (lines_read (lines source)) as L. destruct (meta_lines _ (lines source)) as [m|e|p]; cbn [bind]; [|split; [discriminate|intros [_ B]; contradiction]|destruct L].
  destruct L as [(Nm & Ds & Ex & (mn & Mn & Mn') & (mx & Mx & Mx')) F]. split.
  - destruct (m_name m) as [name|] eqn:En; cbn [ok_or bind]; [|discriminate]. intros K. injection K as <-. split; [|exact F]. constructor; cbn [js_code js_name js_description js_example js_min js_max]; auto; eauto.
  - intros [S _]. destruct S as [Sc Sn Sd Se (o1 & S1 & S1') (o2 & S2 & S2')]. pose proof (annotation_unique _ _ _ _ Nm Sn) as ->. cbn [ok_or bind].
    pose proof (annotation_unique _ _ _ _ Mn S1) as ->. pose proof (annotation_unique _ _ _ _ Mx S2) as ->. destruct f as [nm mi ma de ex co]. cbn [js_code js_name js_description js_example js_min js_max] in *.
    rewrite (annotation_unique _ _ _ _ Ds Sd), (annotation_unique _ _ _ _ Ex Se). f_equal. f_equal.
    + unfold get_min in Mn'. destruct o1 as [t|]; [|congruence]. apply usize_iff in Mn'. apply usize_iff in S1'. congruence.
    + unfold get_max in Mx'. assert (forall n, ~ count_text (lit "unlimited") n) as Nu by (intros n C; apply usize_iff in C; discriminate C).
      destruct (m_max m) as [a|], ma as [b|]; auto.
      * destruct Mx' as (t & -> & C). destruct S2' as (t' & K & C'). injection K as <-. apply usize_iff in C. apply usize_iff in C'. congruence.
      * destruct Mx' as (t & -> & C). destruct S2' as [K|K]; [discriminate|]. injection K as ->. now apply Nu in C.
      * destruct S2' as (t & -> & C). destruct Mx' as [K|K]; [discriminate|]. injection K as ->. now apply Nu in C.
    + congruence.
Qed.
Lemma source_rejected : forall source, (Forall (fun l => forall v, ~ annotates "name" l v) (lines source) \/ ~ bounds_read source) -> exists e, parse_js_function source = Err e.
Proof.
  intros source N. destruct (parse_js_function source) as [f|e|p] eqn:E; [|eauto|].
  - apply source_read in E as [S B]. destruct N as [N|N]; [|contradiction]. destruct S as [_ Sn _ _ _ _]. pose proof (annotation_unique _ _ _ _ Sn (not_annotated _ _ N)). discriminate.
  - unfold parse_js_function in E. pose proof (lines_read (lines source)) as L. destruct (meta_lines _ (lines source)) as [m|e|q]; cbn [bind] in E; [|discriminate|destruct L]. destruct (m_name m); cbn [ok_or bind] in E; discriminate.
Qed.
Lemma source_outcome : forall source, (exists f, parse_js_function source = Ok f) \/ (exists e, parse_js_function source = Err e).
Proof.
  intros source. unfold parse_js_function. pose proof (lines_read (lines source)) as L. destruct (meta_lines _ (lines source)) as [m|e|q]; cbn [bind]; [|eauto|destruct L]. destruct (m_name m); cbn [ok_or bind]; eauto.
Qed.
