(** The files of functions: proofs. *)
From Coq Require Import String List ZArith NArith Bool Lia Permutation Sorted.
From Verif Require Import Base F64 Utf8 Syntax Ext Json Lines Host HttpRead HttpAuth Multipart Registry JsPlugin HttpServer Spec Spec_syntax Spec_text Spec_args Spec_registry Spec_json Spec_http Spec_js Spec_form.
From Verif Require Import Base_proofs Text_proofs HttpRead_proofs HttpAuth_proofs HttpCache_proofs Command_proofs JsPlugin_proofs Multipart_proofs Registry_proofs.
Import ListNotations.
Local Open Scope N_scope.

Section Paths.
  Context {X : Ext} {H : Host}.
  Lemma step_stay : forall s c, In c [[]; lit "."] -> step_component s c = s.
  Proof. intros s c [<- |[<- |[]]]; reflexivity. Qed.
  Lemma step_up : forall s, step_component s (lit "..") = tl s.
  Proof. reflexivity. Qed.
  Lemma step_down : forall s c, ~ In c [[]; lit "."; lit ".."] -> step_component s c = c :: s.
  Proof.
    intros s c N. unfold step_component. destruct c as [|x c]; [exfalso; apply N; now left|]. destruct (str_eqb (x :: c) (lit ".")) eqn:E; [apply str_eqb_eq in E; exfalso; apply N; rewrite E; cbn; auto|].
    destruct (str_eqb (x :: c) (lit "..")) eqn:E2; [apply str_eqb_eq in E2; exfalso; apply N; rewrite E2; cbn; auto|reflexivity].
  Qed.
  Lemma step_cases : forall c, {In c [[]; lit "."]} + {c = lit ".."} + {~ In c [[]; lit "."; lit ".."]}.
  Proof.
    intros c. destruct (list_eq_dec N.eq_dec c []) as [->|N1]; [left; left; now left|]. destruct (list_eq_dec N.eq_dec c (lit ".")) as [->|N2]; [left; left; right; now left|].
    destruct (list_eq_dec N.eq_dec c (lit "..")) as [->|N3]; [left; now right|]. right. intros [E|[E|[E|[]]]]; congruence.
  Qed.
  Lemma walks_fold : forall d cs e, walks d cs e -> rev e = fold_left step_component cs (rev d).
  Proof.
    intros d cs e W. induction W as [d|d c r e I W IH|r e W IH|d x r e W IH|d c r e N W IH]; cbn [fold_left]; [reflexivity|now rewrite step_stay|exact IH| |].
    - rewrite rev_app_distr. exact IH.
    - rewrite step_down by assumption. now rewrite rev_app_distr in IH.
  Qed.
  Lemma walks_exist : forall cs d, walks d cs (rev (fold_left step_component cs (rev d))).
  Proof.
    induction cs as [|c cs IH]; intros d; cbn [fold_left]; [rewrite rev_involutive; constructor|]. destruct (step_cases c) as [[I| ->]|N].
    - rewrite step_stay by assumption. apply stays; auto.
    - rewrite step_up. destruct (rev d) as [|x s] eqn:E.
      + apply (f_equal (@rev str)) in E. rewrite rev_involutive in E. cbn in E. subst d. apply leaves_root. apply (IH []).
      + apply (f_equal (@rev str)) in E. rewrite rev_involutive in E. cbn in E. subst d. apply leaves. cbn [tl]. specialize (IH (rev s)). now rewrite rev_involutive in IH.
    - rewrite step_down by assumption. apply enters; [assumption|]. specialize (IH (d ++ [c])). now rewrite rev_app_distr in IH.
  Qed.
  Definition start_of (p : str) : list str := if hd 0 p =? 47 then [] else rev h_cwd.
  Lemma resolve_start : forall p, resolve p = concat (map (fun c => 47 :: c) (rev (fold_left step_component (split_char 47 p) (start_of p)))).
  Proof.
    intros p. unfold resolve, start_of. rewrite flat_map_concat_map. do 4 f_equal. destruct p as [|c p]; [reflexivity|]. cbn [hd]. destruct (N.eqb_spec c 47) as [->|N]; [reflexivity|].
    destruct c as [|q]; [reflexivity|]. do 6 (destruct q as [q|q|]; try reflexivity). congruence.
  Qed.
  Lemma leads_iff : forall p a, leads p a <-> a = resolve p.
  Proof.
    intros p a. rewrite resolve_start. unfold start_of. split.
    - intros (cs & e & Ne & E & F & W & ->). apply walks_fold in W. rewrite E at 1. rewrite join_split_unique by assumption. do 2 f_equal. rewrite <- (rev_involutive e), W. f_equal. f_equal. now destruct (_ =? _).
    - intros ->. destruct (split_join 47 p) as (items & Es & Ne & Ep & F). rewrite Es. exists items. eexists. split; [assumption|]. split; [assumption|]. split; [assumption|]. split; [|reflexivity].
      pose proof (walks_exist items (if hd 0 p =? 47 then [] else h_cwd)) as W. destruct (hd 0 p =? 47); exact W.
  Qed.
  Lemma split_app : forall a b, split_char 47 (a ++ 47 :: b) = split_char 47 a ++ split_char 47 b.
  Proof.
    induction a as [|c a IH]; intros b; cbn [app split_char]; [reflexivity|]. rewrite IH. destruct (c =? 47); [reflexivity|]. destruct (split_char 47 a) eqn:E; [|reflexivity].
    destruct a as [|d a]; [discriminate|]. cbn in E. destruct (d =? 47); [discriminate|]. destruct (split_char 47 a); discriminate.
  Qed.
  Lemma fold_enter : forall cs s, Forall (fun c => ~ In c [[]; lit "."; lit ".."] /\ ~ In 47 c) cs -> fold_left step_component cs s = rev cs ++ s.
  Proof. intros cs s F. revert s. induction F as [|c cs [N _] F IH]; intros s; [reflexivity|]. cbn [fold_left rev]. rewrite step_down by assumption. rewrite IH, <- app_assoc. reflexivity. Qed.
  Lemma concat_join : forall cs, cs <> [] -> concat (map (fun c => 47 :: c) cs) = 47 :: join [47] cs.
  Proof. induction cs as [|c cs IH]; [congruence|]. intros _. destruct cs as [|d cs]; [cbn; now rewrite app_nil_r|]. cbn [map concat]. cbn [map concat] in IH. rewrite IH by discriminate. reflexivity. Qed.
  Lemma other_slash : forall (a b : str) c r, c <> 47 -> match c :: r with [] => b | 47 :: _ => a ++ b | _ => a ++ 47 :: b end = a ++ 47 :: b.
  Proof. intros a b c r Nc. destruct c as [|q]; [reflexivity|]. do 6 (destruct q as [q|q|]; try reflexivity). congruence. Qed.
  Lemma hook_path_is : forall name, file_name name -> hook_path name (js_path name).
  Proof.
    intros name (cs & Ne & E & F). exists (resolve h_hooks). split; [now apply leads_iff|]. unfold js_path.
    assert (split_char 47 name = cs) as Es. { rewrite E. apply join_split_unique; [assumption|]. eapply Forall_impl; [|exact F]. now intros c [_ K]. }
    assert (hd 0 name =? 47 = false) as Hd. { destruct name as [|c name]; [reflexivity|]. destruct (N.eqb_spec c 47) as [->|N]; [|now apply N.eqb_neq]. cbn in Es. rewrite <- Es in F. apply Forall_inv in F as [F _]. exfalso. apply F. now left. }
    assert (fold_left step_component (split_char 47 (path_join h_hooks name)) (start_of (path_join h_hooks name)) = rev cs ++ fold_left step_component (split_char 47 h_hooks) (start_of h_hooks)) as K.
    { unfold path_join. assert (forall x, match name with 47 :: _ => name | _ => x end = x) as ->. { intros x. destruct name as [|c name]; [reflexivity|]. cbn in Hd. apply N.eqb_neq in Hd. destruct c as [|q]; [reflexivity|]. do 6 (destruct q as [q|q|]; try reflexivity). congruence. }
      destruct (rev h_hooks) as [|c r] eqn:Er.
      - apply (f_equal (@rev N)) in Er. rewrite rev_involutive in Er. cbn in Er. rewrite Er, Es. rewrite fold_enter by assumption. f_equal. unfold start_of. rewrite Hd. reflexivity.
      - apply (f_equal (@rev N)) in Er. rewrite rev_involutive in Er. cbn [rev] in Er. destruct (N.eq_dec c 47) as [->|Nc].
        + rewrite Er. rewrite <- app_assoc. cbn [app]. rewrite !split_app. rewrite Es. change (split_char 47 []) with [@nil N]. rewrite !fold_left_app. cbn [fold_left]. rewrite (step_stay _ []) by now left. rewrite fold_enter by assumption. do 2 f_equal. unfold start_of. destruct (rev r); reflexivity.
        + pose proof (other_slash h_hooks name c r Nc) as O. cbv beta iota in O |- *. rewrite O. clear O.
          rewrite split_app, Es, fold_left_app. rewrite fold_enter by assumption. do 2 f_equal. unfold start_of. rewrite Er. destruct (rev r); reflexivity. }
    rewrite !resolve_start, K. rewrite rev_app_distr, rev_involutive, map_app, concat_app. f_equal. rewrite concat_join by assumption. now rewrite E.
  Qed.
  Lemma hook_path_unique : forall name p q, hook_path name p -> hook_path name q -> p = q.
  Proof. intros name p q (d & L & ->) (d' & L' & ->). apply leads_iff in L, L'. congruence. Qed.
  Lemma last_tail : forall a x, ~ In 47 x -> last (split_char 47 (a ++ x)) [] = last (split_char 47 a) [] ++ x.
  Proof.
    induction a as [|c a IH]; intros x N; cbn [app]; [rewrite split_char_none by assumption; reflexivity|]. cbn [split_char]. specialize (IH x N).
    assert (forall s, exists h t, split_char 47 s = h :: t) as Sc. { intros s. destruct s as [|d s]; cbn; [eauto|]. destruct (d =? 47); [eauto|]. destruct (split_char 47 s); eauto. }
    destruct (Sc (a ++ x)) as (h & t & E1). destruct (Sc a) as (h' & t' & E2). rewrite E1, E2 in *. destruct (c =? 47); [exact IH|].
    assert (t = [] /\ t' = [] /\ h = h' ++ x \/ (exists y z, t = y :: z) /\ exists y z, t' = y :: z) as [(-> & -> & ->)|[(y & z & ->) (y' & z' & ->)]].
    { destruct (in_dec N.eq_dec 47 a) as [I|I].
      - right. apply in_split in I as (a1 & a2 & ->). rewrite <- app_assoc in E1. cbn [app] in E1. rewrite split_app in E1, E2. destruct (Sc a1) as (h1 & t1 & E3). rewrite E3 in E1, E2. cbn [app] in E1, E2. injection E1 as _ <-. injection E2 as _ <-. destruct (Sc (a2 ++ x)) as (? & ? & ->). destruct (Sc a2) as (? & ? & ->). split; destruct t1; cbn; eauto.
      - left. rewrite split_char_none in E1 by (intros K; apply in_app_or in K as [K|K]; contradiction). rewrite split_char_none in E2 by assumption. injection E1 as <- <-. injection E2 as <- <-. now split. }
    - reflexivity.
    - cbn [last] in *. exact IH.
  Qed.
  Lemma js_file_iff : forall p, is_js_file p = true <-> js_file p.
  Proof.
    intros p. unfold is_js_file, js_file, strip_suffix. split.
    - destruct (strip_prefix _ _) as [r|] eqn:E; [|discriminate]. destruct (rev r) as [|c0 r0] eqn:Er; [discriminate|]. intros _. apply strip_prefix_spec in E. apply (f_equal (@rev N)) in E. rewrite rev_involutive, rev_app_distr, rev_involutive in E.
      destruct (split_join 47 p) as (items & Es & Ne & Ep & F). rewrite Es in E. destruct (exists_last Ne) as (its & l & ->). rewrite last_last in E. apply Forall_app in F as [_ F]. apply Forall_inv in F.
      destruct r as [|c r]; [discriminate|]. cbn [rev] in E. assert (exists pre, p = pre ++ l) as [pre ->].
      { rewrite Ep. clear. induction its as [|i its IH]; [now exists []|]. destruct IH as [pre IH]. cbn [app]. destruct (its ++ [l]) eqn:K; [destruct its; discriminate|]. exists (i ++ [47] ++ pre). cbn [join] in *. rewrite IH. now rewrite <- !app_assoc. }
      exists (pre ++ rev r), c. split; [rewrite E, <- !app_assoc; reflexivity|]. intros ->. apply F. rewrite E. apply in_or_app. left. apply in_or_app. right. now left.
    - intros (a & c & -> & N). rewrite last_tail by (intros [K|K]; [congruence|revert K; now apply not_in_lit]). rewrite !rev_app_distr. cbn [rev app]. rewrite <- app_assoc. rewrite (proj2 (strip_prefix_spec (rev (lit ".js")) (rev (lit ".js") ++ [c] ++ rev (last (split_char 47 a) [])) _) eq_refl).
      cbn [app rev]. destruct (rev (rev _) ++ [c]) eqn:K; [destruct (rev (rev _)); discriminate|reflexivity].
  Qed.

  (** ** The files *)
  Lemma hook_files_in : forall fs rel src, readable -> NoDup (mkeys fs) -> (In (rel, src) (hook_files fs) <-> hook_file fs rel src).
  Proof.
    intros fs rel src (_ & _ & P) Nd. unfold hook_files. set (l := flat_map _ fs). assert (In (rel, src) (h_dir_order l) <-> In (rel, src) l) as ->. { split; apply Permutation_in; [symmetry; apply P|apply P]. }
    unfold l. rewrite in_flat_map. split.
    - intros ([p c] & I & K). cbn [fst snd] in K. destruct (strip_prefix _ _) as [r|] eqn:E; [|destruct K]. destruct (is_js_file r) eqn:J; [|destruct K]. destruct K as [K|[]]. injection K as -> ->. apply strip_prefix_spec in E. split; [now apply js_file_iff|]. exists p. split; [|now apply mget_unique]. exists (resolve h_hooks). split; [now apply leads_iff|]. now rewrite E, <- app_assoc.
    - intros (J & p & (d & L & ->) & M). apply leads_iff in L as ->. apply mget_found in M. eexists. split; [exact M|]. cbn [fst snd]. rewrite app_assoc. rewrite (proj2 (strip_prefix_spec _ _ rel) eq_refl). apply js_file_iff in J. rewrite J. now left.
  Qed.
  Lemma hook_files_nodup : forall fs, readable -> NoDup (mkeys fs) -> NoDup (map fst (hook_files fs)).
  Proof.
    intros fs (_ & _ & P) Nd. unfold hook_files. set (l := flat_map _ fs). assert (NoDup (map fst l)) as K; [|apply (Permutation_NoDup (Permutation_map fst (P l)) K)]. unfold l. clear l. unfold mkeys in Nd. induction fs as [|[p c] fs IH]; [constructor|]. cbn [flat_map map fst] in *. inversion Nd as [|? ? N1 N2]; subst.
    destruct (strip_prefix _ p) as [r|] eqn:E; [|now apply IH]. destruct (is_js_file r); [|now apply IH]. cbn [app map fst snd]. constructor; [|now apply IH]. intros I. apply N1. apply in_map_iff in I as ([r' c'] & Er & I). cbn in Er. subst r'. apply in_flat_map in I as ([p' c2] & I & K). cbn [fst snd] in K.
    destruct (strip_prefix _ p') as [r'|] eqn:E'; [|destruct K]. destruct (is_js_file r'); [|destruct K]. destruct K as [K|[]]. injection K as -> ->. apply strip_prefix_spec in E, E'. rewrite E, <- E'. now apply (in_map fst) in I.
  Qed.
  Lemma insert_file_perm : forall x l, Permutation (x :: l) (insert_file x l).
  Proof. intros x l. induction l as [|y l IH]; cbn [insert_file]; [reflexivity|]. destruct (str_cmp _ _); [reflexivity|reflexivity|]. rewrite perm_swap. now constructor. Qed.
  Lemma sort_files_perm : forall l, Permutation l (sort_files l).
  Proof. induction l as [|x l IH]; [constructor|]. cbn [sort_files fold_right]. rewrite <- insert_file_perm. now constructor. Qed.
End Paths.
