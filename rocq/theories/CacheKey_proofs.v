(** The cache key determines the expression and the variables. *)
From Coq Require Import String List ZArith NArith Bool Lia Permutation.
From Verif Require Import Base F64 F64Text Syntax Ext Json Methods Api Host HttpCache HttpServer Spec Spec_text Spec_http Base_proofs Value_proofs Shared_proofs Debug_proofs Doubles_proofs.
Import ListNotations.
Local Open Scope N_scope.

(** ** Scanning for quotes *)
Definition qstep (st : bool * bool) (c : N) : bool * bool :=
  let '(i, e) := st in if e : bool then (i, false) else if c =? 92 then (i, true) else if c =? 34 then (negb i, false) else (i, false).
Fixpoint walk (st : bool * bool) (s : str) : option (bool * bool) :=
  match s with
  | [] => Some st
  | c :: r => if (c =? 124) && negb (fst st) then None else walk (qstep st c) r
  end.
Lemma walk_app : forall a b st, walk st (a ++ b) = match walk st a with Some st' => walk st' b | None => None end.
Proof. intros a. induction a as [|c a IH]; intros b st; [reflexivity|]. cbn [app walk]. destruct (_ && _); [reflexivity|apply IH]. Qed.
Lemma walk_fold : forall s st st', walk st s = Some st' -> fold_left qstep s st = st'.
Proof. intros s. induction s as [|c s IH]; intros st st' K; cbn in *; [congruence|]. destruct (_ && _); [discriminate|]. now apply IH. Qed.
Definition flip (st : bool * bool) : bool * bool := (negb (fst st), snd st).
Lemma fold_flip : forall s st, fold_left qstep s (flip st) = flip (fold_left qstep s st).
Proof.
  intros s. induction s as [|c s IH]; intros [i e]; [reflexivity|]. cbn [fold_left]. rewrite <- IH. f_equal. unfold flip, qstep. cbn [fst snd]. destruct e; [reflexivity|]. destruct (c =? 92); [reflexivity|]. now destruct (c =? 34).
Qed.
Definition tidy (s : str) : Prop := walk (false, false) s = Some (false, false).
Lemma tidy_app : forall a b, tidy a -> tidy b -> tidy (a ++ b).
Proof. unfold tidy. intros a b A B. now rewrite walk_app, A. Qed.
Lemma tidy_plain : forall s, Forall (fun c => c <> 34 /\ c <> 92 /\ c <> 124) s -> tidy s.
Proof.
  intros s F. unfold tidy. induction F as [|c s (N1 & N2 & N3) F IH]; [reflexivity|]. cbn [walk]. rewrite (proj2 (N.eqb_neq _ _) N3). cbn [andb]. unfold qstep. now rewrite (proj2 (N.eqb_neq _ _) N1), (proj2 (N.eqb_neq _ _) N2).
Qed.
(** the last separator: what follows it is tidy *)
Lemma separator : forall e1 e2 j1 j2, tidy j1 -> tidy j2 -> e1 ++ 124 :: j1 = e2 ++ 124 :: j2 -> e1 = e2 /\ j1 = j2.
Proof.
  assert (W : forall m j1 j2, tidy j1 -> tidy j2 -> j2 = m ++ 124 :: j1 -> False).
  { intros m j1 j2 T1 T2 ->. unfold tidy in T2. rewrite walk_app in T2. destruct (walk (false, false) m) as [[i e]|]; [|discriminate]. cbn [walk] in T2. destruct i; [|discriminate].
    assert (Q : qstep (true, e) 124 = flip (false, false)) by (destruct e; reflexivity). cbn [fst negb andb] in T2. rewrite N.eqb_refl in T2. cbn [andb] in T2. rewrite Q in T2. apply walk_fold in T2, T1. rewrite fold_flip, T1 in T2. discriminate. }
  intros e1. induction e1 as [|c e1 IH]; intros [|d e2] j1 j2 T1 T2 E; cbn [app] in E.
  - injection E as ->. now split.
  - exfalso. injection E as _ E. eauto.
  - exfalso. injection E as _ E. symmetry in E. eauto.
  - injection E as <- E. destruct (IH e2 j1 j2 T1 T2 E) as [-> ->]. now split.
Qed.

Section Keys.
  Context {X : Ext} {H : Host}.
  Lemma inside_plain : forall s, Forall (fun c => c <> 34 /\ c <> 92) s -> walk (true, false) s = Some (true, false).
  Proof.
    intros s F. induction F as [|c s (N1 & N2) F IH]; [reflexivity|]. cbn [walk fst negb]. rewrite andb_false_r. unfold qstep. now rewrite (proj2 (N.eqb_neq _ _) N1), (proj2 (N.eqb_neq _ _) N2).
  Qed.
  Lemma esc_walk : forall c, walk (true, false) (esc_debug c) = Some (true, false).
  Proof.
    intros c. destruct (esc_cases c) as [(E & N1 & N2)|[(d & E & _)|E]]; rewrite E.
    - now apply inside_plain; repeat constructor.
    - cbn [walk fst negb]. rewrite !andb_false_r. reflexivity.
    - change (92 :: 117 :: 123 :: hex_str c ++ [125]) with ([92; 117] ++ 123 :: hex_str c ++ [125]). rewrite walk_app. change (walk (true, false) [92; 117]) with (Some (true, false)). apply inside_plain.
      constructor; [split; discriminate|]. apply Forall_app. split; [|repeat constructor; discriminate]. destruct (hex_str_spec c) as [T _]. unfold hex_text in T. rewrite Forall_forall in *. intros x I. destruct (T x I) as (n & L & ->). destruct (hex_char n L) as (_ & A & B & _). now split.
  Qed.
  Lemma tidy_str : forall s, tidy (str_debug s).
  Proof.
    intros s. unfold tidy, str_debug. change (walk (false, false) (34 :: flat_map esc_debug s ++ [34])) with (walk (true, false) (flat_map esc_debug s ++ [34])). rewrite walk_app.
    assert (F : walk (true, false) (flat_map esc_debug s) = Some (true, false)). { induction s as [|c s IH]; [reflexivity|]. cbn [flat_map]. now rewrite walk_app, esc_walk. }
    now rewrite F.
  Qed.
  Lemma tidy_number : forall s, forallb number_char s = true -> tidy s.
  Proof.
    intros s F. apply tidy_plain. rewrite forallb_forall in F. rewrite Forall_forall. intros c I. apply F in I. repeat split; intros ->; discriminate.
  Qed.
  Lemma tidy_join : forall sep l, tidy sep -> Forall tidy l -> tidy (join sep l).
  Proof. intros sep l S F. induction F as [|x l T F IH]; [reflexivity|]. destruct l; [assumption|]. cbn [join]. apply tidy_app; [assumption|]. now apply tidy_app. Qed.
  Ltac plain := apply tidy_plain; repeat constructor; discriminate.
  Lemma tidy_debug : forall v, tidy (value_debug v).
  Proof.
    intros v. induction v as [n|xs IH|b|s| |n|t|s] using value_ind'; cbn [value_debug].
    - apply tidy_app; [plain|]. apply tidy_app; [apply tidy_number, number_debug|plain].
    - apply tidy_app; [plain|]. apply tidy_app; [|plain]. apply tidy_join; [plain|]. induction IH; constructor; auto.
    - destruct b; plain.
    - apply tidy_app; [plain|]. apply tidy_app; [apply tidy_str|plain].
    - plain.
    - apply tidy_app; [plain|]. apply tidy_app; [apply tidy_number, number_debug|plain].
    - apply tidy_app; [plain|]. apply tidy_app; [apply tidy_number, number_Z|plain].
    - apply tidy_app; [plain|]. apply tidy_app; [apply tidy_str|plain].
  Qed.

  (** ** Variables *)
  Definition name_ok (k : str) : Prop := Forall (fun c => c <> 34 /\ c <> 92 /\ c <> 124 /\ c <> 58) k.
  Definition part (kv : str * value) : str := fst kv ++ 58 :: value_debug (snd kv).
  Definition var_ok (kv : str * value) : Prop := name_ok (fst kv) /\ doubles (snd kv).
  Lemma tidy_part : forall kv, var_ok kv -> tidy (part kv).
  Proof.
    intros [k v] [N _]. unfold part. cbn [fst snd] in *. change (58 :: value_debug v) with ([58] ++ value_debug v). apply tidy_app; [|apply tidy_app; [plain|apply tidy_debug]]. apply tidy_plain. eapply Forall_impl; [|exact N]. cbn. tauto.
  Qed.
  Lemma part_inj : forall kv kv' r r', var_ok kv -> var_ok kv' -> stop r -> stop r' -> part kv ++ r = part kv' ++ r' -> kv = kv' /\ r = r'.
  Proof.
    intros [k v] [k' v'] r r' [Nk D] [Nk' D'] S S' E. unfold part in E. cbn [fst snd] in *. rewrite <- !app_assoc in E. cbn [app] in E.
    assert (NI : forall n, name_ok n -> ~ In 58 n). { intros n F I. unfold name_ok in F. rewrite Forall_forall in F. destruct (F _ I) as (_ & _ & _ & K). now apply K. }
    apply cut_at in E as [-> E]; [|now apply NI..]. destruct (debug_inj v D v' r r' D' S S' E) as [-> ->]. now split.
  Qed.
  Lemma parts_inj : forall l, Forall var_ok l -> forall l', Forall var_ok l' -> join [44] (map part l) = join [44] (map part l') -> l = l'.
  Proof.
    assert (St : forall r, stop (44 :: r)) by (intros r; right; exists 44, r; split; [reflexivity|cbn; tauto]). assert (S0 : stop []) by now left.
    assert (Ne : forall kv r, part kv ++ r <> []) by (intros [[|c k] v] r; discriminate).
    intros l0 F. induction F as [|x l Hx F IH]; intros [|y l'] F' E; try reflexivity.
    - exfalso. symmetry in E. cbn [map join] in E. destruct (map part l'); [apply (Ne y []); now rewrite app_nil_r|now apply Ne in E].
    - exfalso. cbn [map join] in E. destruct (map part l); [apply (Ne x []); now rewrite app_nil_r|now apply Ne in E].
    - inversion F' as [|? ? Hy F2]; subst. destruct l as [|x2 l], l' as [|y2 l'].
      + cbn [map join] in E. rewrite <- (app_nil_r (part x)), <- (app_nil_r (part y)) in E. apply part_inj in E as [-> _]; auto.
      + exfalso. change (part x = part y ++ 44 :: join [44] (map part (y2 :: l'))) in E. rewrite <- (app_nil_r (part x)) in E. apply part_inj in E as [_ E]; auto. discriminate.
      + exfalso. change (part x ++ 44 :: join [44] (map part (x2 :: l)) = part y) in E. rewrite <- (app_nil_r (part y)) in E. apply part_inj in E as [_ E]; auto. discriminate.
      + change (part x ++ 44 :: join [44] (map part (x2 :: l)) = part y ++ 44 :: join [44] (map part (y2 :: l'))) in E. apply part_inj in E as [-> E]; auto. injection E as E. f_equal. now apply IH.
  Qed.
  Lemma insert_perm : forall x l, Permutation (x :: l) (insert_str x l).
  Proof. intros x l. induction l as [|y l IH]; cbn; [reflexivity|]. destruct (str_cmp x y); try reflexivity. rewrite perm_swap. now constructor. Qed.
  Lemma sort_perm : forall l, Permutation l (sort_strs l).
  Proof. intros l. induction l as [|x l IH]; [reflexivity|]. cbn. rewrite <- insert_perm. now constructor. Qed.
  Lemma sorted_parts : forall vars, exists l, sort_strs (map part vars) = map part l /\ Permutation vars l.
  Proof. intros vars. destruct (Permutation_map_inv part _ (Permutation_sym (sort_perm (map part vars)))) as (l & E & P). exists l. split; [assumption|]. exact P. Qed.
  Lemma key_shape : forall e vars, vars <> [] -> exists l, generate_cache_key e vars = e ++ 124 :: join [44] (map part l) /\ Permutation vars l.
  Proof.
    intros e vars N. destruct (sorted_parts vars) as (l & E & P). exists l. split; [|assumption]. rewrite <- E. destruct vars; [congruence|reflexivity].
  Qed.
  Lemma key_inj : forall e1 e2 vars1 vars2, vars1 <> [] -> vars2 <> [] -> Forall var_ok vars1 -> Forall var_ok vars2 ->
    generate_cache_key e1 vars1 = generate_cache_key e2 vars2 -> e1 = e2 /\ Permutation vars1 vars2.
  Proof.
    intros e1 e2 vars1 vars2 N1 N2 F1 F2 E. destruct (key_shape e1 vars1 N1) as (l1 & E1 & P1), (key_shape e2 vars2 N2) as (l2 & E2 & P2). rewrite E1, E2 in E.
    assert (L1 : Forall var_ok l1) by (eapply Permutation_Forall; eassumption). assert (L2 : Forall var_ok l2) by (eapply Permutation_Forall; eassumption).
    assert (T : forall l, Forall var_ok l -> tidy (join [44] (map part l))). { intros l F. apply tidy_join; [plain|]. induction F; constructor; auto using tidy_part. }
    apply separator in E as [-> E]; auto. split; [reflexivity|]. apply parts_inj in E as ->; auto. now rewrite P1, P2.
  Qed.
  Lemma join_in : forall sep x l, In x l -> exists b c, join sep l = b ++ x ++ c.
  Proof.
    intros sep x l. induction l as [|y l IH]; [contradiction|]. intros [->|I].
    - destruct l as [|z l]; [exists [], []; cbn; now rewrite app_nil_r|]. exists [], (sep ++ join sep (z :: l)). reflexivity.
    - destruct l as [|z l]; [contradiction|]. destruct (IH I) as (b & c & E). exists (y ++ sep ++ b), c. change (join sep (y :: z :: l)) with (y ++ sep ++ join sep (z :: l)). rewrite E. now rewrite <- !app_assoc.
  Qed.
  Lemma key_mixed : forall e1 e2 vars1, mhas (lit "arguments") vars1 = true -> generate_cache_key e1 vars1 = e2 -> ~ unmistakable e2.
  Proof.
    intros e1 e2 vars1 M E U. assert (N1 : vars1 <> []) by (intros ->; discriminate). destruct (key_shape e1 vars1 N1) as (l1 & E1 & P1). apply mhas_in in M. unfold mkeys in M. apply in_map_iff in M as ([k v] & Ek & I). cbn in Ek. subst k.
    apply (Permutation_in _ P1) in I. apply (in_map part) in I. apply (join_in [44]) in I as (b & c & Ej). apply (U e1 b (value_debug v ++ c)). rewrite <- E, E1, Ej. unfold part. cbn [fst snd]. now rewrite <- !app_assoc.
  Qed.

  (** ** The variables of a request *)
  Lemma sanitized_ok : forall k, name_ok (sanitize_json_key k).
  Proof.
    intros k. unfold name_ok, sanitize_json_key. apply Forall_forall. intros c I. apply in_map_iff in I as (d & <- & _). destruct (is_alphanumeric d) eqn:A; cbn [orb].
    - repeat split; intros ->; discriminate.
    - destruct (N.eqb_spec d 95); repeat split; subst; discriminate.
  Qed.
  Lemma insert_vars : forall k v vars, var_ok (k, v) -> Forall var_ok vars -> Forall var_ok (minsert k v vars).
  Proof.
    intros k v vars K F. unfold minsert. constructor; [assumption|]. induction F as [|[k' v'] m Hx F IH]; [constructor|]. cbn [mremove]. destruct (str_eqb k k'); [exact IH|now constructor].
  Qed.
  Lemma request_vars_ok : forall id a, orders -> (forall kvs, a = Some kvs -> Forall (fun kv => json_ok (snd kv)) kvs) ->
    Forall var_ok (request_vars id a) /\ NoDup (mkeys (request_vars id a)).
  Proof.
    intros id [kvs|] O J; [|split; constructor]. specialize (J kvs eq_refl). cbn [request_vars]. apply (Permutation_Forall (O id kvs)) in J. remember (minsert (lit "arguments") _ []) as m0 eqn:Em.
    assert (G : Forall var_ok m0 /\ NoDup (mkeys m0)). { subst m0. split; [apply insert_vars; [|constructor]|apply NoDup_minsert; constructor]. split; [|exact I]. repeat constructor; discriminate. }
    clear Em. revert m0 G. induction J as [|[k v] l Hv J IH]; intros m0 [G1 G2]; [now split|]. cbn [fold_left fst snd]. apply IH. split; [|now apply NoDup_minsert]. apply insert_vars; [|assumption]. split; [apply sanitized_ok|]. now apply to_value_ok.
  Qed.
  Lemma request_vars_arguments : forall id kvs, mhas (lit "arguments") (request_vars id (Some kvs)) = true.
  Proof.
    intros id kvs. cbn [request_vars]. remember (minsert (lit "arguments") _ []) as m0 eqn:Em. assert (G : mhas (lit "arguments") m0 = true) by (subst m0; reflexivity). clear Em.
    revert m0 G. induction (h_order id kvs) as [|[k v] l IH]; intros m0 G; [exact G|]. cbn [fold_left fst snd]. apply IH. unfold mhas in *. rewrite mget_minsert. now destruct (str_eqb _ _).
  Qed.
End Keys.
