(** The pool of variable maps under every interleaving. *)
From Coq Require Import String List ZArith NArith Bool Arith Lia.
From Verif Require Import Base F64 Syntax Methods FnCache Pool Cow Spec_shared.
Import ListNotations.
Local Open Scope nat_scope.

Definition pc_of (p : pool) (t : nat) : pc := t_pc (p_threads p t).
Definition holds (c : pc) : bool := match c with AcqPop | AcqCount _ _ | AcqUnlock _ | RelCheck _ | RelPush _ | RelUnlock | StSize => true | _ => false end.
Definition acquiring (c : pc) : bool := match c with AcqLock | AcqPop | AcqCount _ _ | AcqUnlock _ => true | _ => false end.
Definition in_stats (c : pc) : bool := match c with StLock | StSize | StCreated _ | StReused _ _ => true | _ => false end.
Definition counted (p : pool) : nat := match p_lock p with Some t => match pc_of p t with AcqUnlock _ => 1 | _ => 0 end | None => 0 end.
Definition small (max : nat) (c : pc) : Prop := match c with StCreated n | StReused n _ => n <= max | _ => True end.
(** a [Stats] entry is consistent with the log before it *)
Definition fair_stats (max : nat) (t n c r : nat) (rate : f64) (l : list seen) : Prop :=
  exists la lb, l = la ++ StatsCalled t :: lb /\ (forall s, In s la -> s <> StatsCalled t) /\ n <= max /\ acquired lb <= c + r <= calls l
  /\ rate = percentage (N.of_nat r) (N.of_nat c).
(** what a thread in the middle of [stats] has read so far *)
Definition pending_stats (p : pool) (t : nat) : Prop :=
  exists la lb, p_seen p = la ++ StatsCalled t :: lb /\ (forall s, In s la -> s <> StatsCalled t) /\
  acquired lb <= match pc_of p t with StReused _ c => c | _ => p_created p end + p_reused p
  /\ match pc_of p t with StReused _ c => c <= p_created p | _ => True end.

Record inv (p : pool) : Prop := mkInv {
  i_lock : forall t, p_lock p = Some t <-> holds (pc_of p t) = true;
  i_items : Forall (fun m => m = []) (p_items p);
  i_size : length (p_items p) <= p_max p;
  i_push : forall t m, pc_of p t = RelPush m -> length (p_items p) < p_max p;
  i_fresh : forall t m, (exists b, pc_of p t = AcqCount m b) \/ pc_of p t = AcqUnlock m -> m = [];
  i_empty : forall t m, In (Acquired t m) (p_seen p) -> m = [];
  i_count : p_created p + p_reused p = acquired (p_seen p) + counted p;
  i_calls : exists l, NoDup l /\ (forall t, In t l <-> acquiring (pc_of p t) = true) /\ calls (p_seen p) = acquired (p_seen p) + length l;
  i_small : forall t, small (p_max p) (pc_of p t);
  i_stats : forall t, in_stats (pc_of p t) = true -> pending_stats p t;
  i_log : forall l2 t n c r rate l1, p_seen p = l2 ++ Stats t n c r rate :: l1 -> fair_stats (p_max p) t n c r rate l1
}.

Lemma calls_app : forall a b, calls (a ++ b) = calls a + calls b.
Proof. intros. unfold calls. now rewrite filter_app, app_length. Qed.
Lemma acquired_app : forall a b, acquired (a ++ b) = acquired a + acquired b.
Proof. intros. unfold acquired. now rewrite filter_app, app_length. Qed.

Lemma inv_new : forall max, inv (pool_new max).
Proof.
  intros max. constructor; cbn.
  - intros t. split; discriminate.
  - constructor.
  - lia.
  - discriminate.
  - intros t m [(b & H)|H]; discriminate.
  - contradiction.
  - reflexivity.
  - exists []. split; [constructor|]. split; [intros t; split; [contradiction|discriminate]|reflexivity].
  - intros t. exact I.
  - discriminate.
  - intros [|? ?] ? ? ? ? ? ? H; discriminate.
Qed.

(** ** Facts that only depend on the counts *)
Lemma counts_le : forall p, inv p -> p_created p + p_reused p <= calls (p_seen p).
Proof.
  intros p I. rewrite (i_count p I). destruct (i_calls p I) as (l & N & A & ->). enough (counted p <= length l) by lia. unfold counted. destruct (p_lock p) as [t|] eqn:E; [|lia].
  destruct (pc_of p t) eqn:P; try lia. assert (K : In t l) by (apply A; now rewrite P). destruct l; [contradiction|cbn; lia].
Qed.
Lemma acquired_le : forall p, inv p -> acquired (p_seen p) <= p_created p + p_reused p.
Proof. intros p I. rewrite (i_count p I). lia. Qed.

(** ** Steps that only move thread [t] from one place to another *)
Definition moved (p : pool) (t : nat) (c : pc) (o : list env) : pool := set_thread p t (mkThread c o).
Lemma pc_moved : forall p t c o u, pc_of (moved p t c o) u = if Nat.eqb u t then c else pc_of p u.
Proof. intros p t c o u. unfold pc_of, moved, set_thread. cbn [p_threads]. now destruct (Nat.eqb u t). Qed.
Lemma nodup_remove : forall (t : nat) l, NoDup l -> In t l -> exists l', NoDup l' /\ (forall u, In u l' <-> In u l /\ u <> t) /\ length l = S (length l').
Proof.
  intros t l N. induction N as [|x l Nx N IH]; [contradiction|]. intros [->|I].
  - exists l. split; [assumption|]. split; [|reflexivity]. intros u. cbn [In]. split; [intros K; split; [now right|intros ->; contradiction]|]. intros [[->|K] D]; [contradiction|assumption].
  - destruct (IH I) as (l' & N' & A & L). exists (x :: l'). split; [constructor; [rewrite A; tauto|assumption]|]. split; [|cbn; lia]. intros u. cbn [In]. rewrite A. split.
    + intros [->|[K D]]; [split; [now left|intros ->; contradiction]|split; [now right|assumption]].
    + intros [[->|K] D]; [now left|right; now split].
Qed.

(** ** Preservation, field by field.  [c] is where thread [t] was, [c'] where it goes. *)
Section Preserve.
  Variables (p p' : pool) (t : nat) (c' : pc).
  Hypothesis I : inv p.
  Hypothesis pcs : forall u, pc_of p' u = if Nat.eqb u t then c' else pc_of p u.
  Hypothesis same_max : p_max p' = p_max p.

  Lemma pc_t : pc_of p' t = c'.
  Proof. now rewrite pcs, Nat.eqb_refl. Qed.
  Lemma pc_u : forall u, u <> t -> pc_of p' u = pc_of p u.
  Proof. intros u H. rewrite pcs. apply Nat.eqb_neq in H. now rewrite H. Qed.

  (** the lock: kept, taken or released *)
  Definition lock_ok : Prop :=
    (p_lock p' = p_lock p /\ holds c' = holds (pc_of p t)) \/ (p_lock p = None /\ p_lock p' = Some t /\ holds c' = true)
    \/ (holds (pc_of p t) = true /\ p_lock p' = None /\ holds c' = false).
  Lemma lock_preserved : lock_ok -> forall u, p_lock p' = Some u <-> holds (pc_of p' u) = true.
  Proof.
    intros L u. destruct (Nat.eq_dec u t) as [->|D].
    - rewrite pc_t. destruct L as [[-> ->]|[(_ & -> & ->)|(_ & -> & ->)]]; [apply (i_lock p I)|split; reflexivity|split; discriminate].
    - rewrite (pc_u u D), <- (i_lock p I u). destruct L as [[-> _]|[(-> & -> & _)|(H & -> & _)]]; [reflexivity| |].
      + split; intros K; [injection K as <-; contradiction|discriminate].
      + apply (i_lock p I) in H. rewrite H. split; intros K; [discriminate|injection K as <-; contradiction].
  Qed.
  (** the vector changes only in the hands of the thread that holds the lock *)
  Definition items_ok : Prop :=
    (p_items p' = p_items p /\ (forall m, c' = RelPush m -> length (p_items p) < p_max p))
    \/ (holds (pc_of p t) = true /\ (forall m, c' <> RelPush m) /\ (exists m, p_items p = m :: p_items p'))
    \/ (holds (pc_of p t) = true /\ (forall m, c' <> RelPush m) /\ p_items p' = [] :: p_items p /\ exists m, pc_of p t = RelPush m).
  Lemma sole : forall u, holds (pc_of p t) = true -> u <> t -> holds (pc_of p u) = false.
  Proof.
    intros u H D. destruct (holds (pc_of p u)) eqn:E; [|reflexivity]. apply (i_lock p I) in H, E. congruence.
  Qed.
  Lemma items_preserved : items_ok -> Forall (fun m => m = []) (p_items p') /\ length (p_items p') <= p_max p' /\ forall u m, pc_of p' u = RelPush m -> length (p_items p') < p_max p'.
  Proof.
    intros L. rewrite same_max. pose proof (i_items p I) as It. pose proof (i_size p I) as Sz. destruct L as [[-> L]|[(H & L & m & E)|(H & L & -> & m & E)]].
    - split; [assumption|]. split; [assumption|]. intros u m. rewrite pcs. destruct (Nat.eqb u t); [apply L|apply (i_push p I)].
    - rewrite E in It, Sz. inversion It; subst. cbn in Sz. split; [assumption|]. split; [lia|]. intros u k K. lia.
    - apply (i_push p I) in E. split; [now constructor|]. cbn. split; [lia|]. intros u k. rewrite pcs. destruct (Nat.eqb_spec u t) as [->|D]; [intros K; now apply L in K|]. intros K.
      pose proof (sole u H D) as F. rewrite K in F. discriminate.
  Qed.
  Lemma fresh_preserved : (forall m, (exists b, c' = AcqCount m b) \/ c' = AcqUnlock m -> m = []) ->
    forall u m, (exists b, pc_of p' u = AcqCount m b) \/ pc_of p' u = AcqUnlock m -> m = [].
  Proof. intros H u m. rewrite pcs. destruct (Nat.eqb u t); [apply H|apply (i_fresh p I)]. Qed.
  Lemma small_preserved : small (p_max p) c' -> forall u, small (p_max p') (pc_of p' u).
  Proof. intros H u. rewrite same_max, pcs. destruct (Nat.eqb u t); [assumption|apply (i_small p I)]. Qed.

  (** the log grows by [ns] *)
  Variable ns : list seen.
  Hypothesis log : p_seen p' = ns ++ p_seen p.
  Hypothesis grows : p_created p <= p_created p' /\ p_reused p <= p_reused p'.
  Lemma stats_preserved : (forall u, u <> t -> ~ In (StatsCalled u) ns) -> (in_stats c' = true -> pending_stats p' t) ->
    forall u, in_stats (pc_of p' u) = true -> pending_stats p' u.
  Proof.
    intros N H u S'. destruct (Nat.eq_dec u t) as [->|D]; [apply H; now rewrite <- pc_t|]. rewrite (pc_u u D) in S'. destruct (i_stats p I u S') as (la & lb & E & F & A & B).
    exists (ns ++ la), lb. rewrite log, E, app_assoc. split; [reflexivity|]. split; [|rewrite (pc_u u D); destruct (pc_of p u); lia].
    intros s K ->. apply in_app_or in K as [K|K]; [now apply (N u D)|now apply (F _ K)].
  Qed.
  Lemma still_pending : in_stats (pc_of p t) = true -> ns = [] ->
    match c' with StReused _ c => c = p_created p /\ (forall n d, pc_of p t <> StReused n d) | _ => forall n d, pc_of p t <> StReused n d end -> p_created p' = p_created p -> p_reused p' = p_reused p -> pending_stats p' t.
  Proof.
    intros S' -> H C R. destruct (i_stats p I t S') as (la & lb & E & F & A & B). exists la, lb. rewrite log. cbn [app]. split; [assumption|]. split; [assumption|]. rewrite pc_t, C, R.
    assert (K : acquired lb <= p_created p + p_reused p). { destruct (pc_of p t); lia. }
    destruct c'; lia.
  Qed.
  Lemma log_preserved : (forall a x b, ns = a ++ x :: b -> forall u n c r rate, x = Stats u n c r rate -> fair_stats (p_max p) u n c r rate (b ++ p_seen p)) ->
    forall l2 u n c r rate l1, p_seen p' = l2 ++ Stats u n c r rate :: l1 -> fair_stats (p_max p') u n c r rate l1.
  Proof.
    intros H l2 u n c r rate l1 E. rewrite same_max. rewrite log in E.
    assert (K : (exists b, ns = l2 ++ Stats u n c r rate :: b /\ l1 = b ++ p_seen p) \/ exists a, p_seen p = a ++ Stats u n c r rate :: l1).
    { clear - E. revert l2 E. induction ns as [|x l IH]; intros l2 E; [right; now exists l2|]. destruct l2 as [|y l2]; cbn in E.
      - injection E as -> <-. left. now exists l.
      - injection E as -> E. destruct (IH l2 E) as [(b & -> & ->)|(a & K)]; [left; now exists b|right; now exists a]. }
    destruct K as [(b & En & ->)|(a & K)]; [now apply (H l2 _ b En)|now apply (i_log p I a u n c r rate l1)].
  Qed.

  (** the threads in the middle of [acquire] *)
  Definition calls_ok : Prop :=
    (calls ns = 0 /\ acquired ns = 0 /\ acquiring c' = acquiring (pc_of p t))
    \/ (calls ns = 1 /\ acquired ns = 0 /\ acquiring c' = true /\ acquiring (pc_of p t) = false)
    \/ (calls ns = 0 /\ acquired ns = 1 /\ acquiring c' = false /\ acquiring (pc_of p t) = true).
  Lemma calls_preserved : calls_ok -> exists l, NoDup l /\ (forall u, In u l <-> acquiring (pc_of p' u) = true) /\ calls (p_seen p') = acquired (p_seen p') + length l.
  Proof.
    intros L. destruct (i_calls p I) as (l & N & A & E). rewrite log, calls_app, acquired_app. destruct L as [(-> & -> & Q)|[(-> & -> & Q & Q')|(-> & -> & Q & Q')]].
    - exists l. split; [assumption|]. split; [|lia]. intros u. rewrite A, pcs. destruct (Nat.eqb_spec u t) as [->|D]; [now rewrite Q|reflexivity].
    - exists (t :: l). split; [constructor; [rewrite A; congruence|assumption]|]. split; [|cbn; lia]. intros u. cbn [In]. rewrite A, pcs. destruct (Nat.eqb_spec u t) as [->|D]; [tauto|]. split; [intros [K|K]; [congruence|assumption]|tauto].
    - destruct (nodup_remove t l N) as (l' & N' & A' & E'); [now apply A|]. exists l'. split; [assumption|]. split; [|lia]. intros u. rewrite A', A, pcs. destruct (Nat.eqb_spec u t) as [->|D]; [split; [tauto|congruence]|tauto].
  Qed.
  Lemma counted_of : (forall u, p_lock p' = Some u <-> holds (pc_of p' u) = true) -> counted p' = match p_lock p' with Some u => if Nat.eqb u t then match c' with AcqUnlock _ => 1 | _ => 0 end else match pc_of p u with AcqUnlock _ => 1 | _ => 0 end | None => 0 end.
  Proof. intros _. unfold counted. destruct (p_lock p') as [u|]; [|reflexivity]. rewrite pcs. now destruct (Nat.eqb u t). Qed.
  Lemma preserved : lock_ok -> items_ok -> (forall m, (exists b, c' = AcqCount m b) \/ c' = AcqUnlock m -> m = []) -> (forall u m, In (Acquired u m) ns -> m = []) ->
    p_created p' + p_reused p' = acquired (p_seen p') + counted p' -> calls_ok -> small (p_max p) c' ->
    (forall u, u <> t -> ~ In (StatsCalled u) ns) -> (in_stats c' = true -> pending_stats p' t) ->
    (forall a x b, ns = a ++ x :: b -> forall u n c r rate, x = Stats u n c r rate -> fair_stats (p_max p) u n c r rate (b ++ p_seen p)) -> inv p'.
  Proof.
    intros L It Fr Em Co Ca Sm No Pe Lo. destruct (items_preserved It) as (I1 & I2 & I3). constructor; auto using lock_preserved, calls_preserved, small_preserved.
    - now apply fresh_preserved.
    - intros u m. rewrite log. intros K. apply in_app_or in K as [K|K]; [now apply (Em u)|now apply (i_empty p I u)].
    - now apply stats_preserved.
    - now apply log_preserved.
  Qed.
End Preserve.

Lemma app_nil_cons : forall A (a : list A) x b, [] = a ++ x :: b -> False.
Proof. intros A [|? ?] x b; discriminate. Qed.
Lemma app_one_cons : forall A (a : list A) x b y, [y] = a ++ x :: b -> a = [] /\ x = y /\ b = [].
Proof. intros A [|z [|? ?]] x b y H; cbn in H; try discriminate. injection H as -> <-. auto. Qed.

(** when thread [t] is where nothing is counted, before and after, the counts stay as they are *)
Lemma counts_same : forall p p' t c' , inv p -> (forall u, pc_of p' u = if Nat.eqb u t then c' else pc_of p u) -> lock_ok p p' t c' ->
  (forall m, pc_of p t <> AcqUnlock m) -> (forall m, c' <> AcqUnlock m) -> counted p' = counted p.
Proof.
  intros p p' t c' I pcs L N N'. assert (Z : forall c, (forall m, c <> AcqUnlock m) -> match c with AcqUnlock _ => 1 | _ => 0 end = 0) by (intros [] H; auto; now elim (H m)).
  unfold counted. destruct L as [[-> _]|[(-> & -> & _)|(H & -> & _)]].
  - destruct (p_lock p) as [u|]; [|reflexivity]. rewrite pcs. destruct (Nat.eqb_spec u t) as [->|D]; [now rewrite !Z|reflexivity].
  - rewrite pcs, Nat.eqb_refl. now apply Z.
  - apply (i_lock p I) in H. rewrite H. symmetry. now apply Z.
Qed.
(** a step that logs and counts nothing *)
Lemma quiet_step : forall p p' t c', inv p -> (forall u, pc_of p' u = if Nat.eqb u t then c' else pc_of p u) -> p_max p' = p_max p -> p_seen p' = p_seen p ->
  p_created p' = p_created p -> p_reused p' = p_reused p -> lock_ok p p' t c' -> items_ok p p' t c' -> (forall m, (exists b, c' = AcqCount m b) \/ c' = AcqUnlock m -> m = []) ->
  acquiring c' = acquiring (pc_of p t) -> (forall m, pc_of p t <> AcqUnlock m) -> (forall m, c' <> AcqUnlock m) -> small (p_max p) c' ->
  (in_stats c' = true -> in_stats (pc_of p t) = true /\ (forall n d, pc_of p t <> StReused n d) /\ forall n d, c' = StReused n d -> d = p_created p) -> inv p'.
Proof.
  intros p p' t c' I pcs Mx Sn Cr Re L It Fr Ac N N' Sm St. apply (preserved p p' t c' I pcs Mx []); auto.
  - rewrite Cr, Re. lia.
  - contradiction.
  - rewrite Cr, Re, Sn, (counts_same p p' t c' I pcs L N N'). apply (i_count p I).
  - left. auto.
  - intros S'. destruct (St S') as (A & B & C). eapply (still_pending p p' t c') with (ns := []); auto; try lia. destruct c'; auto. split; [now apply (C size)|assumption].
  - intros a x b E. exfalso. exact (app_nil_cons _ _ _ _ E).
Qed.
Ltac pcs_done := let u := fresh in intros u; unfold pc_of; cbn [go note set_thread set_lock set_items count own p_threads]; now destruct (Nat.eqb u _).
Ltac quiet_fields P := first
  [ reflexivity | exact Logic.I | intros; discriminate | (intros u; reflexivity) | (intros ? [[? ?]|?]; discriminate) ].
Lemma run_preserves : forall p t p', inv p -> run p t = Some p' -> inv p'.
Proof.
  intros p t p' I R. unfold run in R. fold (pc_of p t) in R. destruct (pc_of p t) eqn:P.
  - discriminate.
  - destruct (p_lock p) eqn:L; [discriminate|]. injection R as <-. apply (quiet_step p _ t AcqPop I); try (rewrite P); try (pcs_done); try quiet_fields P.
    + right. left. auto.
    + left. split; [reflexivity|]. discriminate.
  - destruct (p_items p) as [|m r] eqn:E; injection R as <-; (eapply (quiet_step p _ t _ I); [pcs_done|..]); try (rewrite P); try quiet_fields P.
    + left. rewrite P. auto.
    + left. split; [reflexivity|]. discriminate.
    + intros m [(b & K)|K]; [now injection K as <- _|discriminate].
    + left. rewrite P. auto.
    + right. left. rewrite P. split; [reflexivity|]. split; [discriminate|]. exists m. exact E.
    + intros k [(b & K)|K]; [now injection K as <- _|discriminate].
  - injection R as <-. assert (M : m = []) by (apply (i_fresh p I t); left; now exists reused). assert (Lk : p_lock p = Some t) by (apply (i_lock p I); now rewrite P).
    apply (preserved p _ t (AcqUnlock m) I) with (ns := []); try (pcs_done); try reflexivity.
    + destruct reused; cbn; lia.
    + left. rewrite P. auto.
    + left. split; [reflexivity|]. discriminate.
    + intros k [(b & K)|K]; [discriminate|congruence].
    + contradiction.
    + pose proof (i_count p I) as C. unfold counted in C |- *. rewrite Lk in C. rewrite P in C. cbn [go count set_thread p_lock p_created p_reused p_seen]. rewrite Lk.
      unfold pc_of. cbn [go set_thread count p_threads]. rewrite Nat.eqb_refl. cbn [t_pc]. destruct reused; lia.
    + left. rewrite P. auto.
    + auto.
    + discriminate.
    + intros a x b E. exfalso. exact (app_nil_cons _ _ _ _ E).
  - injection R as <-. assert (M : m = []) by (apply (i_fresh p I t); now right). assert (Lk : p_lock p = Some t) by (apply (i_lock p I); now rewrite P).
    apply (preserved p _ t Idle I) with (ns := [Acquired t m]); try (pcs_done); try reflexivity.
    + cbn. lia.
    + right. right. rewrite P. auto.
    + left. split; [reflexivity|]. discriminate.
    + intros k [(b & K)|K]; discriminate.
    + intros u k [K|[]]. congruence.
    + pose proof (i_count p I) as C. unfold counted in C |- *. rewrite Lk, P in C. cbn. cbn in C. unfold acquired in *. cbn. lia.
    + right. right. rewrite P. auto.
    + intros u D [K|[]]. discriminate.
    + discriminate.
    + intros a x b E u n c r rate K. apply app_one_cons in E as (_ & -> & _). discriminate.
  - destruct (p_lock p) eqn:L; [discriminate|]. injection R as <-. apply (quiet_step p _ t (RelCheck m) I); try (rewrite P); try (pcs_done); try quiet_fields P.
    + right. left. auto.
    + left. split; [reflexivity|]. discriminate.
  - injection R as <-. destruct (Nat.ltb_spec (length (p_items p)) (p_max p)) as [Lt|Ge]; (eapply (quiet_step p _ t _ I); [pcs_done|..]); try (rewrite P); try quiet_fields P.
    + left. rewrite P. auto.
    + left. split; [reflexivity|]. auto.
    + left. rewrite P. auto.
    + left. split; [reflexivity|]. discriminate.
  - injection R as <-. apply (quiet_step p _ t RelUnlock I); try (rewrite P); try (pcs_done); try quiet_fields P.
    + left. rewrite P. auto.
    + right. right. rewrite P. split; [reflexivity|]. split; [discriminate|]. split; [reflexivity|]. now exists m.
  - injection R as <-. apply (quiet_step p _ t Idle I); try (rewrite P); try (pcs_done); try quiet_fields P.
    + right. right. rewrite P. auto.
    + left. split; [reflexivity|]. discriminate.
  - destruct (p_lock p) eqn:L; [discriminate|]. injection R as <-. apply (quiet_step p _ t StSize I); try (rewrite P); try (pcs_done); try quiet_fields P.
    + right. left. auto.
    + left. split; [reflexivity|]. discriminate.
    + intros _. split; [reflexivity|]. split; discriminate.
  - injection R as <-. apply (quiet_step p _ t (StCreated (length (p_items p))) I); try (rewrite P); try (pcs_done); try quiet_fields P.
    + right. right. rewrite P. auto.
    + left. split; [reflexivity|]. discriminate.
    + apply (i_size p I).
    + intros _. split; [reflexivity|]. split; discriminate.
  - injection R as <-. assert (Sm : size <= p_max p) by (pose proof (i_small p I t) as K; rewrite P in K; exact K). apply (quiet_step p _ t (StReused size (p_created p)) I); try (rewrite P); try (pcs_done); try quiet_fields P.
    + left. rewrite P. auto.
    + left. split; [reflexivity|]. discriminate.
    + exact Sm.
    + intros _. split; [reflexivity|]. split; [discriminate|]. intros n d K. congruence.
  - injection R as <-. assert (Sm : size <= p_max p) by (pose proof (i_small p I t) as K; rewrite P in K; exact K).
    apply (preserved p _ t Idle I) with (ns := [Stats t size created (p_reused p) (percentage (N.of_nat (p_reused p)) (N.of_nat created))]); try (pcs_done); try reflexivity.
    + cbn. lia.
    + left. rewrite P. auto.
    + left. split; [reflexivity|]. discriminate.
    + intros k [(b & K)|K]; discriminate.
    + intros u k [K|[]]. congruence.
    + rewrite (counts_same p _ t Idle I); [exact (i_count p I)|pcs_done|left; now rewrite P|rewrite P; discriminate|discriminate].
    + left. rewrite P. auto.
    + intros u D [K|[]]. discriminate.
    + discriminate.
    + intros a x b E u n c r rate K. apply app_one_cons in E as (_ & -> & ->). injection K as <- <- <- <- <-. cbn [app].
      assert (St : in_stats (pc_of p t) = true) by now rewrite P. destruct (i_stats p I t St) as (la & lb & E & F & A & B). rewrite P in A, B.
      exists la, lb. split; [exact E|]. split; [exact F|]. split; [exact Sm|]. split; [|reflexivity]. split; [exact A|]. pose proof (counts_le p I). lia.
Qed.
Lemma idle_pc : forall p t, idle p t = true -> pc_of p t = Idle.
Proof. intros p t. unfold idle, pc_of. now destruct (t_pc (p_threads p t)). Qed.
Lemma own_pc : forall p t l, pc_of p t = Idle -> forall u, pc_of (own p t l) u = if Nat.eqb u t then Idle else pc_of p u.
Proof. intros p t l P u. unfold pc_of, own, set_thread in *. cbn [p_threads]. destruct (Nat.eqb u t); [exact P|reflexivity]. Qed.
Lemma own_preserves : forall p t l, inv p -> pc_of p t = Idle -> inv (own p t l).
Proof.
  intros p t l I P. apply (quiet_step p _ t Idle I); try (rewrite P); try quiet_fields P.
  - now apply own_pc.
  - left. rewrite P. auto.
  - left. split; [reflexivity|]. discriminate.
Qed.
Lemma step_preserves : forall p e p', inv p -> step p e = Some p' -> inv p'.
Proof.
  intros p e p' I S'. destruct e as [t|t i|t i k v|t i m|t|t]; cbn [step] in S'; try (destruct (idle p t) eqn:Id; [apply idle_pc in Id; rename Id into P|discriminate]).
  - injection S' as <-. apply (preserved p _ t AcqLock I) with (ns := [AcquireCalled t]); try pcs_done; try reflexivity.
    + cbn. lia.
    + left. rewrite P. auto.
    + left. split; [reflexivity|]. discriminate.
    + intros k [(b & K)|K]; discriminate.
    + intros u k [K|[]]. congruence.
    + rewrite (counts_same p _ t AcqLock I); [exact (i_count p I)|pcs_done|left; now rewrite P|rewrite P; discriminate|discriminate].
    + right. left. rewrite P. auto.
    + intros u D [K|[]]. discriminate.
    + discriminate.
    + intros a x b E u n c r rate K. apply app_one_cons in E as (_ & -> & _). discriminate.
  - destruct (nth_error (t_owned (p_threads p t)) i) as [m|]; [|discriminate]. injection S' as <-. set (o := remove_at i (t_owned (p_threads p t))). apply (quiet_step _ _ t (RelLock m) (own_preserves p t o I P)); try (rewrite (own_pc p t o P t), Nat.eqb_refl); try pcs_done; try quiet_fields P.
    + left. rewrite (own_pc p t o P t), Nat.eqb_refl. auto.
    + left. split; [reflexivity|]. discriminate.
  - destruct (nth_error (t_owned (p_threads p t)) i) as [m|]; [|discriminate]. injection S' as <-. now apply own_preserves.
  - destruct (nth_error (t_owned (p_threads p t)) i) as [m'|]; [|discriminate]. injection S' as <-. now apply own_preserves.
  - injection S' as <-. apply (preserved p _ t StLock I) with (ns := [StatsCalled t]); try pcs_done; try reflexivity.
    + cbn. lia.
    + left. rewrite P. auto.
    + left. split; [reflexivity|]. discriminate.
    + intros k [(b & K)|K]; discriminate.
    + intros u k [K|[]]. congruence.
    + rewrite (counts_same p _ t StLock I); [exact (i_count p I)|pcs_done|left; now rewrite P|rewrite P; discriminate|discriminate].
    + left. rewrite P. auto.
    + intros u D [K|[]]. congruence.
    + intros _. exists [], (p_seen p). split; [reflexivity|]. split; [contradiction|]. unfold pc_of. cbn [note go set_thread p_threads]. rewrite Nat.eqb_refl. cbn. split; [|exact Logic.I]. now apply acquired_le.
    + intros a x b E u n c r rate K. apply app_one_cons in E as (_ & -> & _). discriminate.
  - now apply (run_preserves p t).
Qed.
Lemma steps_preserve : forall es p p', inv p -> steps p es = Some p' -> inv p' /\ p_max p' = p_max p.
Proof.
  induction es as [|e es IH]; intros p p' I H; cbn in H; [injection H as <-; auto|]. destruct (step p e) as [q|] eqn:E; [|discriminate].
  destruct (IH q p' (step_preserves p e q I E) H) as [J M]. split; [assumption|]. rewrite M. clear - E.
  assert (O : forall q t l, p_max (own q t l) = p_max q) by reflexivity. assert (G : forall q t c, p_max (go q t c) = p_max q) by reflexivity.
  destruct e as [t|t i|t i k v|t i m|t|t]; cbn [step] in E; try (destruct (idle p t); [|discriminate]); try (injection E as <-; reflexivity);
    try (destruct (nth_error _ i); [|discriminate]; injection E as <-; reflexivity).
  unfold run in E. destruct (t_pc (p_threads p t)); try discriminate; try (injection E as <-; reflexivity);
    try (destruct (p_lock p); [discriminate|]; injection E as <-; reflexivity). destruct (p_items p); injection E as <-; reflexivity.
Qed.
Lemma reached_inv : forall max p, reached max p -> inv p /\ p_max p = max.
Proof. intros max p (es & H). exact (steps_preserve es _ p (inv_new max) H). Qed.

Lemma pool_bounded : forall max p, reached max p -> (length (p_items p) <= max)%nat.
Proof. intros max p H. destruct (reached_inv max p H) as [I <-]. apply (i_size p I). Qed.
Lemma pool_empty : forall max p t m, reached max p -> In (Acquired t m) (p_seen p) -> m = [].
Proof. intros max p t m H. destruct (reached_inv max p H) as [I _]. apply (i_empty p I). Qed.
Lemma pool_counts : forall max p, reached max p -> (acquired (p_seen p) <= p_created p + p_reused p <= calls (p_seen p))%nat.
Proof. intros max p H. destruct (reached_inv max p H) as [I _]. split; [now apply acquired_le|now apply counts_le]. Qed.
Lemma pool_counts_quiet : forall max p, reached max p -> quiet p -> (p_created p + p_reused p = acquired (p_seen p) /\ calls (p_seen p) = acquired (p_seen p))%nat.
Proof.
  intros max p H Q. destruct (reached_inv max p H) as [I _]. split.
  - rewrite (i_count p I). unfold counted. destruct (p_lock p) as [t|]; [|lia]. unfold pc_of. rewrite Q. lia.
  - destruct (i_calls p I) as (l & _ & A & ->). destruct l as [|t l]; [cbn; lia|]. assert (K : acquiring (pc_of p t) = true) by (apply A; now left). unfold pc_of in K. rewrite Q in K. discriminate.
Qed.
Lemma pool_stats : forall max p l2 t n c r rate l1, reached max p -> p_seen p = l2 ++ Stats t n c r rate :: l1 ->
  exists la lb, l1 = la ++ StatsCalled t :: lb /\ ~ In (StatsCalled t) la /\ (n <= max)%nat /\ (acquired lb <= c + r <= calls l1)%nat
  /\ rate = percentage (N.of_nat r) (N.of_nat c).
Proof.
  intros max p l2 t n c r rate l1 H E. destruct (reached_inv max p H) as [I <-]. destruct (i_log p I _ _ _ _ _ _ _ E) as (la & lb & A & B & C). exists la, lb. split; [assumption|]. split; [|assumption].
  intros K. now apply (B _ K).
Qed.
(** some thread can always finish what it is doing *)
Lemma pool_progress : forall max p t, reached max p -> t_pc (p_threads p t) <> Idle -> exists u p', run p u = Some p'.
Proof.
  intros max p t H N. destruct (reached_inv max p H) as [I _]. destruct (p_lock p) as [u|] eqn:L.
  - exists u. assert (K : holds (pc_of p u) = true) by now apply (i_lock p I). unfold run. fold (pc_of p u). destruct (pc_of p u); try discriminate K; try (eexists; reflexivity). destruct (p_items p); eexists; reflexivity.
  - exists t. unfold run. rewrite L. destruct (t_pc (p_threads p t)); try congruence; try (eexists; reflexivity). destruct (p_items p); eexists; reflexivity.
Qed.
