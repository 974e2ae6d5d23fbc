(** Starting in the background. *)
From Coq Require Import String List ZArith NArith Bool Lia FinFun.
From Verif Require Import Base ServerArgs Daemon Spec_daemon Base_proofs.
Import ListNotations.
Local Open Scope N_scope.

Lemma descriptor_close : forall n m ds, descriptor n (close m ds) = if n =? m then None else descriptor n ds.
Proof.
  intros n m ds. induction ds as [|[k t] r IH]; cbn [close filter descriptor fst]; [now destruct (n =? m)|].
  destruct (N.eqb_spec m k) as [<-|K]; cbn [negb].
  - unfold close in IH. rewrite IH. now destruct (n =? m).
  - cbn [descriptor]. unfold close in IH. rewrite IH. destruct (N.eqb_spec n k) as [->|]; [|reflexivity]. destruct (N.eqb_spec k m); congruence.
Qed.
Lemma descriptor_in : forall n (ds : list (N * target)), descriptor n ds = None <-> ~ In n (map fst ds).
Proof.
  intros n ds. induction ds as [|[k t] r IH]; cbn [descriptor map fst In]; [tauto|]. destruct (N.eqb_spec n k) as [->|K]; [split; [discriminate|tauto]|]. rewrite IH. firstorder congruence.
Qed.
Lemma lowest_zero : forall ds, descriptor 0 ds = None -> lowest ds = 0.
Proof. intros [|d r] H; [reflexivity|]. unfold lowest. cbn [length lowest_from]. now rewrite H. Qed.
Lemma lowest_spec : forall fuel n (ds : list (N * target)), (forall m, m < n -> In m (map fst ds)) -> (length ds <= fuel + N.to_nat n)%nat ->
  ~ In (lowest_from fuel n ds) (map fst ds) /\ forall m, m < lowest_from fuel n ds -> In m (map fst ds).
Proof.
  assert (Full : forall n (ds : list (N * target)), (forall m, m < n -> In m (map fst ds)) -> (length ds <= N.to_nat n)%nat -> ~ In n (map fst ds)).
  { intros n ds0 H L K. assert (I0 : incl (map N.of_nat (seq 0 (S (N.to_nat n)))) (map fst ds0)).
    { intros x Hx. apply in_map_iff in Hx as (i & <- & Hi). apply in_seq in Hi. destruct (N.eq_dec (N.of_nat i) n) as [->|]; [assumption|]. apply H. lia. }
    apply NoDup_incl_length in I0; [rewrite !map_length, seq_length in I0; lia|]. apply Injective_map_NoDup; [intros a b E; now apply Nat2N.inj|apply seq_NoDup]. }
  induction fuel as [|k IH]; intros n ds H L; cbn [lowest_from].
  - split; [now apply Full|assumption].
  - destruct (descriptor n ds) as [t|] eqn:D; [|split; [now apply descriptor_in|assumption]]. apply IH; [|lia]. intros m Hm.
    destruct (N.eq_dec m n) as [->|]; [|apply H; lia]. destruct (in_dec N.eq_dec n (map fst ds)) as [|K]; [assumption|]. apply descriptor_in in K. congruence.
Qed.
(** files are opened as the lowest descriptor that is not in use *)
Lemma open_lowest : forall t ds, let n := fst (open t ds) in ~ In n (map fst ds) /\ (forall m, m < n -> In m (map fst ds)) /\ snd (open t ds) = (n, t) :: ds.
Proof. intros t ds. destruct (lowest_spec (length ds) 0 ds) as [A B]; [intros m Hm; lia|lia|]. now split. Qed.
Lemma redirected_spec : forall ds n, descriptor n (redirected ds) = if n =? 0 then None else if (n =? 1) || (n =? 2) then Some DevNull else descriptor n ds.
Proof.
  intros ds n. unfold redirected, open. rewrite lowest_zero by now rewrite !descriptor_close. cbn [dup2 N.eqb].
  set (d3 := close 2 (close 1 (close 0 ds))). unfold dup2. change (0 =? 0) with true. change (0 =? 1) with false. change (0 =? 2) with false. cbn iota.
  change (descriptor 0 ((0, DevNull) :: d3)) with (Some DevNull). cbn iota.
  replace (descriptor 0 ((1, DevNull) :: close 1 ((0, DevNull) :: d3))) with (Some DevNull) by (cbn [descriptor]; rewrite descriptor_close; reflexivity).
  rewrite descriptor_close. destruct (N.eqb_spec n 0) as [->|N0]; [reflexivity|]. cbn [descriptor]. destruct (N.eqb_spec n 2) as [->|N2]; [reflexivity|]. rewrite descriptor_close. destruct (N.eqb_spec n 2); [congruence|]. cbn [descriptor].
  destruct (N.eqb_spec n 1) as [->|N1]; [reflexivity|]. rewrite descriptor_close. destruct (N.eqb_spec n 1); [congruence|]. cbn [descriptor orb]. destruct (N.eqb_spec n 0); [congruence|]. unfold d3. rewrite !descriptor_close.
  destruct (N.eqb_spec n 2), (N.eqb_spec n 1), (N.eqb_spec n 0); congruence.
Qed.
Lemma daemon_runs : forall o s w c d, s_daemon s = true -> fresh o w -> exited w = [] -> succeeds o c d -> exists w',
  enter o s w = Goes w' /\ pid (current w') = d /\ session (current w') = c /\ session (current w') <> pid (current w') /\ session (current w') <> session (current w)
  /\ exited w' = [(c, 0); (pid (current w), 0)]
  /\ refers (current w') 1 DevNull /\ refers (current w') 2 DevNull /\ (forall n, 2 < n -> descriptor n (descriptors (current w')) = descriptor n (descriptors (current w)))
  /\ (forall f, mget f (stored w') = if str_eqb f (s_pid_file s) then Some (N_to_str d ++ [10]) else mget f (stored w)) /\ reported w' = reported w.
Proof.
  intros o s w c d D F Ex (S1 & S2 & S3 & S4 & S5). unfold enter, handle_daemon_mode, daemonize. rewrite D, S1, S2, S3, S4. cbn [negb write_pid_file]. unfold write_pid_file. rewrite S5.
  destruct (F c S1) as (F1 & F2 & F3). destruct (F3 d S3) as (F4 & F5 & F6).
  eexists. split; [reflexivity|]. unfold refers. cbn [current descriptors with_descriptors fork_and_leave own_session pid session exited stored reported]. rewrite Ex.
  do 2 (split; [reflexivity|]). split; [congruence|]. split; [assumption|]. split; [reflexivity|]. do 2 (split; [rewrite redirected_spec; reflexivity|]). split; [|split; [|reflexivity]].
  - intros n Hn. rewrite redirected_spec. destruct (N.eqb_spec n 0); [lia|]. destruct (N.eqb_spec n 1); [lia|]. destruct (N.eqb_spec n 2); [lia|]. reflexivity.
  - intros f. rewrite mget_minsert. reflexivity.
Qed.
(** without all the calls succeeding no server runs and no file is written *)
Lemma daemon_fails : forall o s w, s_daemon s = true -> (forall c d, ~ succeeds o c d) -> exists w',
  enter o s w = Ended w' /\ stored w' = stored w /\ In (pid (current w'), 1) (exited w').
Proof.
  intros o s w D F. unfold enter, handle_daemon_mode, daemonize. rewrite D.
  assert (Say : forall m w0, stored (say m w0) = stored w0 /\ current (say m w0) = current w0) by (intros m w0; unfold say; now destruct (descriptor 2 _)).
  destruct (first_child o) as [c|] eqn:S1; [|eexists; split; [reflexivity|]; cbn [stored exited current]; split; [rewrite (proj1 (Say _ _)); reflexivity|now left]].
  destruct (new_session o) eqn:S2; cbn [negb]; [|eexists; split; [reflexivity|]; cbn [stored exited current]; split; [rewrite (proj1 (Say _ _)); reflexivity|now left]].
  destruct (second_child o) as [d|] eqn:S3; [|eexists; split; [reflexivity|]; cbn [stored exited current]; split; [rewrite (proj1 (Say _ _)); reflexivity|now left]].
  destruct (null_opens o) eqn:S4; [|eexists; split; [reflexivity|]; cbn [stored exited current]; split; [rewrite (proj1 (Say _ _)); reflexivity|now left]].
  unfold write_pid_file. destruct (file_stored o) eqn:S5; [exfalso; now apply (F c d)|]. eexists. split; [reflexivity|]. cbn. auto.
Qed.
Lemma daemon_status : forall o s w c, s_daemon s = true -> fresh o w -> exited w = [] -> first_child o = Some c -> exists w',
  (enter o s w = Goes w' \/ enter o s w = Ended w') /\ status_of (pid (current w)) w' 0.
Proof.
  intros o s w c D F Ex S1. destruct (F c S1) as (F1 & _ & F3). unfold enter, handle_daemon_mode, daemonize. rewrite D, S1.
  assert (Say : forall m w0, exited (say m w0) = exited w0 /\ current (say m w0) = current w0) by (intros m w0; unfold say; now destruct (descriptor 2 _)).
  assert (Fin : forall w0 k, (pid (current w0) <> pid (current w)) -> status_of (pid (current w)) w0 0 -> forall st rep, status_of (pid (current w)) (mkWorld (current w0) ((pid (current w0), k) :: exited w0) st rep) 0).
  { intros w0 k N0 [A B] st rep. split; [now right|]. cbn [exited]. intros k' [E|E]; [injection E as E _; congruence|now apply B]. }
  assert (One : forall w0, exited w0 = [(pid (current w), 0)] -> status_of (pid (current w)) w0 0).
  { intros w0 Ew. unfold status_of. rewrite Ew. split; [now left|]. intros k' [[= ->]|[]]. reflexivity. }
  assert (Two : forall w0 b, b <> pid (current w) -> exited w0 = [(b, 0); (pid (current w), 0)] -> status_of (pid (current w)) w0 0).
  { intros w0 b Nb E. unfold status_of. rewrite E. split; [now right; left|]. intros k' [[= K _]|[[= ->]|[]]]; [congruence|reflexivity]. }
  destruct (new_session o) eqn:S2; cbn [negb].
  - destruct (second_child o) as [d|] eqn:S3.
    + destruct (F3 d eq_refl) as (_ & F5 & _). destruct (null_opens o) eqn:S4.
      * unfold write_pid_file. destruct (file_stored o) eqn:S5.
        -- eexists. split; [now left|]. apply (Two _ c F1). cbn. now rewrite Ex.
        -- eexists. split; [right; reflexivity|]. apply Fin; [exact F5|]. apply (Two _ c F1). cbn. now rewrite Ex.
      * eexists. split; [right; reflexivity|]. apply Fin; [rewrite (proj2 (Say _ _)); exact F5|]. apply (Two _ c F1). rewrite (proj1 (Say _ _)). cbn. now rewrite Ex.
    + eexists. split; [right; reflexivity|]. apply Fin; [rewrite (proj2 (Say _ _)); exact F1|]. apply One. rewrite (proj1 (Say _ _)). cbn. now rewrite Ex.
  - eexists. split; [right; reflexivity|]. apply Fin; [rewrite (proj2 (Say _ _)); exact F1|]. apply One. rewrite (proj1 (Say _ _)). cbn. now rewrite Ex.
Qed.
Lemma daemon_input : forall o s w c d w' t, s_daemon s = true -> succeeds o c d -> enter o s w = Goes w' ->
  closed (current w') 0 /\ fst (open t (descriptors (current w'))) = 0.
Proof.
  intros o s w c d w' t D (S1 & S2 & S3 & S4 & S5). unfold enter, handle_daemon_mode, daemonize, write_pid_file. rewrite D, S1, S2, S3, S4, S5. cbn [negb]. intros [= <-].
  assert (K : closed (mkProcess 0 0 (redirected (descriptors (current w)))) 0) by (unfold closed; cbn [descriptors]; rewrite redirected_spec; reflexivity).
  split; [exact K|]. cbn [current descriptors with_descriptors fork_and_leave own_session open fst]. now apply lowest_zero.
Qed.
Lemma foreground : forall o s w, s_daemon s = false -> enter o s w = Goes w.
Proof. intros o s w D. unfold enter. now rewrite D. Qed.
