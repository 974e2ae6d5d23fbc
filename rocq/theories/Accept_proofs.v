(** The accept loop and the thread pool. *)
From Coq Require Import List NArith Bool Arith Lia Permutation.
From Verif Require Import Accept Spec_accept.
Import ListNotations.
Local Open Scope nat_scope.

Lemma steps_app : forall n j es s es', steps n j s (es ++ es') = match steps n j s es with Some s' => steps n j s' es' | None => None end.
Proof. induction es as [|e r IH]; intros s es'; cbn [steps app]; [reflexivity|]. destruct (step n j s e); [apply IH|reflexivity]. Qed.
Lemma connections_app : forall a b, connections (a ++ b) = connections a ++ connections b.
Proof. induction a as [|e r IH]; intros b; [reflexivity|]. destruct e; cbn [connections app]; rewrite IH; reflexivity. Qed.
Lemma count_app : forall f a b, count f (a ++ b) = count f a + count f b.
Proof. induction a as [|e r IH]; intros b; cbn [count app]; [reflexivity|]. rewrite IH. lia. Qed.
Lemma drop_permutation : forall c l, In c l -> Permutation l (c :: drop_one c l).
Proof.
  induction l as [|x r IH]; [intros []|]. cbn [drop_one]. destruct (N.eqb_spec c x) as [->|K]; [reflexivity|]. intros [->|I0]; [congruence|]. rewrite perm_swap. constructor. now apply IH.
Qed.
Lemma drop_length : forall c l, In c l -> length l = S (length (drop_one c l)).
Proof. intros c l H. apply drop_permutation, Permutation_length in H. exact H. Qed.
Lemma existsb_in : forall c l, existsb (N.eqb c) l = true <-> In c l.
Proof. intros c l. rewrite existsb_exists. split; [intros (x & I0 & E); apply N.eqb_eq in E; now subst|]. intros I0. exists c. split; [assumption|apply N.eqb_refl]. Qed.

(** what every step preserves; [started] are the connections whose job was started, in that order *)
Record good (n : nat) (es : list event) (s : pool) (started : list N) : Prop := {
  g_busy : length (handled s) <= n;
  g_order : connections es = started ++ queued s ++ arrived s;
  g_started : Permutation started (handled s ++ completed s);
  g_count : length started = count starts es;
  g_ends : length (completed s) = count ends es;
  g_main : main s = Joining \/ main s = Gone -> running s = false }.
Lemma begin_good : forall n, good n [] begin [].
Proof. intros n. constructor; cbn; try reflexivity; try lia. intros [|]; discriminate. Qed.
Ltac facts := cbn [arrived queued handled completed running main] in *.
Lemma step_good : forall n j s e s' es started, good n es s started -> step n j s e = Some s' -> exists started', good n (es ++ [e]) s' started' /\ exists more, started' = started ++ more.
Proof.
  intros n j s e s' es started [B O P C E M] H. unfold step in H.
  assert (Hm : main s <> Gone) by (intros K; rewrite K in H; discriminate).
  assert (H' : match e with
      | Arrives c => Some (mkPool (arrived s ++ [c]) (queued s) (handled s) (completed s) (running s) (main s))
      | Interrupt => Some (mkPool (arrived s) (queued s) (handled s) (completed s) false (main s))
      | Main => match main s with
          | Testing => Some (mkPool (arrived s) (queued s) (handled s) (completed s) (running s) (if running s then Accepting else if j then Joining else Gone))
          | Accepting => match arrived s with c :: r => Some (mkPool r (queued s ++ [c]) (handled s) (completed s) (running s) Testing) | [] => None end
          | Joining => match queued s, handled s with [], [] => Some (mkPool (arrived s) [] [] (completed s) (running s) Gone) | _, _ => None end
          | Gone => None end
      | Refused => match main s with Accepting => Some (mkPool (arrived s) (queued s) (handled s) (completed s) (running s) Testing) | _ => None end
      | Starts => match queued s with c :: r => if length (handled s) <? n then Some (mkPool (arrived s) r (c :: handled s) (completed s) (running s) (main s)) else None | [] => None end
      | Ends c => if existsb (N.eqb c) (handled s) then Some (mkPool (arrived s) (queued s) (drop_one c (handled s)) (c :: completed s) (running s) (main s)) else None
      end = Some s') by (destruct (main s); [exact H|exact H|exact H|congruence]). clear H. rename H' into H.
  destruct e as [c| | | | |c].
  - injection H as <-. exists started. split; [|exists []; now rewrite app_nil_r]. constructor; facts; rewrite ?count_app, ?connections_app; cbn [count connections starts ends]; rewrite ?Nat.add_0_r; auto. rewrite O. now rewrite !app_assoc.
  - injection H as <-. exists started. split; [|exists []; now rewrite app_nil_r]. constructor; facts; rewrite ?count_app, ?connections_app; cbn [count connections starts ends]; rewrite ?Nat.add_0_r, ?app_nil_r; auto.
  - exists started. split; [|exists []; now rewrite app_nil_r]. destruct (main s) eqn:Em; try discriminate.
    + injection H as <-. constructor; facts; rewrite ?count_app, ?connections_app; cbn [count connections starts ends]; rewrite ?Nat.add_0_r, ?app_nil_r; auto. destruct (running s); [intros [|]; discriminate|reflexivity].
    + destruct (arrived s) as [|c r] eqn:Ea; [discriminate|]. injection H as <-. constructor; facts; rewrite ?count_app, ?connections_app; cbn [count connections starts ends]; rewrite ?Nat.add_0_r, ?app_nil_r; auto; [rewrite O, <- app_assoc; reflexivity|intros [|]; discriminate].
    + destruct (queued s) eqn:Eq, (handled s) eqn:Eh; try discriminate. injection H as <-. constructor; facts; rewrite ?count_app, ?connections_app; cbn [count connections starts ends]; rewrite ?Nat.add_0_r, ?app_nil_r; auto.
  - exists started. split; [|exists []; now rewrite app_nil_r]. destruct (main s) eqn:Em; try discriminate. injection H as <-. constructor; facts; rewrite ?count_app, ?connections_app; cbn [count connections starts ends]; rewrite ?Nat.add_0_r, ?app_nil_r; auto. intros [|]; discriminate.
  - destruct (queued s) as [|c r] eqn:Eq; [discriminate|]. destruct (Nat.ltb_spec (length (handled s)) n) as [L|L]; [|discriminate]. injection H as <-. exists (started ++ [c]). split; [|now exists [c]].
    constructor; facts; rewrite ?count_app, ?connections_app; cbn [count connections starts ends length]; rewrite ?Nat.add_0_r, ?app_nil_r, ?app_length; cbn [length]; auto; try lia.
    + rewrite O, <- app_assoc. reflexivity.
    + rewrite P. cbn [app]. now rewrite <- Permutation_cons_append.
  - destruct (existsb (N.eqb c) (handled s)) eqn:Ex; [|discriminate]. apply existsb_in in Ex. injection H as <-. exists started. split; [|exists []; now rewrite app_nil_r].
    constructor; facts; rewrite ?count_app, ?connections_app; cbn [count connections starts ends length]; rewrite ?Nat.add_0_r, ?app_nil_r; auto; try lia.
    + pose proof (drop_length c _ Ex). lia.
    + rewrite P. apply Permutation_trans with ((c :: drop_one c (handled s)) ++ completed s); [apply Permutation_app_tail, drop_permutation, Ex|]. cbn [app]. apply Permutation_middle.
Qed.
Lemma steps_good : forall n j es s es0 started s', good n es0 s started -> steps n j s es = Some s' -> exists started', good n (es0 ++ es) s' started' /\ exists more, started' = started ++ more.
Proof.
  induction es as [|e r IH]; intros s es0 started s' G H; cbn [steps] in H.
  - injection H as <-. exists started. rewrite app_nil_r. split; [assumption|]. exists []. now rewrite app_nil_r.
  - destruct (step n j s e) as [s1|] eqn:S1; [|discriminate]. destruct (step_good n j s e s1 es0 started G S1) as (st1 & G1 & m1 & ->). destruct (IH s1 _ _ s' G1 H) as (st2 & G2 & m2 & ->).
    rewrite <- app_assoc in G2. eexists. split; [exact G2|]. exists (m1 ++ m2). now rewrite app_assoc.
Qed.
Lemma run_good : forall n j es s, steps n j begin es = Some s -> exists started, good n es s started.
Proof. intros n j es s H. destruct (steps_good n j es begin [] [] s (begin_good n) H) as (st & G & _). now exists st. Qed.

Lemma bounded : forall n j es s, steps n j begin es = Some s -> length (handled s) <= n.
Proof. intros n j es s H. destruct (run_good _ _ _ _ H) as [st G]. apply G. Qed.
Lemma in_order : forall n j es s, steps n j begin es = Some s ->
  exists started, connections es = started ++ queued s ++ arrived s /\ Permutation started (handled s ++ completed s) /\ length started = count starts es /\ length (completed s) = count ends es.
Proof. intros n j es s H. destruct (run_good _ _ _ _ H) as [st G]. exists st. repeat split; apply G. Qed.
Lemma gone_line : forall n es s, line_server n es = Some s -> main s = Gone -> handled s = [] /\ queued s = [] /\ Permutation (connections es) (completed s ++ arrived s) /\ In Interrupt es.
Proof.
  intros n es s H G. unfold line_server in H.
  assert (K : handled s = [] /\ queued s = []).
  { assert (Gen : forall es s0, (main s0 = Gone -> handled s0 = [] /\ queued s0 = []) -> steps n true s0 es = Some s -> handled s = [] /\ queued s = []).
    { clear - G. induction es as [|e r IH]; intros s0 H0 H; cbn [steps] in H; [injection H as <-; auto|]. destruct (step n true s0 e) as [s1|] eqn:S1; [|discriminate]. apply (IH s1); [|assumption]. intros G1.
      unfold step in S1. destruct (main s0) eqn:Em; try discriminate; destruct e; try discriminate; try (injection S1 as <-; facts; try congruence; destruct (running s0); discriminate).
      - destruct (queued s0) as [|c q]; [discriminate|]. destruct (_ <? _); [|discriminate]. injection S1 as <-. facts. congruence.
      - destruct (existsb _ _); [|discriminate]. injection S1 as <-. facts. congruence.
      - destruct (arrived s0); [discriminate|]. injection S1 as <-. facts. congruence.
      - destruct (queued s0) as [|c q]; [discriminate|]. destruct (_ <? _); [|discriminate]. injection S1 as <-. facts. congruence.
      - destruct (existsb _ _); [|discriminate]. injection S1 as <-. facts. congruence.
      - destruct (queued s0), (handled s0); try discriminate. injection S1 as <-. now split.
      - destruct (queued s0) as [|c q]; [discriminate|]. destruct (_ <? _); [|discriminate]. injection S1 as <-. facts. congruence.
      - destruct (existsb _ _); [|discriminate]. injection S1 as <-. facts. congruence. }
    apply (Gen es begin); [discriminate|assumption]. }
  destruct K as [K1 K2]. destruct (run_good _ _ _ _ H) as [st Gd]. split; [assumption|]. split; [assumption|]. split.
  - rewrite (g_order _ _ _ _ Gd), K2. cbn [app]. apply Permutation_app_tail. rewrite (g_started _ _ _ _ Gd), K1. reflexivity.
  - assert (R : running s = false) by (apply (g_main _ _ _ _ Gd); auto).
    assert (Gen : forall es s0, running s0 = true -> steps n true s0 es = Some s -> In Interrupt es).
    { clear - R. induction es as [|e r IH]; intros s0 H0 H; cbn [steps] in H; [congruence|]. destruct (step n true s0 e) as [s1|] eqn:S1; [|discriminate]. destruct (running s1) eqn:R1; [right; now apply (IH s1)|left].
      unfold step in S1. destruct (main s0); try discriminate; destruct e; try reflexivity; exfalso; try discriminate; try (injection S1 as <-; facts; congruence).
      all: repeat match type of S1 with context [match ?x with _ => _ end] => destruct x; try discriminate end; try (injection S1 as <-; facts; congruence). }
    now apply (Gen es begin).
Qed.
(** ** Shutting down *)
Definition todo (s : pool) : nat := 2 * length (queued s) + length (handled s) + match main s with Accepting => 5 | Testing => 2 | Joining => 1 | Gone => 0 end.
Lemma own_step : forall n j s e s', running s = false -> own e = true -> step n j s e = Some s' -> running s' = false /\ todo s' < todo s.
Proof.
  intros n j s e s' R Oe H. unfold step in H. destruct e; try discriminate Oe; clear Oe.
  - destruct (main s) eqn:Em; try discriminate.
    + injection H as <-. unfold todo. facts. rewrite R, Em. split; [reflexivity|]. destruct j; lia.
    + destruct (arrived s); [discriminate|]. injection H as <-. unfold todo. facts. rewrite Em, app_length. cbn [length]. split; [assumption|lia].
    + destruct (queued s) eqn:Eq, (handled s) eqn:Eh; try discriminate. injection H as <-. unfold todo. facts. rewrite Em, Eq, Eh. cbn [length]. split; [assumption|lia].
  - destruct (main s) eqn:Em; try discriminate. injection H as <-. unfold todo. facts. rewrite Em. split; [assumption|lia].
  - destruct (main s) eqn:Em; try discriminate; (destruct (queued s) as [|c q] eqn:Eq; [discriminate|]; destruct (_ <? _); [|discriminate]; injection H as <-; unfold todo; facts; rewrite Em, Eq; cbn [length]; split; [assumption|lia]).
  - destruct (main s) eqn:Em; try discriminate; (destruct (existsb _ _) eqn:Ex; [|discriminate]; apply existsb_in, drop_length in Ex; injection H as <-; unfold todo; facts; rewrite Em; split; [assumption|lia]).
Qed.
Lemma own_steps : forall n j es s s', running s = false -> forallb own es = true -> steps n j s es = Some s' -> running s' = false /\ length es + todo s' <= todo s.
Proof.
  induction es as [|e r IH]; intros s s' R O H; cbn [steps forallb] in *; [injection H as <-; cbn; auto|]. apply andb_true_iff in O as [O1 O2]. destruct (step n j s e) as [s1|] eqn:S1; [|discriminate].
  destruct (own_step _ _ _ _ _ R O1 S1) as [R1 T1]. destruct (IH _ _ R1 O2 H) as [R2 T2]. split; [assumption|]. cbn [length]. lia.
Qed.
Lemma stops : forall n j s es s', running s = false -> forallb own es = true -> steps n j s es = Some s' -> length es <= 2 * length (queued s) + length (handled s) + 5.
Proof. intros n j s es s' R O H. destruct (own_steps _ _ _ _ _ R O H) as [_ T]. unfold todo in T at 2. destruct (main s); lia. Qed.
Lemma not_stuck : forall n j s, 0 < n -> running s = false -> main s <> Gone -> exists e s', own e = true /\ step n j s e = Some s'.
Proof.
  intros n j s Hn R G. destruct (handled s) as [|c h] eqn:Eh.
  - destruct (main s) eqn:Em; [| | |congruence].
    + exists Main. unfold step. rewrite Em. eexists. split; reflexivity.
    + exists Refused. unfold step. rewrite Em. eexists. split; reflexivity.
    + destruct (queued s) as [|c q] eqn:Eq.
      * exists Main. unfold step. rewrite Em, Eq, Eh. eexists. split; reflexivity.
      * exists Starts. unfold step. rewrite Em, Eq, Eh. cbn [length]. replace (0 <? n) with true by (symmetry; now apply Nat.ltb_lt). eexists. split; reflexivity.
  - exists (Ends c). unfold step. rewrite Eh. cbn [existsb]. rewrite N.eqb_refl. cbn [orb]. destruct (main s); try congruence; (eexists; split; reflexivity).
Qed.
(** at most one connection is let in after the signal *)
Lemma late : forall n j es s s', running s = false -> steps n j s es = Some s' -> exists more, length more <= 1 /\ arrived s ++ connections es = more ++ arrived s' /\ (main s <> Accepting -> more = []).
Proof.
  assert (Gen : forall n j es s s', running s = false -> steps n j s es = Some s' -> exists more, length more <= (match main s with Accepting => 1 | _ => 0 end) /\ arrived s ++ connections es = more ++ arrived s').
  { induction es as [|e r IH]; intros s s' R H; cbn [steps] in H.
    - injection H as <-. exists []. cbn. split; [lia|apply app_nil_r].
    - destruct (step n j s e) as [s1|] eqn:S1; [|discriminate]. unfold step in S1.
      assert (Done : forall t, s1 = t -> arrived t ++ connections r = arrived s ++ connections (e :: r) -> main t = main s \/ (main s <> Accepting /\ main t <> Accepting) \/ main s = Accepting -> running t = false ->
        exists more, length more <= (match main s with Accepting => 1 | _ => 0 end) /\ arrived s ++ connections (e :: r) = more ++ arrived s').
      { intros t -> A Mt Rt. destruct (IH _ _ Rt H) as (more & L & E). exists more. split; [|now rewrite <- A]. destruct Mt as [Mt|[[M1 M2]|M1]]; [now rewrite <- Mt|destruct (main t), (main s); congruence || lia|rewrite M1; destruct (main t); lia]. }
      destruct (main s) eqn:Em; try discriminate; destruct e; try discriminate; try (injection S1 as S1; symmetry in S1; apply (Done _ S1); facts; cbn [connections]; rewrite <- ?app_assoc; auto; fail).
      all: try (destruct (queued s) as [|c0 q]; [discriminate|]; destruct (_ <? _); [|discriminate]; injection S1 as S1; symmetry in S1; apply (Done _ S1); facts; auto; fail).
      all: try (destruct (existsb _ _); [|discriminate]; injection S1 as S1; symmetry in S1; apply (Done _ S1); facts; auto; fail).
      + injection S1 as S1. symmetry in S1. rewrite R in S1. apply (Done _ S1); facts; auto. right. left. destruct j; split; discriminate.
      + destruct (arrived s) as [|c a] eqn:Ea; [discriminate|]. injection S1 as <-. destruct (IH _ _ (R : running (mkPool a (queued s ++ [c]) (handled s) (completed s) (running s) Testing) = false) H) as (more & L & E). cbn [main] in L. destruct more as [|? ?]; [|cbn in L; lia]. facts. cbn [app] in E.
        exists [c]. split; [cbn; lia|]. cbn [connections app]. now rewrite E.
      + destruct (queued s), (handled s); try discriminate. injection S1 as S1. symmetry in S1. apply (Done _ S1); facts; auto. right. left. split; discriminate. }
  intros n j es s s' R H. destruct (Gen _ _ _ _ _ R H) as (more & L & E). exists more. split; [destruct (main s); lia|]. split; [assumption|]. intros K. destruct more; [reflexivity|]. cbn in L. destruct (main s); congruence || lia.
Qed.
(** with every thread taken, nothing starts before something ends *)
Lemma all_taken : forall n j s es s', length (handled s) = n -> (forall c, ~ In (Ends c) es) -> steps n j s es = Some s' -> handled s' = handled s /\ completed s' = completed s /\ (j = true -> n <> 0 -> main s <> Gone -> main s' <> Gone).
Proof.
  intros n j s es. revert s. induction es as [|e r IH]; intros s s' L Ne H; cbn [steps] in H; [injection H as <-; auto|]. destruct (step n j s e) as [s1|] eqn:S1; [|discriminate].
  assert (K : handled s1 = handled s /\ completed s1 = completed s /\ (j = true -> n <> 0 -> main s <> Gone -> main s1 <> Gone)).
  { unfold step in S1. destruct (main s) eqn:Em; try discriminate; destruct e as [c| | | | |c]; try discriminate; try (exfalso; apply (Ne c); now left); try (injection S1 as <-; facts; repeat split; auto; try congruence; fail).
    all: try (destruct (queued s) as [|c0 q]; [discriminate|]; rewrite L in S1; rewrite Nat.ltb_irrefl in S1; discriminate).
    - injection S1 as <-. facts. repeat split; auto. intros -> _ _. destruct (running s); discriminate.
    - destruct (arrived s); [discriminate|]. injection S1 as <-. facts. repeat split; auto. discriminate.
    - destruct (queued s), (handled s) eqn:Eh; try discriminate. injection S1 as <-. facts. repeat split; auto. }
  destruct K as (K1 & K2 & K3). destruct (IH s1 s') as (I1 & I2 & I3); [now rewrite K1|intros c Hc; apply (Ne c); now right|assumption|]. rewrite I1, I2, K1, K2. auto.
Qed.
Lemma cut_short : forall n, 0 < n -> exists es s, http_server n es = Some s /\ main s = Gone /\ handled s = [1%N] /\ queued s = [2%N] /\ connections es = [1%N; 2%N] /\ completed s = [].
Proof.
  intros n Hn. exists [Arrives 1; Arrives 2; Main; Main; Main; Main; Starts; Interrupt; Main]. unfold http_server. cbn -[Nat.ltb]. replace (0 <? n) with true by (symmetry; now apply Nat.ltb_lt). cbn.
  eexists. repeat split.
Qed.
