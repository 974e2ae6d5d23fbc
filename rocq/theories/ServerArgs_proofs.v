(** The command lines of the servers: proofs. *)
From Coq Require Import String List ZArith NArith Bool Lia.
From Verif Require Import Base Syntax Lines HttpAuth ServerArgs Spec_syntax Spec_args Base_proofs HttpRead_proofs.
Import ListNotations.
Local Open Scope N_scope.

Lemma usize_iff : forall s n, usize_from_str s = Some n <-> count_text s n.
Proof.
  intros s n. split.
  - unfold usize_from_str. intros E. set (ds := match s with 43 :: r => r | _ => s end) in *.
    assert (s = ds \/ s = lit "+" ++ ds) as P.
    { destruct s as [|c s]; [now left|]. destruct (N.eq_dec c 43) as [-> | Ne]; [now right|]. left. subst ds. destruct c as [|p]; [reflexivity|]. repeat (destruct p as [p|p|]; try reflexivity; try congruence). }
    clearbody ds. destruct ds as [|c ds]; [discriminate|]. destruct (forallb is_digit (c :: ds)) eqn:D; [|discriminate]. fold (digits_value (c :: ds)) in E.
    destruct (N.leb_spec (digits_value (c :: ds)) 18446744073709551615) as [L|L]; [|discriminate]. injection E as <-. exists (c :: ds). split; [exact P|]. split; [split; [discriminate|exact D]|]. split; [reflexivity|]. change (2 ^ 64) with 18446744073709551616. lia.
  - intros (ds & P & D & <- & L). destruct P as [-> | ->]; [now apply usize_digits|]. pose proof (usize_digits ds D L) as U. destruct D as [Ne D]. destruct ds as [|c ds]; [congruence|].
    change (usize_from_str (lit "+" ++ c :: ds)) with (if forallb is_digit (c :: ds) then let n := digits_value (c :: ds) in if n <=? 18446744073709551615 then Some n else None else None). rewrite D. cbn zeta. destruct (N.leb_spec (digits_value (c :: ds)) 18446744073709551615) as [K|K]; [reflexivity|]. change (2 ^ 64) with 18446744073709551616 in L. lia.
Qed.
Lemma u16_iff : forall s n, u16_from_str s = Some n <-> port_text s n.
Proof.
  intros s n. unfold u16_from_str, port_text. change (2 ^ 16) with 65536. destruct (usize_from_str s) as [m|] eqn:E.
  - split.
    + destruct (N.leb_spec m 65535); [|discriminate]. intros K. injection K as <-. split; [now apply usize_iff|lia].
    + intros [C L]. apply usize_iff in C. rewrite C in E. injection E as <-. destruct (N.leb_spec n 65535); [reflexivity|lia].
  - split; [discriminate|]. intros [C _]. apply usize_iff in C. congruence.
Qed.

(** the effect of an option *)
Definition effect (o : options) (s : setting) : options :=
  match s with RunAsDaemon => with_daemon o | BindHost a => with_host o a | UseThreads n => with_threads o n | PidFile f => with_pid o f | LogFile _ => o | EvalToken t => with_token o t | AdminToken t => with_admin o t end.

Lemma word_eq : forall w a, is_word w a = true <-> a = w.
Proof. intros w a. unfold is_word. rewrite str_eqb_eq. split; congruence. Qed.
Lemma either_word : forall w v a, is_word w a || is_word v a = true <-> In a [w; v].
Proof. intros w v a. rewrite orb_true_iff, !word_eq. cbn. split; [intros [-> | ->]; auto|intros [-> | [-> | []]]; auto]. Qed.

Lemma counts_not_words : forall w n, count_text w n -> forall v, In v [lit "-d"; lit "--daemon"; lit "-H"; lit "--host"; lit "--pid-file"; lit "--log-file"; lit "--token"] -> w <> v.
Proof.
  intros w n C v I E. subst w. apply usize_iff in C. cbn in I. repeat (destruct I as [<- | I]; [discriminate C|]). destruct I.
Qed.

Lemma line_forward : forall ss args, written line_words ss args -> forall o, line_options args o = inl (fold_left effect ss o).
Proof.
  intros ss args W. induction W as [|s ss ws args L W IH]; intros o; [reflexivity|]. cbn [fold_left]. rewrite <- IH. clear IH W.
  destruct L as [s ws L | w n C].
  - destruct L as [w I | w a I | f | f | t]; cbn in I || idtac; try (repeat (destruct I as [<- | I]; [reflexivity|]); destruct I); reflexivity.
  - pose proof (counts_not_words w n C) as Ne. cbn [app line_options]. apply usize_iff in C.
    assert (forall v, In v [lit "-d"; lit "--daemon"; lit "-H"; lit "--host"; lit "--pid-file"; lit "--log-file"; lit "--token"] -> is_word v w = false) as F.
    { intros v I. destruct (is_word v w) eqn:E; [|reflexivity]. apply word_eq in E. now apply Ne in I. }
    rewrite !F by (cbn; tauto). cbn [orb]. now rewrite C.
Qed.
Lemma line_backward : forall k args o, (length args <= k)%nat ->
  match line_options args o with inl o' => exists ss, written line_words ss args | inr _ => forall ss, ~ written line_words ss args end.
Proof.
  induction k as [|k IH]; intros args o Len.
  - destruct args; [|cbn in Len; lia]. exists []. constructor.
  - destruct (line_options args o) as [o'|m] eqn:E.
    + destruct args as [|w rest]; [exists []; constructor|]. cbn [length] in Len.
      cbn [line_options] in E.
      assert (forall s ws args' o1, w :: rest = ws ++ args' -> line_words s ws -> (length args' <= k)%nat -> line_options args' o1 = inl o' -> exists ss, written line_words ss (w :: rest)) as Step.
      { intros s ws args' o1 Eq L Le R. specialize (IH args' o1 Le). rewrite R in IH. destruct IH as [ss IH]. exists (s :: ss). rewrite Eq. now constructor. }
      destruct (is_word (lit "-d") w || is_word (lit "--daemon") w) eqn:B1.
      { apply either_word in B1. eapply (Step RunAsDaemon [w] rest); [reflexivity|constructor 1; constructor; assumption|cbn in Len; lia|exact E]. }
      destruct (is_word (lit "-H") w || is_word (lit "--host") w) eqn:B2.
      { apply either_word in B2. destruct rest as [|a rest]; [discriminate|]. eapply (Step (BindHost a) [w; a] rest); [reflexivity|constructor 1; constructor; assumption|cbn in Len; lia|exact E]. }
      destruct (is_word (lit "--pid-file") w) eqn:B3.
      { apply word_eq in B3. subst w. destruct rest as [|a rest]; [discriminate|]. eapply (Step (PidFile a) [_; a] rest); [reflexivity|solve [constructor 1; constructor | constructor 3]|cbn in Len; lia|exact E]. }
      destruct (is_word (lit "--log-file") w) eqn:B4.
      { apply word_eq in B4. subst w. destruct rest as [|a rest]; [discriminate|]. eapply (Step (LogFile a) [_; a] rest); [reflexivity|solve [constructor 1; constructor | constructor 3]|cbn in Len; lia|exact E]. }
      destruct (is_word (lit "--token") w) eqn:B5.
      { apply word_eq in B5. subst w. destruct rest as [|a rest]; [discriminate|]. eapply (Step (EvalToken a) [_; a] rest); [reflexivity|solve [constructor 1; constructor | constructor 3]|cbn in Len; lia|exact E]. }
      destruct (usize_from_str w) as [n|] eqn:B6; [|discriminate]. apply usize_iff in B6. eapply (Step (UseThreads n) [w] rest); [reflexivity|now apply line_threads|cbn in Len; lia|exact E].
    + intros ss W. pose proof (line_forward _ _ W o). congruence.
Qed.

Lemma http_forward : forall ss args, written http_words ss args -> forall o, http_options args o = inl (fold_left effect ss o).
Proof.
  intros ss args W. induction W as [|s ss ws args L W IH]; intros o; [reflexivity|]. cbn [fold_left]. rewrite <- IH. clear IH W.
  destruct L as [s ws L | w x n I C Z | t].
  - destruct L as [w I | w a I | f | f | t]; cbn in I || idtac; try (repeat (destruct I as [<- | I]; [reflexivity|]); destruct I); reflexivity.
  - apply usize_iff in C. apply N.eqb_neq in Z. cbn in I. destruct I as [<- | [<- | []]]; cbn [app http_options]; rewrite C, Z; reflexivity.
  - reflexivity.
Qed.
Lemma http_backward : forall k args o, (length args <= k)%nat ->
  match http_options args o with inl o' => exists ss, written http_words ss args | inr _ => forall ss, ~ written http_words ss args end.
Proof.
  induction k as [|k IH]; intros args o Len.
  - destruct args; [|cbn in Len; lia]. exists []. constructor.
  - destruct (http_options args o) as [o'|m] eqn:E.
    + destruct args as [|w rest]; [exists []; constructor|]. cbn [length] in Len.
      cbn [http_options] in E.
      assert (forall s ws args' o1, w :: rest = ws ++ args' -> http_words s ws -> (length args' <= k)%nat -> http_options args' o1 = inl o' -> exists ss, written http_words ss (w :: rest)) as Step.
      { intros s ws args' o1 Eq L Le R. specialize (IH args' o1 Le). rewrite R in IH. destruct IH as [ss IH]. exists (s :: ss). rewrite Eq. now constructor. }
      destruct (is_word (lit "-d") w || is_word (lit "--daemon") w) eqn:B1.
      { apply either_word in B1. eapply (Step RunAsDaemon [w] rest); [reflexivity|constructor 1; constructor; assumption|cbn in Len; lia|exact E]. }
      destruct (is_word (lit "-H") w || is_word (lit "--host") w) eqn:B2.
      { apply either_word in B2. destruct rest as [|a rest]; [discriminate|]. eapply (Step (BindHost a) [w; a] rest); [reflexivity|constructor 1; constructor; assumption|cbn in Len; lia|exact E]. }
      destruct (is_word (lit "-t") w || is_word (lit "--threads") w) eqn:B0.
      { apply either_word in B0. destruct rest as [|a rest]; [discriminate|]. destruct (usize_from_str a) as [n|] eqn:U; [|discriminate]. destruct (N.eqb_spec n 0); [discriminate|]. apply usize_iff in U.
        eapply (Step (UseThreads n) [w; a] rest); [reflexivity|now apply http_threads|cbn in Len; lia|exact E]. }
      destruct (is_word (lit "--pid-file") w) eqn:B3.
      { apply word_eq in B3. subst w. destruct rest as [|a rest]; [discriminate|]. eapply (Step (PidFile a) [_; a] rest); [reflexivity|solve [constructor 1; constructor | constructor 3]|cbn in Len; lia|exact E]. }
      destruct (is_word (lit "--log-file") w) eqn:B4.
      { apply word_eq in B4. subst w. destruct rest as [|a rest]; [discriminate|]. eapply (Step (LogFile a) [_; a] rest); [reflexivity|solve [constructor 1; constructor | constructor 3]|cbn in Len; lia|exact E]. }
      destruct (is_word (lit "--token") w) eqn:B5.
      { apply word_eq in B5. subst w. destruct rest as [|a rest]; [discriminate|]. eapply (Step (EvalToken a) [_; a] rest); [reflexivity|solve [constructor 1; constructor | constructor 3]|cbn in Len; lia|exact E]. }
      destruct (is_word (lit "--admin-token") w) eqn:B6; [|discriminate].
      apply word_eq in B6. subst w. destruct rest as [|a rest]; [discriminate|]. eapply (Step (AdminToken a) [_; a] rest); [reflexivity|solve [constructor 1; constructor | constructor 3]|cbn in Len; lia|exact E].
    + intros ss W. pose proof (http_forward _ _ W o). congruence.
Qed.

(** ** The value asked for last *)
Lemma last_snoc : forall {A} (what : A -> setting) ss s o, last_asked what ss o -> (forall x, s = what x -> last_asked what (ss ++ [s]) (Some x)) /\ ((forall x, s <> what x) -> last_asked what (ss ++ [s]) o).
Proof.
  intros A what ss s o L. split.
  - intros x ->. eapply asked_last; [reflexivity|]. intros y [].
  - intros Ne. destruct L as [before after x -> Na | Na].
    + apply (asked_last _ _ before (after ++ [s])); [now rewrite <- app_assoc|]. intros y I. apply in_app_or in I as [I|[I|[]]]; [now apply (Na y)|now apply (Ne y)].
    + apply never_asked. intros y I. apply in_app_or in I as [I|[I|[]]]; [now apply (Na y)|now apply (Ne y)].
Qed.
Lemma effect_last : forall {A} (what : A -> setting) (get : options -> A), (forall o x, get (effect o (what x)) = x) -> (forall o s, (forall x, s <> what x) -> get (effect o s) = get o) ->
  (forall s, (exists x, s = what x) \/ forall x, s <> what x) -> forall ss o, chosen what ss (get o) (get (fold_left effect ss o)).
Proof.
  intros A what get Hit Miss Dec ss o. induction ss as [|s ss IH] using rev_ind.
  - exists None. split; [apply never_asked; intros y []|reflexivity].
  - rewrite fold_left_app. cbn [fold_left]. destruct IH as (c & L & E). pose proof (last_snoc what ss s c L) as [P Q]. destruct (Dec s) as [[x ->]|Ne].
    + exists (Some x). split; [now apply P|now rewrite Hit].
    + exists c. split; [now apply Q|]. rewrite Miss by assumption. exact E.
Qed.
Ltac decide_setting := intros s; destruct s; first [left; eexists; reflexivity | right; intros ?; discriminate].
Ltac missed := intros o s Ne; destruct s; first [reflexivity | exfalso; eapply Ne; reflexivity].
Lemma host_last : forall ss o, chosen BindHost ss (o_host o) (o_host (fold_left effect ss o)).
Proof. apply effect_last; [reflexivity|missed|decide_setting]. Qed.
Lemma threads_last : forall ss o, chosen UseThreads ss (o_threads o) (o_threads (fold_left effect ss o)).
Proof. apply effect_last; [reflexivity|missed|decide_setting]. Qed.
Lemma pid_last : forall ss o, chosen PidFile ss (o_pid o) (o_pid (fold_left effect ss o)).
Proof. apply effect_last; [reflexivity|missed|decide_setting]. Qed.
Lemma option_last : forall {A} (what : A -> setting) (get : options -> option A), (forall o x, get (effect o (what x)) = Some x) -> (forall o s, (forall x, s <> what x) -> get (effect o s) = get o) ->
  (forall s, (exists x, s = what x) \/ forall x, s <> what x) -> forall ss o, exists c, last_asked what ss c /\ get (fold_left effect ss o) = match c with Some x => Some x | None => get o end.
Proof.
  intros A what get Hit Miss Dec ss o. induction ss as [|s ss IH] using rev_ind.
  - exists None. split; [apply never_asked; intros y []|reflexivity].
  - rewrite fold_left_app. cbn [fold_left]. destruct IH as (c & L & E). pose proof (last_snoc what ss s c L) as [P Q]. destruct (Dec s) as [[x ->]|Ne].
    + exists (Some x). split; [now apply P|now rewrite Hit].
    + exists c. split; [now apply Q|]. rewrite Miss by assumption. exact E.
Qed.
Lemma token_last : forall ss o, exists c, last_asked EvalToken ss c /\ o_token (fold_left effect ss o) = match c with Some x => Some x | None => o_token o end.
Proof. apply option_last; [reflexivity|missed|decide_setting]. Qed.
Lemma admin_last : forall ss o, exists c, last_asked AdminToken ss c /\ o_admin (fold_left effect ss o) = match c with Some x => Some x | None => o_admin o end.
Proof. apply option_last; [reflexivity|missed|decide_setting]. Qed.
Lemma daemon_asked : forall ss o, o_daemon (fold_left effect ss o) = true <-> In RunAsDaemon ss \/ o_daemon o = true.
Proof.
  induction ss as [|s ss IH]; intros o; cbn [fold_left In]; [tauto|]. rewrite IH. destruct s; cbn [effect]; split; intros K; repeat (destruct K as [K|K]); try discriminate K; auto.
Qed.
Lemma last_unique : forall {A} (what : A -> setting), (forall x y, what x = what y -> x = y) -> forall ss o o', last_asked what ss o -> last_asked what ss o' -> o = o'.
Proof.
  intros A what Inj.
  assert (forall b b' a a' x y, b ++ what x :: a = b' ++ what y :: a' -> (forall z, ~ In (what z) a) -> (forall z, ~ In (what z) a') -> x = y) as U.
  { induction b as [|s b IH]; intros b' a a' x y E Na Na'; destruct b' as [|s' b']; cbn [app] in E.
    - injection E as E _. now apply Inj.
    - injection E as _ E. exfalso. apply (Na y). rewrite E. apply in_or_app. right. now left.
    - injection E as _ E. exfalso. apply (Na' x). rewrite <- E. apply in_or_app. right. now left.
    - injection E as _ E. eapply IH; eauto. }
  intros ss o o' L L'. destruct L as [b a x E Na | Na]; destruct L' as [b' a' y E' Na' | Na']; auto.
  - f_equal. subst ss. eapply U; eauto.
  - exfalso. apply (Na' x). rewrite E. apply in_or_app. right. now left.
  - exfalso. apply (Na y). rewrite E'. apply in_or_app. right. now left.
Qed.
Lemma one_chosen : forall {A} (what : A -> setting), (forall x y, what x = what y -> x = y) -> forall ss d x y, chosen what ss d x -> chosen what ss d y -> x = y.
Proof. intros A what Inj ss d x y (o & L & ->) (o' & L' & ->). now rewrite (last_unique what Inj ss o o' L L'). Qed.

Definition started (r : start) (s : settings) := r = Serving s.
Lemma line_serves : forall cpus env_host env_token p port ss args, cpus <> 0 -> port_text p port -> written line_words ss args ->
  (~ chosen UseThreads ss cpus 0 -> exists s, line_start cpus env_host env_token (p :: args) = Serving s /\ s_port s = port
     /\ chosen BindHost ss (match env_host with Some h => h | None => lit "127.0.0.1" end) (s_host s)
     /\ chosen UseThreads ss cpus (s_threads s) /\ chosen PidFile ss (lit "skillet-server.pid") (s_pid_file s) /\ (s_daemon s = true <-> In RunAsDaemon ss)
     /\ exists t, last_asked EvalToken ss t /\ s_token s = match t with Some x => Some x | None => env_token end)
  /\ (chosen UseThreads ss cpus 0 -> line_start cpus env_host env_token (p :: args) = StartPanic).
Proof.
  intros cpus eh et p port ss args Nz P W. unfold line_start. apply u16_iff in P. rewrite P. rewrite (line_forward _ _ W). set (o := mkOptions _ _ _ _ _ _). pose proof (threads_last ss o) as T. split; intros Z.
  - destruct (N.eqb_spec (o_threads (fold_left effect ss o)) 0) as [K|K]; [rewrite K in T; contradiction|].
    eexists. split; [reflexivity|]. cbn [s_port s_host s_threads s_pid_file s_daemon s_token]. split; [reflexivity|]. split; [apply (host_last ss o)|]. split; [exact T|]. split; [apply (pid_last ss o)|]. split; [|apply (token_last ss o)].
    rewrite (daemon_asked ss o). split; [intros [K1|K1]; [assumption|discriminate]|auto].
  - rewrite (one_chosen UseThreads ltac:(congruence) ss cpus _ _ T Z). reflexivity.
Qed.
Lemma line_declines : forall cpus env_host env_token args,
  (forall p port rest ss, args = p :: rest -> port_text p port -> ~ written line_words ss rest) -> exists m, line_start cpus env_host env_token args = Declined m.
Proof.
  intros cpus eh et args No. unfold line_start. destruct args as [|p rest]; [eauto|]. destruct (u16_from_str p) as [port|] eqn:P; [|eauto]. apply u16_iff in P.
  match goal with |- context [line_options rest ?o] => pose proof (line_backward (length rest) rest o ltac:(lia)) as B; destruct (line_options rest o) as [o'|m] eqn:E end; [|eauto].
  destruct B as [ss W]. exfalso. eapply No; eauto.
Qed.
Lemma threads_positive : forall ss args, written http_words ss args -> ~ In (UseThreads 0) ss.
Proof.
  intros ss args W. induction W as [|s ss ws args L W IH]; [intros []|]. intros [-> | I]; [|now apply IH]. inversion L as [? ? L'| ? ? ? ? ? Z | ]; [inversion L'|now apply Z].
Qed.
Lemma http_serves : forall cpus p port ss args, cpus <> 0 -> port_text p port -> written http_words ss args ->
  exists s, http_start cpus (p :: args) = Serving s /\ s_port s = port /\ chosen BindHost ss (lit "127.0.0.1") (s_host s) /\ chosen UseThreads ss cpus (s_threads s)
     /\ chosen PidFile ss (lit "skillet-http-server.pid") (s_pid_file s) /\ (s_daemon s = true <-> In RunAsDaemon ss)
     /\ exists t a, last_asked EvalToken ss t /\ last_asked AdminToken ss a
        /\ s_token s = match t with Some x => Some x | None => a end /\ s_admin_token s = match a with Some x => Some x | None => t end.
Proof.
  intros cpus p port ss args Nz P W. unfold http_start. apply u16_iff in P. rewrite P. rewrite (http_forward _ _ W). set (o := mkOptions _ _ _ _ _ _).
  pose proof (threads_last ss o) as T. destruct (N.eqb_spec (o_threads (fold_left effect ss o)) 0) as [K|K].
  { exfalso. rewrite K in T. destruct T as (c & L & E). destruct L as [b a x -> _|_]; [|now apply Nz]. subst x. apply (threads_positive _ _ W). apply in_or_app. right. now left. }
  destruct (token_last ss o) as (t & Lt & Et). destruct (admin_last ss o) as (a & La & Ea). cbn [o o_token o_admin] in Et, Ea.
  eexists. split; [reflexivity|]. cbn [s_port s_host s_threads s_pid_file s_daemon s_token s_admin_token]. split; [reflexivity|]. split; [apply (host_last ss o)|]. split; [exact T|]. split; [apply (pid_last ss o)|]. split.
  { rewrite (daemon_asked ss o). split; [intros [K1|K1]; [assumption|discriminate]|auto]. }
  exists t, a. split; [exact Lt|]. split; [exact La|]. rewrite Et, Ea. destruct t, a; cbn; auto.
Qed.
Lemma http_declines : forall cpus args,
  (forall p port rest ss, args = p :: rest -> port_text p port -> ~ written http_words ss rest) -> exists m, http_start cpus args = Declined m.
Proof.
  intros cpus args No. unfold http_start. destruct args as [|p rest]; [eauto|]. destruct (u16_from_str p) as [port|] eqn:P; [|eauto]. apply u16_iff in P.
  match goal with |- context [http_options rest ?o] => pose proof (http_backward (length rest) rest o ltac:(lia)) as B; destruct (http_options rest o) as [o'|m] eqn:E end; [|eauto].
  destruct B as [ss W]. exfalso. eapply No; eauto.
Qed.
