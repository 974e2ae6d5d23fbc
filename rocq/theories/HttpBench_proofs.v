(** The program that measures the HTTP server: proofs about its command line and its tests. *)
From Coq Require Import String List ZArith NArith Bool Lia.
From Verif Require Import Base Utf8 Syntax Ext Strings Lines HttpServer ServerArgs HttpBench Spec Spec_syntax Spec_args Spec_http Spec_bench Spec_httpbench
  Base_proofs ServerArgs_proofs.
Import ListNotations.
Local Open Scope N_scope.

(** ** The command line *)
Lemma split_last_some : forall c s a b, split_last c s = Some (a, b) <-> s = a ++ c :: b /\ ~ In c b.
Proof.
  intros c s. induction s as [|x s IH]; intros a b; cbn [split_last].
  - split; [discriminate|]. intros [E _]. destruct a; discriminate.
  - destruct (split_last c s) as [[a1 b1]|] eqn:E.
    + destruct (proj1 (IH a1 b1) eq_refl) as [-> N1]. split.
      * intros [= <- <-]. split; [reflexivity|assumption].
      * intros [E1 N2]. destruct a as [|y a]; cbn in E1.
        -- injection E1 as -> E1. exfalso. apply N2. rewrite <- E1. apply in_or_app. right. now left.
        -- injection E1 as <- E1. pose proof (proj2 (IH a b) (conj E1 N2)) as K. injection K as -> ->. reflexivity.
    + destruct (N.eqb_spec x c) as [-> | Ne].
      * split.
        -- intros [= <- <-]. split; [reflexivity|]. intros I0. apply in_split in I0 as (l1 & l2 & ->).
           assert (exists a b, l1 ++ c :: l2 = a ++ c :: b /\ ~ In c b) as (a & b & E1 & N1).
           { clear E IH. remember (length l2) as k eqn:K. revert l1 l2 K. induction k as [k IH] using lt_wf_ind. intros l1 l2 K. destruct (in_dec N.eq_dec c l2) as [I0|N1]; [|eauto]. apply in_split in I0 as (l3 & l4 & ->).
             destruct (IH (length l4)) with (l1 ++ c :: l3) l4 as (a & b & E & N1); [rewrite app_length in K; cbn in K; lia|reflexivity|]. exists a, b. split; [|assumption]. rewrite <- E, <- app_assoc. reflexivity. }
           pose proof (proj2 (IH a b) (conj E1 N1)) as K. discriminate K.
        -- intros [E1 N1]. destruct a as [|y a]; cbn in E1; [injection E1 as ->; reflexivity|]. injection E1 as -> E1. pose proof (proj2 (IH a b) (conj E1 N1)) as K. discriminate K.
      * split; [discriminate|]. intros [E1 N1]. destruct a as [|y a]; cbn in E1; [congruence|]. injection E1 as <- E1. pose proof (proj2 (IH a b) (conj E1 N1)) as K. discriminate K.
Qed.

Lemma options_read : forall args c k, settled (h_concurrent c, h_requests c, h_warmup c) args k -> bench_options args c = inl (let '(x, n, w) := k in mkConfig (h_host c) (h_port c) x n w).
Proof.
  intros args c k S0. remember (h_concurrent c, h_requests c, h_warmup c) as k0 eqn:K. revert c K.
  induction S0 as [k|x n w o v m args k O0 C S0 IH|x n w o v m args k O0 C S0 IH|x n w o v m args k O0 C S0 IH]; intros c K.
  - subst k. now destruct c.
  - injection K as -> -> ->. apply usize_iff in C. destruct O0 as [<- | [<- | []]]; cbn [bench_options is_word]; unfold is_word; cbn -[usize_from_str bench_options lit]; (change (bench_options (?a :: v :: args) c) with (match usize_from_str v with Some n => bench_options args (mkConfig (h_host c) (h_port c) n (h_requests c) (h_warmup c)) | None => inr (lit "Invalid concurrent value") end)); rewrite C; exact (IH (mkConfig (h_host c) (h_port c) m (h_requests c) (h_warmup c)) eq_refl).
  - injection K as -> -> ->. apply usize_iff in C. destruct O0 as [<- | [<- | []]]; (change (bench_options (?a :: v :: args) c) with (match usize_from_str v with Some n => bench_options args (mkConfig (h_host c) (h_port c) (h_concurrent c) n (h_warmup c)) | None => inr (lit "Invalid requests value") end)); rewrite C; exact (IH (mkConfig (h_host c) (h_port c) (h_concurrent c) m (h_warmup c)) eq_refl).
  - injection K as -> -> ->. apply usize_iff in C. destruct O0 as [<- | [<- | []]]; (change (bench_options (?a :: v :: args) c) with (match usize_from_str v with Some n => bench_options args (mkConfig (h_host c) (h_port c) (h_concurrent c) (h_requests c) n) | None => inr (lit "Invalid warmup value") end)); rewrite C; exact (IH (mkConfig (h_host c) (h_port c) (h_concurrent c) (h_requests c) m) eq_refl).
Qed.
Lemma options_settled : forall k args c c', (length args <= k)%nat -> bench_options args c = inl c' ->
  settled (h_concurrent c, h_requests c, h_warmup c) args (h_concurrent c', h_requests c', h_warmup c') /\ h_host c' = h_host c /\ h_port c' = h_port c.
Proof.
  induction k as [|k IH]; intros args c c' L E.
  - destruct args; [|cbn in L; lia]. injection E as <-. repeat split. constructor.
  - destruct args as [|o args]; [injection E as <-; repeat split; constructor|]. cbn [bench_options] in E. cbn [length] in L.
    destruct (is_word (lit "-c") o || is_word (lit "--concurrent") o) eqn:W1; [|destruct (is_word (lit "-n") o || is_word (lit "--requests") o) eqn:W2; [|destruct (is_word (lit "-w") o || is_word (lit "--warmup") o) eqn:W3; [|discriminate]]].
    all: destruct args as [|v args]; [discriminate|]; cbn [length] in L; destruct (usize_from_str v) as [m|] eqn:C; [|discriminate]; apply IH in E as (S0 & E1 & E2); [|lia]; cbn [h_concurrent h_requests h_warmup h_host h_port] in S0, E1, E2; apply usize_iff in C.
    + apply either_word in W1. repeat split; try assumption. eapply settled_connections; eassumption.
    + apply either_word in W2. repeat split; try assumption. eapply settled_requests; eassumption.
    + apply either_word in W3. repeat split; try assumption. eapply settled_warmup; eassumption.
Qed.
Lemma arguments_are : forall args c, bench_arguments args = inl c <-> bench_command args c.
Proof.
  intros args c. split.
  - unfold bench_arguments. destruct args as [|a rest]; [discriminate|]. destruct (split_last 58 a) as [[host port]|] eqn:E; [|discriminate]. destruct (u16_from_str port) as [p|] eqn:P; [|discriminate].
    intros O0. apply (options_settled (length rest)) in O0 as (S0 & E1 & E2); [|lia]. apply split_last_some in E as [-> N1]. apply u16_iff in P. exists port, rest. cbn in E1, E2, S0. rewrite E1, E2. split; [reflexivity|]. split; [assumption|]. split; assumption.
  - intros (port & rest & -> & N1 & P & S0). unfold bench_arguments. rewrite (proj2 (split_last_some 58 (h_host c ++ lit ":" ++ port) (h_host c) port)) by (split; [reflexivity|assumption]).
    apply u16_iff in P. rewrite P. rewrite (options_read rest (mkConfig (h_host c) (h_port c) 10 100 20) _ S0). now destruct c.
Qed.

(** ** The shares of the threads *)
Lemma sum_app : forall a b, sum_of (a ++ b) = (sum_of a + sum_of b)%nat.
Proof. intros a b. induction a as [|x a IH]; [reflexivity|]. cbn [app sum_of fold_right]. fold (sum_of (a ++ b)) (sum_of a). rewrite IH. lia. Qed.
Lemma sum_repeat : forall x n, sum_of (repeat x n) = (n * x)%nat.
Proof. intros x n. induction n as [|n IH]; [reflexivity|]. cbn [repeat sum_of fold_right]. fold (sum_of (repeat x n)). rewrite IH. lia. Qed.
Lemma sum_shares : forall q r n first, sum_of (map (fun i => N.to_nat (q + if N.of_nat i <? r then 1 else 0)) (seq first n)) = (n * N.to_nat q + Nat.min n (N.to_nat r - first))%nat.
Proof.
  intros q r n. induction n as [|n IH]; intros first; [reflexivity|]. cbn [seq map sum_of fold_right]. fold (sum_of (map (fun i => N.to_nat (q + (if N.of_nat i <? r then 1 else 0))) (seq (S first) n))). rewrite IH.
  destruct (N.ltb_spec (N.of_nat first) r); lia.
Qed.
Lemma shares_sum : forall n k, k <> 0 -> sum_of (shares n k) = N.to_nat n.
Proof.
  intros n k K. unfold shares. rewrite sum_shares. pose proof (N.div_mod n k K) as D. pose proof (N.mod_lt n k K) as L. rewrite Nat.sub_0_r, Nat.min_r by lia. rewrite D at 3. lia.
Qed.
Lemma shares_even : forall n k x y, k <> 0 -> In x (shares n k) -> In y (shares n k) -> (x <= S y)%nat.
Proof.
  intros n k x y K X Y. unfold shares in *. apply in_map_iff in X as (i & <- & _), Y as (j & <- & _). destruct (N.of_nat i <? n mod k), (N.of_nat j <? n mod k); lia.
Qed.
Lemma shares_length : forall n k, length (shares n k) = N.to_nat k.
Proof. intros n k. unfold shares. now rewrite map_length, seq_length. Qed.

(** ** One test *)
Lemma contains_says : forall p s, contains_str p s = true <-> exists a b, s = a ++ p ++ b.
Proof. apply contains_str_spec. Qed.
Lemma success_says : forall a, is_success a = true <-> says_success a.
Proof.
  intros [a|]; cbn [is_success]; unfold says_success, mentions.
  - rewrite contains_says. split; [intros K; eauto|intros (a' & [= <-] & K); exact K].
  - split; [discriminate|intros (a & E & _); discriminate].
Qed.
(** requests a thread has left, and answers it has yet to count *)
Definition left_to_send (w : worker) : nat := match w with Sending n | Counting n => n end.
Definition left_to_count (w : worker) : nat := match w with Sending _ => 0 | Counting _ => 1 end.
Lemma set_nth_sum : forall (f : worker -> nat) i x y l, nth_error l i = Some y -> (sum_of (map f (set_nth i x l)) + f y = sum_of (map f l) + f x)%nat.
Proof.
  intros f i x y l. revert i. induction l as [|z l IH]; intros [|i] E; cbn in *; try discriminate.
  - injection E as ->. lia.
  - apply IH in E. unfold sum_of in *. lia.
Qed.
Definition successes (l : list (option str * N)) : list N := map snd (filter (fun a => is_success (fst a)) l).
Definition failures (l : list (option str * N)) : N := N.of_nat (length (filter (fun a => negb (is_success (fst a))) l)).
Record stage_inv (total : nat) (got : list (option str * N)) (s : stage_state) : Prop := mkInv {
  inv_left : (sum_of (map left_to_send (g_workers s)) + length got)%nat = total;
  inv_latencies : g_latencies s = successes got;
  inv_success : g_success s + N.of_nat (sum_of (map left_to_count (g_workers s))) = N.of_nat (length (successes got));
  inv_errors : g_errors s = failures got }.
Lemma successes_app : forall a b, successes (a ++ b) = successes a ++ successes b.
Proof. intros a b. unfold successes. now rewrite filter_app, map_app. Qed.
Lemma failures_app : forall a b, failures (a ++ b) = failures a + failures b.
Proof. intros a b. unfold failures. rewrite filter_app, app_length. lia. Qed.
Lemma both_lengths : forall l, N.of_nat (length (successes l)) + failures l = N.of_nat (length l).
Proof. intros l. unfold successes, failures. rewrite map_length. induction l as [|a l IH]; [reflexivity|]. cbn [filter]. destruct (is_success (fst a)); cbn [negb length]; lia. Qed.
Lemma arrived_cons : forall e es, arrived (e :: es) = match e with Gets _ a took => [(a, took)] | Counts _ => [] end ++ arrived es.
Proof. reflexivity. Qed.
Lemma stage_keeps : forall es total got s s', N.of_nat total < 2 ^ 64 -> stage_inv total got s -> stage_run s es = Some s' -> stage_inv total (got ++ arrived es) s'.
Proof.
  induction es as [|e es IH]; intros total got s s' B V R.
  - injection R as <-. cbn. now rewrite app_nil_r.
  - cbn [stage_run] in R. destruct (stage_step s e) as [s1|] eqn:E; [|discriminate]. rewrite arrived_cons, app_assoc. apply (IH total _ s1 s' B); [|exact R]. clear IH R.
    destruct V as [V1 V2 V3 V4]. pose proof (both_lengths got) as BL. destruct e as [i a took|i]; cbn [stage_step] in E; destruct (nth_error (g_workers s) i) as [[[|n]|n]|] eqn:Nt; try discriminate.
    + pose proof (fun x => set_nth_sum left_to_send i x _ _ Nt) as S1. pose proof (fun x => set_nth_sum left_to_count i x _ _ Nt) as S2. destruct (is_success a) eqn:Su; injection E as <-; constructor; cbn [g_workers g_success g_errors g_latencies].
      * specialize (S1 (Counting n)). cbn [left_to_send] in S1. rewrite app_length. cbn [length]. lia.
      * rewrite V2, successes_app. unfold successes at 3. cbn [filter fst]. rewrite Su. reflexivity.
      * specialize (S2 (Counting n)). cbn [left_to_count] in S2. rewrite successes_app, app_length. unfold successes at 2. cbn [filter fst]. rewrite Su. cbn [map length]. lia.
      * rewrite V4, failures_app. unfold failures at 3. cbn [filter fst]. rewrite Su. cbn. lia.
      * specialize (S1 (Sending n)). cbn [left_to_send] in S1. rewrite app_length. cbn [length]. lia.
      * rewrite V2, successes_app. unfold successes at 3. cbn [filter fst]. rewrite Su. cbn. now rewrite app_nil_r.
      * specialize (S2 (Sending n)). cbn [left_to_count] in S2. rewrite successes_app, app_length. unfold successes at 2. cbn [filter fst]. rewrite Su. cbn [map length]. lia.
      * specialize (S1 (Sending n)). cbn [left_to_send] in S1. rewrite failures_app, V4. unfold failures at 3. cbn [filter fst]. rewrite Su. cbn [negb length]. rewrite N.mod_small; [reflexivity|]. clear - B V1 BL S1. lia.
    + pose proof (set_nth_sum left_to_send i (Sending n) _ _ Nt) as S1. pose proof (set_nth_sum left_to_count i (Sending n) _ _ Nt) as S2. cbn [left_to_send left_to_count] in S1, S2. injection E as <-. rewrite app_nil_r. constructor; cbn [g_workers g_success g_errors g_latencies]; try assumption; [lia|].
      rewrite N.mod_small; [lia|]. clear - B V1 V3 BL S2. lia.
Qed.
Lemma begun_left : forall threads, sum_of (map left_to_send (map Sending threads)) = sum_of threads /\ sum_of (map left_to_count (map Sending threads)) = 0%nat.
Proof. induction threads as [|n l [A B]]; cbn; [auto|]; unfold sum_of in *; lia. Qed.
Lemma begin_inv : forall threads, stage_inv (sum_of threads) [] (stage_begin threads).
Proof.
  intros threads. destruct (begun_left threads) as [A B].
  constructor; cbn [stage_begin g_workers g_success g_errors g_latencies]; try reflexivity; [rewrite A; cbn; lia|rewrite B; reflexivity].
Qed.
Lemma over_left : forall s, stage_over s = true -> sum_of (map left_to_send (g_workers s)) = 0%nat /\ sum_of (map left_to_count (g_workers s)) = 0%nat.
Proof. intros s. unfold stage_over. induction (g_workers s) as [|[[|n]|n] l IH]; cbn; intros E; try discriminate; [auto|apply IH in E; unfold sum_of in *; lia]. Qed.
Lemma tally_filter : forall A (P : A -> Prop) f l, (forall x, f x = true <-> P x) -> tally P l (N.of_nat (length (filter f l))).
Proof.
  intros A P f l F. induction l as [|x l IH]; cbn [filter]; [constructor|]. destruct (f x) eqn:E.
  - cbn [length]. rewrite Nat2N.inj_succ, <- N.add_1_r. constructor; [now apply F|assumption].
  - constructor; [|assumption]. rewrite <- F. congruence.
Qed.
Lemma gathered_filter : forall A B (g : A -> B) (P : A -> Prop) f l, (forall x, f x = true <-> P x) -> gathered (fun x y => P x /\ y = g x) l (map g (filter f l)).
Proof.
  intros A B g P f l F. induction l as [|x l IH]; cbn [filter]; [constructor|]. destruct (f x) eqn:E.
  - cbn [map]. constructor; [split; [now apply F|reflexivity]|assumption].
  - apply gathered_skip; [|assumption]. intros y [K _]. apply F in K. congruence.
Qed.
Lemma stage_counted : forall threads es s, N.of_nat (sum_of threads) < 2 ^ 64 -> stage_run (stage_begin threads) es = Some s -> stage_over s = true ->
  length (arrived es) = sum_of threads /\ tally (fun a => says_success (fst a)) (arrived es) (g_success s) /\ g_success s + g_errors s = N.of_nat (sum_of threads)
  /\ gathered (fun a took => says_success (fst a) /\ took = snd a) (arrived es) (g_latencies s).
Proof.
  intros threads es s B R O0. destruct (stage_keeps es _ _ _ _ B (begin_inv threads) R) as [V1 V2 V3 V4]. cbn [app] in *. destruct (over_left s O0) as [L1 L2]. pose proof (both_lengths (arrived es)) as BL.
  assert (length (arrived es) = sum_of threads) as Len by lia. split; [exact Len|]. split; [|split].
  - replace (g_success s) with (N.of_nat (length (successes (arrived es)))) by lia. unfold successes. rewrite map_length. apply tally_filter. intros a. apply success_says.
  - rewrite V4. rewrite <- Len. lia.
  - rewrite V2. unfold successes. apply gathered_filter. intros a. apply success_says.
Qed.
(** it is never stuck, and ends *)
Lemma nth_set : forall A i (x : A) l, (i < length l)%nat -> nth_error (set_nth i x l) i = Some x.
Proof. intros A i x l. revert i. induction l as [|y l IH]; intros [|i] L; cbn in *; try lia; [reflexivity|]. apply IH. lia. Qed.
Lemma stage_going : forall s answers, stage_over s = false -> exists e s', stage_step s e = Some s' /\ forall i a took, e = Gets i a took -> (a, took) = answers i.
Proof.
  intros s answers. unfold stage_over. intros E. assert (exists i w, nth_error (g_workers s) i = Some w /\ w <> Sending 0) as (i & w & Nt & Ne).
  { induction (g_workers s) as [|w l IH]; [discriminate|]. cbn [forallb] in E. destruct w as [[|n]|n]; [|exists 0%nat; eexists; split; [reflexivity|discriminate] ..].
    destruct (IH E) as (i & w & Nt & Ne). exists (S i), w. split; assumption. }
  destruct w as [[|n]|n]; [congruence| |].
  - destruct (answers i) as [a took] eqn:An. exists (Gets i a took). cbn [stage_step]. rewrite Nt. destruct (is_success a); eexists; (split; [reflexivity|]); intros i0 a0 t0 [= <- <- <-]; now rewrite An.
  - exists (Counts i). cbn [stage_step]. rewrite Nt. eexists. split; [reflexivity|]. discriminate.
Qed.
Definition work_left (s : stage_state) : nat := 2 * sum_of (map left_to_send (g_workers s)) + sum_of (map left_to_count (g_workers s)).
Lemma stage_shrinks : forall s e s', stage_step s e = Some s' -> (work_left s' < work_left s)%nat.
Proof.
  intros s e s' E. unfold work_left. destruct e as [i a took|i]; cbn [stage_step] in E; destruct (nth_error (g_workers s) i) as [[[|n]|n]|] eqn:Nt; try discriminate;
    pose proof (fun x => set_nth_sum left_to_send i x _ _ Nt) as S1; pose proof (fun x => set_nth_sum left_to_count i x _ _ Nt) as S2; cbn [left_to_send left_to_count] in S1, S2.
  - destruct (is_success a); injection E as <-; cbn [g_workers]; [specialize (S1 (Counting n)); specialize (S2 (Counting n))|specialize (S1 (Sending n)); specialize (S2 (Sending n))]; cbn [left_to_send left_to_count] in *; lia.
  - injection E as <-. cbn [g_workers]. specialize (S1 (Sending n)). specialize (S2 (Sending n)). cbn [left_to_send left_to_count] in *. lia.
Qed.
Lemma stage_ends : forall es s s', stage_run s es = Some s' -> (length es + work_left s' <= work_left s)%nat.
Proof.
  induction es as [|e es IH]; intros s s' R; cbn [stage_run] in R; [injection R as <-; cbn; lia|]. destruct (stage_step s e) as [s1|] eqn:E; [|discriminate]. apply IH in R. apply stage_shrinks in E. cbn [length]. lia.
Qed.
Lemma stage_bounded : forall threads es s, stage_run (stage_begin threads) es = Some s -> (length es <= 2 * sum_of threads)%nat.
Proof.
  intros threads es s R. apply stage_ends in R. unfold work_left at 2 in R. cbn [stage_begin g_workers] in R.
  destruct (begun_left threads) as [A B]. lia.
Qed.

(** ** The figures *)
Lemma folded_min : forall l x, least_of (x :: l) (fold_left N.min l x).
Proof.
  induction l as [|y l IH]; intros x; cbn [fold_left]; [split; [now left|repeat constructor; lia]|]. destruct (IH (N.min x y)) as [I0 F]. inversion F as [|? ? A B]; subst. split.
  - destruct I0 as [<- | I0]; [|right; now right]. destruct (N.min_spec x y) as [[_ ->]|[_ ->]]; [now left|right; now left].
  - constructor; [lia|]. constructor; [lia|assumption].
Qed.
Lemma folded_max : forall l x, most_of (x :: l) (fold_left N.max l x).
Proof.
  induction l as [|y l IH]; intros x; cbn [fold_left]; [split; [now left|repeat constructor; lia]|]. destruct (IH (N.max x y)) as [I0 F]. inversion F as [|? ? A B]; subst. split.
  - destruct I0 as [<- | I0]; [|right; now right]. destruct (N.max_spec x y) as [[_ ->]|[_ ->]]; [right; now left|now left].
  - constructor; [lia|]. constructor; [lia|assumption].
Qed.
Lemma folded_total : forall l x, fold_left N.add l x = x + total_of l.
Proof. induction l as [|y l IH]; intros x; cbn; [lia|]. rewrite IH. unfold total_of. lia. Qed.
Lemma figures_right : forall l, l <> [] -> total_of l < 2 ^ 64 * 10 ^ 9 -> N.of_nat (length l) < 2 ^ 32 ->
  exists least most, latency_figures l = Ok (least, most, total_of l / N.of_nat (length l)) /\ least_of l least /\ most_of l most.
Proof.
  intros [|x l] Ne T L; [congruence|]. exists (fold_left N.min l x), (fold_left N.max l x). split; [|split; [apply folded_min|apply folded_max]].
  unfold latency_figures. rewrite folded_total, N.add_0_l. destruct (N.leb_spec duration_limit (total_of (x :: l))) as [K|K]; [unfold duration_limit in K; lia|]. rewrite N.mod_small by assumption. destruct (N.eqb_spec (N.of_nat (length (x :: l))) 0) as [K1|K1]; [discriminate|]. reflexivity.
Qed.
