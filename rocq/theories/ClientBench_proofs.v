(** The benchmark mode of the client. *)
From Coq Require Import String List ZArith NArith QArith Qround Qabs Bool Lia Lqa Sorted Permutation.
From Coq Require Import Floats.SpecFloat.
From Verif Require Import Base F64 F64Text Syntax Utf8 Ext Json Registry Core Methods Utils Arrays Stats Api Lines Host HttpServer HttpThreads Pretty Command LineServer Client ClientBench Spec Spec_numbers Spec_syntax Spec_args Spec_text Spec_json Spec_http Spec_command Spec_lines Spec_client Spec_bench
  Base_proofs Value_proofs Array_proofs Float_proofs Exact_proofs Round_proofs Nearest_proofs Rounding_proofs Number_proofs Doubles_proofs Compare_proofs Stats_proofs Logic_proofs Utf8_proofs Text_proofs Command_proofs ServerArgs_proofs Client_proofs BenchFigures_proofs.
From Verif Require Import Spec_json Spec_lines Spec_client Spec_bench.
From Verif Require Struct.
From Verif Require Import Spec_struct.
Import ListNotations.
Local Open Scope N_scope.
Local Opaque json_parse Struct.struct_parse.

Section Bench.
  Context {X : Ext} {H : Host}.
  (** ** Answers *)
  Lemma names_distinct : NoDup Struct.answer_names.
  Proof. unfold Struct.answer_names. repeat constructor; cbn; intuition discriminate. Qed.
  Lemma field_given : forall j k i o, nth_error Struct.answer_names i = Some k -> match j with JObj _ => True | JArr xs => length xs = 5%nat | _ => False end -> given Struct.answer_names j k o <-> o = answer_field k i j.
  Proof. intros [| | | |xs|kvs] k i o K J; try contradiction; [|reflexivity]. cbn [given answer_field]. rewrite (proj2 (Nat.eqb_eq _ _) J). split.
    - intros (_ & i' & K' & ->). f_equal. apply (proj1 (NoDup_nth_error Struct.answer_names) names_distinct); [apply nth_error_Some; congruence|congruence].
    - intros ->. split; [assumption|]. now exists i. Qed.
  Lemma given_form : forall j k o, given Struct.answer_names j k o -> match j with JObj _ => True | JArr xs => length xs = 5%nat | _ => False end.
  Proof. intros [| | | |xs|kvs] k o G; try contradiction; [apply G|exact Logic.I]. Qed.
  Lemma field_form : forall j k i x, answer_field k i j = Some x -> match j with JObj _ => True | JArr xs => length xs = 5%nat | _ => False end.
  Proof. intros [| | | |xs|kvs] k i x G; try discriminate; [|exact Logic.I]. cbn in G. destruct (Nat.eqb (length xs) 5) eqn:E; [now apply Nat.eqb_eq in E|discriminate]. Qed.
  Lemma told_read : forall line b t, told line b t <-> exists r e, answer_of_line line = Some (b, r, e) /\ t = answer_time line.
  Proof. intros line b t. split.
    - intros [line' j b' time id e P S1 T1 I1 E1 E2]. pose proof (given_form _ _ _ S1) as F. apply (field_given j _ 0) in S1; [|reflexivity|assumption]. apply (field_given j _ 3) in T1; [|reflexivity|assumption]. apply (field_given j _ 4) in I1; [|reflexivity|assumption]. apply (field_given j _ 2) in E1; [|reflexivity|assumption].
      unfold answer_of_line, answer_time. rewrite P, <- S1, <- T1, <- I1, <- E1. destruct E2 as [-> | [-> | [s ->]]]; cbn; eauto.
    - intros (r & e & A & ->). unfold answer_of_line, answer_time in *. destruct (Struct.struct_parse Struct.answer_names line) as [j|] eqn:P; [|discriminate].
      destruct (answer_field (lit "success") 0 j) as [[]|] eqn:S1; try discriminate. pose proof (field_form _ _ _ _ S1) as F. destruct (json_optional HttpServer.json_text (answer_field (lit "error") 2 j)) as [e'|] eqn:E1; [|discriminate]. destruct (answer_field (lit "execution_time_ms") 3 j) as [[]|] eqn:T1; try discriminate. destruct (answer_field (lit "request_id") 4 j) as [[| |[]| | |]|] eqn:I1; try discriminate.
      symmetry in S1, T1, I1. apply (field_given j _ 0) in S1; [|reflexivity|assumption]. apply (field_given j _ 3) in T1; [|reflexivity|assumption]. apply (field_given j _ 4) in I1; [|reflexivity|assumption].
      replace b with b0 by congruence. apply (told_so line j b0 n n0 (answer_field (lit "error") 2 j)); try assumption; [now apply (field_given j _ 2)|]. destruct (answer_field (lit "error") 2 j) as [[]|]; cbn in E1; try discriminate; eauto. Qed.
  Lemma readable_iff : forall line, readable line <-> answer_of_line line <> None.
  Proof. intros line. unfold readable. split.
    - intros (b & t & T). apply told_read in T as (r & e & -> & _). discriminate.
    - destruct (answer_of_line line) as [[[b r] e]|] eqn:A; [|congruence]. intros _. exists b, (answer_time line). apply told_read. eauto. Qed.
  Lemma succeeded_iff : forall line, succeeded line <-> exists r e, answer_of_line line = Some (true, r, e).
  Proof. intros line. unfold succeeded. split.
    - intros [t T]. apply told_read in T as (r & e & A & _). eauto.
    - intros (r & e & A). exists (answer_time line). apply told_read. eauto. Qed.

  (** ** The command line *)
  Lemma count_no_equals : forall w n, count_text w n -> split_once [61] w = None.
  Proof. intros w n (ds & P & D & _ & _). destruct (split_once [61] w) as [[a b]|] eqn:E; [exfalso|reflexivity]. apply split_61 in E as [_ E].
    assert (I61 : In 61 w) by (rewrite E; apply in_or_app; right; now left). destruct D as [_ D]. rewrite forallb_forall in D.
    destruct P as [-> | ->]; [|destruct I61 as [K|I61]; [discriminate|]]; apply D in I61; discriminate. Qed.
  Lemma count_not_option : forall w n o, count_text w n -> In o ["--json"; "--output-json"; "--token"]%string -> str_eqb w (lit o) = false.
  Proof. intros w n o C I0. apply not_true_iff_false. intros E. apply str_eqb_eq in E. subst w. apply usize_iff in C. destruct I0 as [<-|[<-|[<-|[]]]]; discriminate. Qed.
  Lemma bench_read : forall ps k args n, bench_line ps k args n -> forall o js, Forall2 (fun b j => argument_json (snd b) j) (sent_bindings ps) js -> read_bench_options args o k = Ok (client_taken ps o js, n).
  Proof. intros ps k args n L. induction L as [n|p ps args k n Pr L IH|w ps args j k n C L IH]; intros o js V; [reflexivity| |].
    - destruct p as [t| |t|name t]; cbn [client_words app].
      + cbn [read_bench_options]. rewrite str_eqb_refl. cbn [client_taken]. now apply IH.
      + cbn [read_bench_options client_taken]. change (str_eqb (lit "--output-json") (lit "--json")) with false. rewrite str_eqb_refl. now apply IH.
      + cbn [read_bench_options client_taken]. change (str_eqb (lit "--token") (lit "--json")) with false. change (str_eqb (lit "--token") (lit "--output-json")) with false. rewrite str_eqb_refl. now apply IH.
      + cbn [sent_bindings flat_map app] in V. inversion V as [|? v ? vs' V1 V2]; subst. cbn [read_bench_options client_taken]. rewrite !send_word by (cbn; intuition discriminate). cbn [snd] in V1.
        rewrite (proj2 (split_61 _ name t)) by (split; [exact Pr|reflexivity]). apply json_value_iff in V1. rewrite V1. cbn [bind]. now apply IH.
    - cbn [read_bench_options]. rewrite (count_not_option w j "--json" C), (count_not_option w j "--output-json" C), (count_not_option w j "--token" C) by (cbn; auto). rewrite (count_no_equals w j C). apply usize_iff in C. rewrite C. now apply IH. Qed.

  (** ** The loop *)
  Lemma warmed : forall exchange line todo i, 
    (Forall (fun k => readable (exchange k line)) (seq i todo) /\ warm_up exchange line i todo = (repeat line todo, None)) \/
    (exists j e, (j < todo)%nat /\ Forall (fun k => readable (exchange k line)) (seq i j) /\ ~ readable (exchange (i + j)%nat line) /\ warm_up exchange line i todo = (repeat line (S j), Some e)).
  Proof. intros exchange line todo. induction todo as [|todo IH]; intros i; [left; split; [constructor|reflexivity]|]. cbn [warm_up seq]. destruct (answer_of_line (exchange i line)) as [a|] eqn:A.
    - assert (R : readable (exchange i line)) by (apply readable_iff; congruence). destruct (IH (S i)) as [[F E]|(j & e & Lj & F & N1 & E)]; rewrite E.
      + left. split; [now constructor|reflexivity].
      + right. exists (S j), e. split; [lia|]. split; [cbn [seq]; now constructor|]. split; [now replace (i + S j)%nat with (S i + j)%nat by lia|reflexivity].
    - right. exists O, (h_serde_err (exchange i line)). split; [lia|]. split; [constructor|]. rewrite Nat.add_0_r. split; [|reflexivity]. intros R. apply readable_iff in R. contradiction. Qed.
  Fixpoint stepped_with (f : N -> str -> N -> bench_state -> bench_state) (i : N) (l : list (str * N)) (st : bench_state) : bench_state :=
    match l with [] => st | (a, ms) :: l => stepped_with f (i + 1) l (f i a ms st) end.
  Definition stepped := stepped_with bench_step.
  Lemma stepped_with_S : forall f i a ms l st, stepped_with f i ((a, ms) :: l) st = stepped_with f (i + 1) l (f i a ms st).
  Proof. reflexivity. Qed.
  Lemma replies_S : forall exchange took line k n, replies exchange took line k (S n) = (exchange k line, took k) :: replies exchange took line (S k) n.
  Proof. reflexivity. Qed.
  Lemma stepped_S : forall i a ms l st, stepped i ((a, ms) :: l) st = stepped (i + 1) l (bench_step i a ms st).
  Proof. intros. apply stepped_with_S. Qed.
  Lemma loop_S : forall exchange took line todo k i st, bench_loop exchange took line k i (S todo) st = (line :: fst (bench_loop exchange took line (S k) (i + 1) todo (bench_step i (exchange k line) (took k) st)), snd (bench_loop exchange took line (S k) (i + 1) todo (bench_step i (exchange k line) (took k) st))).
  Proof. intros. cbn [bench_loop]. destruct (bench_loop _ _ _ _ _ _ _). reflexivity. Qed.
  Lemma looped : forall exchange took line todo k i st, bench_loop exchange took line k i todo st = (repeat line todo, stepped i (replies exchange took line k todo) st).
  Proof. intros exchange took line todo. induction todo as [|todo IH]; intros k i st; [reflexivity|]. rewrite loop_S, replies_S, stepped_S, IH. reflexivity. Qed.
  Definition good (line : str) : bool := match answer_of_line line with Some (b, _, _) => b | None => false end.
  Definition heard (line : str) : bool := match answer_of_line line with Some _ => true | None => false end.
  Lemma good_iff : forall line, good line = true <-> succeeded line.
  Proof. intros line. rewrite succeeded_iff. unfold good. destruct (answer_of_line line) as [[[b r] e]|]; split; try discriminate; [intros ->; eauto|intros (? & ? & E); congruence|intros (? & ? & E); congruence]. Qed.
  Lemma heard_iff : forall line, heard line = true <-> readable line.
  Proof. intros line. rewrite readable_iff. unfold heard. destruct (answer_of_line line); split; congruence. Qed.
  Lemma stepped_counts : forall l i st, b_successful (stepped i l st) = b_successful st + N.of_nat (length (filter (fun a => good (fst a)) l)) /\
    b_failed (stepped i l st) = b_failed st + N.of_nat (length (filter (fun a => negb (good (fst a))) l)).
  Proof. induction l as [|[a ms] l IH]; intros i st; [cbn; lia|]. rewrite stepped_S. destruct (IH (i + 1) (bench_step i a ms st)) as [-> ->]. cbn [filter fst]. assert (G : good a = match answer_of_line a with Some (b, _, _) => b | None => false end) by reflexivity. rewrite G. unfold bench_step. destruct (answer_of_line a) as [[[[] r] e]|]; cbn [b_successful b_failed length negb]; lia. Qed.
  Lemma stepped_durations : forall l i st, b_durations (stepped i l st) = b_durations st ++ map (fun a => if heard (fst a) then f_of_Z (Z.of_N (snd a)) else f_largest) l /\
    b_server (stepped i l st) = b_server st ++ map (fun a => if heard (fst a) then answer_time (fst a) else f_zero) l.
  Proof. induction l as [|[a ms] l IH]; intros i st; [cbn; now rewrite !app_nil_r|]. rewrite stepped_S. destruct (IH (i + 1) (bench_step i a ms st)) as [-> ->]. cbn [map fst snd]. assert (G : heard a = match answer_of_line a with Some _ => true | None => false end) by reflexivity. rewrite G. unfold bench_step. destruct (answer_of_line a) as [[[[] r] e]|]; cbn [b_durations b_server]; now rewrite <- !app_assoc. Qed.
  Lemma stepped_errors : forall l i st, (length (b_errors st) = N.to_nat (N.min 5 (b_failed st)))%nat -> length (b_errors (stepped i l st)) = N.to_nat (N.min 5 (b_failed (stepped i l st))).
  Proof. induction l as [|[a ms] l IH]; intros i st E; [exact E|]. rewrite stepped_S. apply IH. unfold bench_step. destruct (answer_of_line a) as [[[[] r] e]|]; cbn [b_errors b_failed]; [exact E| |]; rewrite app_length, E; destruct (N.leb_spec (b_failed st + 1) 5); cbn [length]; lia. Qed.
  Lemma tally_filter : forall A (P : A -> Prop) (f : A -> bool) l, (forall x, f x = true <-> P x) -> tally P l (N.of_nat (length (filter f l))).
  Proof. intros A P f l E. induction l as [|x l IH]; [constructor|]. cbn [filter]. destruct (f x) eqn:Fx.
    - cbn [length]. replace (N.of_nat (S (length (filter f l)))) with (N.of_nat (length (filter f l)) + 1) by lia. constructor; [now apply E|assumption].
    - constructor; [|assumption]. intros K. apply E in K. congruence. Qed.
  Lemma gathered_filter : forall A B (R : A -> B -> Prop) (f : A -> bool) (g : A -> B) l, (forall x y, R x y <-> f x = true /\ y = g x) -> gathered R l (map g (filter f l)).
  Proof. intros A B R f g l E. induction l as [|x l IH]; [constructor|]. cbn [filter]. destruct (f x) eqn:Fx.
    - cbn [map]. constructor; [apply E; auto|assumption].
    - constructor; [|assumption]. intros y K. apply E in K as [K _]. congruence. Qed.

  (** ** The end of a run *)
  Definition start_state : bench_state := mkBench 0 0 [] [] [].
  Definition finished (exchange : nat -> str -> str) (took : nat -> N) (line : str) (n : N) : bench_state := stepped 0 (replies exchange took line warmups (N.to_nat n)) start_state.
  Definition ended (n : N) (st : bench_state) : bench_end :=
    if forallb (fun d => f_eqb d f_largest) (b_durations st) then NoAnswers (b_errors st) else match bench_figures n st with Ok f => Shown (b_errors st) f | _ => BenchCrashed end.
  Lemma run_ended : forall exchange took line n, Forall (fun k => readable (exchange k line)) (seq 0 warmups) ->
    run_benchmark exchange took line n = (repeat line (warmups + N.to_nat n), ended n (finished exchange took line n)).
  Proof. intros exchange took line n F. unfold run_benchmark. destruct (warmed exchange line warmups 0) as [[_ E]|(j & e & Lj & _ & Nr & _)].
    - rewrite E, looped, <- repeat_app. reflexivity.
    - exfalso. apply Nr. rewrite Forall_forall in F. apply F. apply in_seq. lia. Qed.
  Lemma run_cases : forall exchange took line n,
    (exists j e, (j < warmups)%nat /\ Forall (fun k => readable (exchange k line)) (seq 0 j) /\ ~ readable (exchange j line) /\ run_benchmark exchange took line n = (repeat line (S j), WarmupFailed e)) \/
    (Forall (fun k => readable (exchange k line)) (seq 0 warmups) /\ run_benchmark exchange took line n = (repeat line (warmups + N.to_nat n), ended n (finished exchange took line n))).
  Proof. intros exchange took line n. destruct (warmed exchange line warmups 0) as [[F E]|(j & e & Lj & F & Nr & E)].
    - right. split; [assumption|now apply run_ended].
    - left. exists j, (lit "Warmup failed: " ++ e). unfold run_benchmark. rewrite E. auto. Qed.
  Lemma figures_never_crash : forall exchange took line n, exists f, bench_figures n (finished exchange took line n) = Ok f /\ s_requests f = n.
  Proof. intros exchange took line n. unfold bench_figures, finished. destruct (stepped_durations (replies exchange took line warmups (N.to_nat n)) 0 start_state) as [-> _]. cbn [b_durations app start_state]. rewrite sort_nums_ok; [cbn [bind]; eexists; split; reflexivity|].
    apply Forall_forall. intros d I0. apply filter_In in I0 as [I0 _]. apply in_map_iff in I0 as ([a ms] & <- & _). destruct (heard _); [apply fz_not_nan|discriminate]. Qed.
  Lemma ended_shown : forall exchange took line n errors f, ended n (finished exchange took line n) = Shown errors f -> s_requests f = n /\ errors = b_errors (finished exchange took line n) /\ bench_figures n (finished exchange took line n) = Ok f /\ forallb (fun d => f_eqb d f_largest) (b_durations (finished exchange took line n)) = false.
  Proof. intros exchange took line n errors f E. unfold ended in E. destruct (forallb _ _); [discriminate|]. destruct (figures_never_crash exchange took line n) as (g & G & Gn). rewrite G in *. injection E as <- <-. auto. Qed.
  Lemma benchmarked : forall exchange took default args sent e, client_program exchange took default args = Benchmarked sent e -> exists line n, run_benchmark exchange took line n = (sent, e).
  Proof. intros exchange took default args sent e. unfold client_program. destruct args as [|address [|flag [|expression rest]]]; try discriminate. destruct (str_eqb flag (lit "--benchmark")); [|discriminate].
    destruct (read_bench_options rest _ 100) as [[o n]| |]; try discriminate. destruct (client_request expression o) as [r| |]; try discriminate. destruct (run_benchmark exchange took (request_line r) n) as [s0 e0] eqn:E. intros K. injection K as <- <-. exists (request_line r), n. exact E. Qed.
  Lemma shown_from : forall exchange took default args sent errors f, client_program exchange took default args = Benchmarked sent (Shown errors f) ->
    exists line, let n := s_requests f in sent = repeat line (warmups + N.to_nat n) /\ errors = b_errors (finished exchange took line n) /\ bench_figures n (finished exchange took line n) = Ok f /\ forallb (fun d => f_eqb d f_largest) (b_durations (finished exchange took line n)) = false.
  Proof. intros exchange took default args sent errors f E. apply benchmarked in E as (line & n & E). destruct (run_cases exchange took line n) as [(j & e & _ & _ & _ & K)|[_ K]]; rewrite K in E; injection E as E1 E2; [discriminate|]. apply ended_shown in E2 as (<- & E3 & E4 & E5). exists line. cbv zeta. auto. Qed.
  Lemma bench_no_crash : forall exchange took default args sent, client_program exchange took default args <> Benchmarked sent BenchCrashed.
  Proof. intros exchange took default args sent E. apply benchmarked in E as (line & n & E). destruct (run_cases exchange took line n) as [(j & e & _ & _ & _ & K)|[_ K]]; rewrite K in E; injection E as E1 E2; [discriminate|]. unfold ended in E2. destruct (forallb _ _); [discriminate|]. destruct (figures_never_crash exchange took line n) as (g & G & _). now rewrite G in E2. Qed.

  (** ** What is sent *)
  Lemma bench_asks : forall exchange took default address expression ps args n vs, orders -> bench_line ps 100 args n -> sent_variables ps vs -> carried vs ->
    exists line r, ~ In 10 line /\ requested line r /\ l_variables r = vs /\ client_asks default expression ps r /\
      exists sent e, client_program exchange took default (address :: lit "--benchmark" :: expression :: args) = Benchmarked sent e /\
        ((exists j m, (j < 10)%nat /\ (forall k, (k < j)%nat -> readable (exchange k line)) /\ ~ readable (exchange j line) /\ sent = repeat line (S j) /\ e = WarmupFailed m) \/
         ((forall k, (k < 10)%nat -> readable (exchange k line)) /\ sent = repeat line (10 + N.to_nat n) /\ (forall m, e <> WarmupFailed m) /\ (forall errors f, e = Shown errors f -> s_requests f = n))).
  Proof. intros exchange took default address expression ps args n vs O L SV C. destruct (bindings_read ps vs SV) as [js J]. destruct (request_built default expression ps js vs O J SV C) as (r0 & r & B & K1 & K2 & K3 & K4).
    exists (request_line r0), r. do 4 (split; [assumption|]). unfold client_program. rewrite str_eqb_refl, (bench_read _ _ _ _ L _ js J), B. set (line := request_line r0) in *.
    destruct (run_cases exchange took line n) as [(j & e & Lj & F & Nr & E)|[F E]]; rewrite E; (eexists; eexists; split; [reflexivity|]); rewrite Forall_forall in F.
    - left. exists j, e. split; [exact Lj|]. split; [intros k Lk; apply F, in_seq; lia|]. auto.
    - right. split; [intros k Lk; apply F, in_seq; unfold warmups; lia|]. split; [reflexivity|]. split.
      + intros m. unfold ended. destruct (forallb _ _); [discriminate|]. destruct (bench_figures _ _); discriminate.
      + intros errors f Ef. now apply ended_shown in Ef. Qed.
  Lemma plain_mode : forall exchange took default address expression args, expression <> lit "--benchmark" \/ args = [] ->
    client_program exchange took default (address :: expression :: args) = Asked (client_main (exchange 0%nat) default (address :: expression :: args)).
  Proof. intros exchange took default address expression args [Ne | ->]; [|reflexivity]. unfold client_program. destruct args as [|a args]; [reflexivity|]. destruct (str_eqb expression (lit "--benchmark")) eqn:E; [|reflexivity]. apply str_eqb_eq in E. contradiction. Qed.

  (** ** One request *)
  Lemma program_sent : forall exchange took default address expression ps args vs, expression <> lit "--benchmark" \/ args = [] -> orders -> client_line ps args -> sent_variables ps vs -> carried vs ->
    exists line r, client_program exchange took default (address :: expression :: args) = Asked (client_report (exchange 0%nat line)) /\ ~ In 10 line /\ requested line r /\ l_variables r = vs /\ client_asks default expression ps r.
  Proof. intros exchange took default address expression ps args vs Pm O L SV C. rewrite plain_mode by assumption. destruct (request_sent (exchange 0%nat) default address expression ps args vs O L SV C) as (line & r & E & K). exists line, r. rewrite E. auto. Qed.
  Lemma program_served : forall reg token exchange took default address expression ps args vs vars r, expression <> lit "--benchmark" \/ args = [] -> orders -> client_line ps args -> sent_variables ps vs -> carried vs -> served_by reg token (exchange 0%nat) ->
    welcome token (sent_token default ps) -> given_env vs vars -> Spec_http.gives reg expression vars r -> (forall v, r = Ok v -> clean_result v) ->
    match r with
    | Ok v => exists j, (In WantJson ps -> described v j) /\ (~ In WantJson ps -> simple_result v j) /\ client_program exchange took default (address :: expression :: args) = Asked (Exited 0 (json_pretty 0 j ++ [10]) [])
    | Err e => client_program exchange took default (address :: expression :: args) = Asked (Exited 2 [] (lit "Error: " ++ show_error e ++ [10]))
    | Panic _ => True
    end.
  Proof. intros reg token exchange took default address expression ps args vs vars r Pm O L SV C Sb W G R Cl. rewrite plain_mode by assumption. pose proof (client_served reg token (exchange 0%nat) default address expression ps args vs vars r O L SV C Sb W G R Cl) as K.
    destruct r as [v|e|p]; [destruct K as (j & A & B & E); exists j; rewrite E; auto|now rewrite K|exact I]. Qed.
  Lemma program_kept_out : forall reg token exchange took default address expression ps args vs, expression <> lit "--benchmark" \/ args = [] -> orders -> client_line ps args -> sent_variables ps vs -> carried vs -> served_by reg token (exchange 0%nat) ->
    ~ welcome token (sent_token default ps) -> client_program exchange took default (address :: expression :: args) = Asked (Exited 2 [] (lit "Error: Unauthorized: invalid token" ++ [10])).
  Proof. intros reg token exchange took default address expression ps args vs Pm O L SV C Sb W. rewrite plain_mode by assumption. f_equal. eapply client_kept_out; eauto. Qed.

  (** ** Counts *)
  Lemma filter_split : forall A (f : A -> bool) l, (length (filter f l) + length (filter (fun x => negb (f x)) l) = length l)%nat.
  Proof. intros A f l. induction l as [|x l IH]; [reflexivity|]. cbn [filter]. destruct (f x); cbn [negb length]; lia. Qed.
  Lemma replies_length : forall exchange took line k n, length (replies exchange took line k n) = n.
  Proof. intros. unfold replies. now rewrite map_length, seq_length. Qed.
  Lemma bench_counts : forall exchange took default args sent errors f, client_program exchange took default args = Benchmarked sent (Shown errors f) ->
    exists line, let n := s_requests f in let answers := replies exchange took line 10 (N.to_nat n) in
      sent = repeat line (10 + N.to_nat n) /\ tally (fun a => succeeded (fst a)) answers (s_successful f) /\ s_successful f + s_failed f = n /\
      length errors = Nat.min 5 (N.to_nat (s_failed f)) /\
      (n < 2 ^ 53 -> exists share, rounded share (inject_Z (Z.of_N (s_successful f)) / inject_Z (Z.of_N n)) /\ rounded (s_rate f) (exact share * 100)).
  Proof. intros exchange took default args sent errors f E. apply shown_from in E as (line & Es & Ee & G & V). exists line. cbv zeta. set (n := s_requests f) in *. set (l := replies exchange took line 10 (N.to_nat n)).
    destruct (stepped_counts l 0 start_state) as [C1 C2]. cbn [b_successful b_failed start_state N.add] in C1, C2. change (stepped 0 l start_state) with (finished exchange took line n) in C1, C2.
    assert (Ef : s_successful f = b_successful (finished exchange took line n) /\ s_failed f = b_failed (finished exchange took line n) /\ s_rate f = f_mul (f_div (f_of_Z (Z.of_N (s_successful f))) (f_of_Z (Z.of_N n))) (f_of_Z 100)).
    { unfold bench_figures in G. destruct (sort_nums _); try discriminate. cbn [bind] in G. injection G as G. rewrite <- G. cbn. auto. }
    destruct Ef as (E1 & E2 & E3). split; [exact Es|].
    assert (T : tally (fun a => succeeded (fst a)) l (s_successful f)) by (rewrite E1, C1; apply tally_filter; intros a; apply good_iff). split; [exact T|].
    assert (Sm : s_successful f + s_failed f = n). { rewrite E1, E2, C1, C2. pose proof (filter_split _ (fun a : str * N => good (fst a)) l) as K. unfold l in K at 3. rewrite replies_length in K. lia. }
    split; [exact Sm|]. split.
    { rewrite Ee, E2. pose proof (stepped_errors l 0 start_state eq_refl) as K. change (stepped 0 l start_state) with (finished exchange took line n) in K. rewrite K. lia. }
    intros Ln. assert (Np : n <> 0). { intros K. unfold finished in V. rewrite K in V. discriminate. }
    assert (Hs : small (s_successful f)) by (unfold small; lia). assert (Hn : small n) by exact Ln. apply small_abs in Hs, Hn.
    destruct (of_Z_exact (Z.of_N (s_successful f)) ltac:(lia)) as (F1 & R1 & X1). destruct (of_Z_exact (Z.of_N n) ltac:(lia)) as (F2 & R2 & X2). destruct (of_Z_exact 100 ltac:(lia)) as (F3 & R3 & X3).
    set (q := f_div (f_of_Z (Z.of_N (s_successful f))) (f_of_Z (Z.of_N n))) in *. exists q.
    assert (Rq : rounded q (inject_Z (Z.of_N (s_successful f)) / inject_Z (Z.of_N n))).
    { eapply rounded_eq; [|apply (div_rounded (f_of_Z (Z.of_N (s_successful f))) (f_of_Z (Z.of_N n))); [assumption|assumption|rewrite X2; unfold Qeq; cbn; lia]]. rewrite X1, X2. reflexivity. }
    assert (Pn : (0 < inject_Z (Z.of_N n))%Q) by (unfold Qlt; cbn; lia).
    split; [exact Rq|]. rewrite E3. eapply rounded_eq; [|apply mul_rounded; [|assumption| |assumption]]; [rewrite X3; reflexivity| |];
      (destruct (rounded_le _ _ 1%Q Rq (whole_double 1 ltac:(lia))) as (A1 & A2 & _); [apply Qle_shift_div_r; [exact Pn|rewrite Qmult_1_l, <- Zle_Qle; lia]|apply Qle_shift_div_l; [exact Pn|rewrite Qmult_0_l; unfold Qle; cbn; lia]|assumption]). Qed.

  (** ** Times *)
  Definition counted_ms (l : list (str * N)) : list N := map snd (filter (fun a => heard (fst a)) l).
  Lemma valid_durations : forall l, Forall (fun a => small (snd a)) l ->
    filter (fun d => negb (f_eqb d f_largest)) (map (fun a : str * N => if heard (fst a) then f_of_Z (Z.of_N (snd a)) else f_largest) l) = map fz (counted_ms l).
  Proof. unfold counted_ms. induction 1 as [|[a ms] l S0 F IH]; [reflexivity|]. cbn [map filter fst snd] in *. destruct (heard a); cbn [map].
    - fold (fz ms). destruct (fz_largest ms S0) as (-> & _). cbn [negb]. now rewrite IH.
    - change (f_eqb f_largest f_largest) with true. exact IH. Qed.
  Lemma all_failed : forall l, Forall (fun a => small (snd a)) l ->
    forallb (fun d => f_eqb d f_largest) (map (fun a : str * N => if heard (fst a) then f_of_Z (Z.of_N (snd a)) else f_largest) l) = negb (existsb (fun a => heard (fst a)) l).
  Proof. induction 1 as [|[a ms] l S0 F IH]; [reflexivity|]. cbn [map forallb existsb fst snd] in *. destruct (heard a).
    - fold (fz ms). destruct (fz_largest ms S0) as (-> & _). reflexivity.
    - change (f_eqb f_largest f_largest) with true. exact IH. Qed.
  Lemma small_replies : forall exchange took line k n, (forall i, took i < 2 ^ 53) -> Forall (fun a : str * N => small (snd a)) (replies exchange took line k n).
  Proof. intros exchange took line k n S0. unfold replies. rewrite Forall_map. apply Forall_forall. intros i _. apply S0. Qed.
  Lemma bench_none : forall exchange took line n, (forall i, took i < 2 ^ 53) -> (forall k, (k < 10)%nat -> readable (exchange k line)) ->
    ((exists errors, snd (run_benchmark exchange took line n) = NoAnswers errors) <-> forall k, (10 <= k < 10 + N.to_nat n)%nat -> ~ readable (exchange k line)).
  Proof. intros exchange took line n S0 W. rewrite run_ended by (apply Forall_forall; intros k Ik; apply in_seq in Ik; apply W; unfold warmups in Ik; lia). cbn [snd]. unfold ended, finished. set (l := replies exchange took line warmups (N.to_nat n)).
    destruct (stepped_durations l 0 start_state) as [-> _]. cbn [b_durations start_state app]. rewrite all_failed by now apply small_replies.
    assert (Ex : existsb (fun a => heard (fst a)) l = true <-> exists k, (10 <= k < 10 + N.to_nat n)%nat /\ readable (exchange k line)).
    { rewrite existsb_exists. unfold l, replies. split.
      - intros (a & Ia & Ha). apply in_map_iff in Ia as (k & <- & Ik). apply in_seq in Ik. exists k. split; [unfold warmups in Ik; lia|now apply heard_iff].
      - intros (k & Lk & Rk). exists (exchange k line, took k). split; [apply in_map_iff; exists k; split; [reflexivity|apply in_seq; unfold warmups; lia]|now apply heard_iff]. }
    destruct (existsb (fun a => heard (fst a)) l) eqn:Ee; cbn [negb].
    - split.
      + intros [errors K]. destruct (bench_figures _ _); discriminate.
      + intros K. destruct (proj1 Ex eq_refl) as (k & Lk & Rk). now apply K in Rk.
    - split; [|eauto]. intros _ k Lk Rk. assert (false = true) by (apply Ex; eauto). discriminate. Qed.
  Lemma bench_none_run : forall exchange took default args sent e, (forall i, took i < 2 ^ 53) -> client_program exchange took default args = Benchmarked sent e -> (forall m, e <> WarmupFailed m) ->
    exists line n, sent = repeat line (10 + N.to_nat n) /\ ((exists errors, e = NoAnswers errors) <-> forall k, (10 <= k < 10 + N.to_nat n)%nat -> ~ readable (exchange k line)).
  Proof. intros exchange took default args sent e S0 E Nw. apply benchmarked in E as (line & n & E). exists line, n. destruct (run_cases exchange took line n) as [(j & m & _ & _ & _ & K)|[F K]].
    - rewrite K in E. injection E as _ E. exfalso. now apply (Nw m).
    - pose proof (bench_none exchange took line n S0) as B. rewrite K in E. injection E as <- <-. split; [reflexivity|]. rewrite <- B; [rewrite K; reflexivity|]. intros k Lk. rewrite Forall_forall in F. apply F, in_seq. unfold warmups. lia. Qed.
  Lemma bench_times : forall exchange took default args sent errors f, client_program exchange took default args = Benchmarked sent (Shown errors f) -> (forall i, took i < 2 ^ 53) -> s_requests f < 2 ^ 53 ->
    exists line ms least p50 p95 p99 most k50 k95 k99,
      sent = repeat line (10 + N.to_nat (s_requests f)) /\ gathered answered_in (replies exchange took line 10 (N.to_nat (s_requests f))) ms /\ ms <> [] /\
      map (fun n => f_of_Z (Z.of_N n)) [least; p50; p95; p99; most] = [s_least f; s_p50 f; s_p95 f; s_p99 f; s_most f] /\
      of_rank 0 ms least /\ of_rank k50 ms p50 /\ of_rank k95 ms p95 /\ of_rank k99 ms p99 /\ of_rank (length ms - 1) ms most /\
      position 50 (length ms) k50 /\ position 95 (length ms) k95 /\ position 99 (length ms) k99 /\ least <= p50 <= p95 /\ p95 <= p99 <= most /\
      (total_of ms < 2 ^ 53 -> rounded (s_average f) (inject_Z (Z.of_N (total_of ms)) / inject_Z (Z.of_nat (length ms)))).
  Proof. intros exchange took default args sent errors f E S0 Sn. apply shown_from in E as (line & Es & _ & G & V). set (n := s_requests f) in *. set (l := replies exchange took line warmups (N.to_nat n)) in *. unfold finished in *. fold l in G, V.
    pose proof (small_replies exchange took line warmups (N.to_nat n) S0) as Sl. fold l in Sl. unfold bench_figures in G. destruct (stepped_durations l 0 start_state) as [D _]. rewrite D in G, V. cbn [b_durations start_state app] in G, V. rewrite valid_durations in G by assumption. rewrite all_failed in V by assumption. apply negb_false_iff in V.
    set (ms := counted_ms l) in *. assert (Sm : Forall small ms). { unfold ms, counted_ms. rewrite Forall_map. rewrite Forall_forall in *. intros a Ia. apply filter_In in Ia as [Ia _]. now apply Sl. }
    assert (Ne : ms <> []). { apply existsb_exists in V as (a & Ia & Ha). assert (K : In (snd a) ms) by (apply in_map; apply filter_In; auto). intros Z0. now rewrite Z0 in K. }
    assert (Gm : gathered answered_in l ms). { apply gathered_filter. intros [a m] y. unfold answered_in. cbn [fst snd]. rewrite heard_iff. tauto. }
    assert (Lm : (length ms <= N.to_nat n)%nat). { unfold ms, counted_ms. rewrite map_length. pose proof (filter_split _ (fun a : str * N => heard (fst a)) l) as K. unfold l in K at 3. rewrite replies_length in K. lia. }
    assert (L1 : (1 <= length ms)%nat) by (destruct ms; [congruence|cbn; lia]).
    assert (Lz : (Z.of_nat (length ms) <= 2 ^ 53)%Z). { change (2 ^ 53) with 9007199254740992 in Sn. clear - Sn Lm. change (2 ^ 53)%Z with 9007199254740992%Z. lia. }
    rewrite (sort_nums_ok _ (not_nans ms)) in G. cbn [bind] in G. injection G as G. set (srt := insertion_sort (map fz ms)) in *.
    assert (Ls : length srt = length ms) by (pose proof (Permutation_length (insertion_sort_perm (map fz ms))) as K; fold srt in K; rewrite map_length in K; exact K).
    assert (Zs : zlen srt = Z.of_nat (length ms)) by (unfold zlen; now rewrite Ls). assert (Ns : srt <> []) by (intros K; rewrite K in Ls; cbn in Ls; lia).
    assert (SS : StronglySorted f_le srt) by apply insertion_sort_sorted, not_nans.
    assert (Pc : forall p, (0 <= p <= 100)%Z -> exists k m, index_of p (zlen srt - 1) = k /\ (k < length ms)%nat /\ bench_percentile srt (f_of_Z p) = fz m /\ fz m = nth k srt f_nan /\ of_rank k ms m /\ position p (length ms) k).
    { intros p Lp. pose proof (index_range p (zlen srt - 1) Lp ltac:(lia)) as K. exists (index_of p (zlen srt - 1)). assert (Lk : (index_of p (zlen srt - 1) < length ms)%nat) by (unfold index_of; lia).
      destruct (ranked_rank (index_of p (zlen srt - 1)) ms _ Sm (sorted_ranked (map fz ms) (index_of p (zlen srt - 1)) (not_nans ms) ltac:(rewrite map_length; exact Lk))) as (m & Em & Rm). exists m. split; [reflexivity|]. split; [exact Lk|]. fold srt in Em.
      split; [rewrite <- Em; apply percentile_index; [assumption|assumption|lia]|]. split; [now symmetry|]. split; [assumption|]. rewrite Zs. now apply index_position. }
    destruct (Pc 50%Z ltac:(lia)) as (k50 & p50 & I50 & L50 & B50 & N50 & R50 & Q50). destruct (Pc 95%Z ltac:(lia)) as (k95 & p95 & I95 & L95 & B95 & N95 & R95 & Q95). destruct (Pc 99%Z ltac:(lia)) as (k99 & p99 & I99 & L99 & B99 & N99 & R99 & Q99).
    destruct (least_ms ms Ne Sm) as (least & El & Il & Fl). destruct (most_ms ms Ne Sm) as (most & Em & Im & Fm).
    assert (Inm : forall k m, of_rank k ms m -> In m ms). { intros k m (b & a & P & _). eapply Permutation_in; [apply Permutation_sym; exact P|]. apply in_or_app. right. now left. }
    assert (Mono : forall p q a b, (0 <= p <= q)%Z -> (q <= 100)%Z -> In a ms -> In b ms -> fz a = nth (index_of p (zlen srt - 1)) srt f_nan -> fz b = nth (index_of q (zlen srt - 1)) srt f_nan -> (index_of q (zlen srt - 1) < length ms)%nat -> a <= b).
    { intros p q a b Lp Lq Ia Ib Ea Eb Lk. rewrite Forall_forall in Sm. apply fz_le; [auto|auto|]. rewrite Ea, Eb. assert (K : (index_of p (zlen srt - 1) <= index_of q (zlen srt - 1))%nat).
      { unfold index_of. apply Z2Nat.inj_le; [apply index_range; lia|apply index_range; lia|]. apply Qfloor_resp_le. apply place_mono; lia. }
      apply Nat.lt_eq_cases in K as [K|K]; [apply sorted_nth; [assumption|lia]|]. rewrite K. apply f_le_refl. rewrite <- Eb. apply fz_not_nan. }
    rewrite Forall_forall in Fl, Fm.
    exists line, ms, least, p50, p95, p99, most, k50, k95, k99. split; [exact Es|]. split; [exact Gm|]. split; [exact Ne|].
    split; [rewrite <- G; cbn [map s_least s_p50 s_p95 s_p99 s_most]; change (binary_round prec emax false 50 0) with (f_of_Z 50); change (binary_round prec emax false 95 0) with (f_of_Z 95); change (binary_round prec emax false 99 0) with (f_of_Z 99); rewrite B50, B95, B99, El, Em; reflexivity|].
    split. { destruct (in_split _ _ Il) as (a & b & Eab). exists [], (a ++ b). split; [rewrite Eab; cbn [app]; apply Permutation_sym, Permutation_middle|]. split; [reflexivity|]. split; [constructor|]. apply Forall_forall. intros y Iy. apply Fl. rewrite Eab. apply in_app_or in Iy. apply in_or_app. destruct Iy; [left|right; right]; assumption. }
    do 3 (split; [assumption|]).
    split. { destruct (in_split _ _ Im) as (a & b & Eab). exists (a ++ b), []. split; [rewrite Eab; eapply Permutation_trans; [apply Permutation_sym, Permutation_middle|]; apply Permutation_cons_append|]. split; [rewrite Eab, !app_length; cbn [length]; lia|]. split; [|constructor]. apply Forall_forall. intros y Iy. apply Fm. rewrite Eab. apply in_app_or in Iy. apply in_or_app. destruct Iy; [left|right; right]; assumption. }
    do 3 (split; [assumption|]). pose proof (Inm _ _ R50) as J50. pose proof (Inm _ _ R95) as J95. pose proof (Inm _ _ R99) as J99. rewrite <- I50 in N50. rewrite <- I95 in N95, L95. rewrite <- I99 in N99, L99.
    split; [split; [now apply Fl|apply (Mono 50 95)%Z; (lia || assumption)]|]. split; [split; [apply (Mono 95 99)%Z; (lia || assumption)|now apply Fm]|].
    intros St. rewrite <- G. cbn [s_average]. change (Z.of_nat (length ms)) with (zlen ms). apply (mean_ms ms Ne St). unfold zlen. exact Lz. Qed.
  Lemma bench_server : forall exchange took default args sent errors f, client_program exchange took default args = Benchmarked sent (Shown errors f) ->
    exists line ts, sent = repeat line (10 + N.to_nat (s_requests f)) /\ gathered worked_for (replies exchange took line 10 (N.to_nat (s_requests f))) ts /\
      (ts <> [] -> Forall (fun t => representable t /\ is_finite t = true) ts ->
       In (s_server_least f) ts /\ In (s_server_most f) ts /\ Forall (fun t => f_le (s_server_least f) t /\ f_le t (s_server_most f)) ts) /\
      (ts = [] -> s_server_average f = f_nan /\ is_exactly (s_server_least f) (inject_Z (2 ^ 1024 - 2 ^ 971)) /\ is_exactly (s_server_most f) 0).
  Proof. intros exchange took default args sent errors f E. apply shown_from in E as (line & Es & _ & G & V). set (n := s_requests f) in *. set (l := replies exchange took line warmups (N.to_nat n)) in *. unfold finished in *. fold l in G, V.
    unfold bench_figures in G. destruct (sort_nums _) as [srt| |]; try discriminate. cbn [bind] in G. injection G as G. destruct (stepped_durations l 0 start_state) as [_ D]. rewrite D in G. cbn [b_server start_state app] in G.
    set (ts := map (fun a => answer_time (fst a)) (filter (fun a : str * N => heard (fst a) && f_ltb f_zero (answer_time (fst a))) l)).
    assert (Et : filter (fun t => f_ltb f_zero t) (map (fun a : str * N => if heard (fst a) then answer_time (fst a) else f_zero) l) = ts).
    { unfold ts. clear. induction l as [|[a m] l IH]; [reflexivity|]. cbn [map filter fst]. destruct (heard a); cbn [andb]; [destruct (f_ltb f_zero (answer_time a)); cbn [map fst]; now rewrite IH|exact IH]. }
    rewrite Et in G. exists line, ts. split; [exact Es|]. split.
    { apply gathered_filter. intros [a m] y. unfold worked_for. cbn [fst]. rewrite andb_true_iff. split.
      - intros [[b T] P]. apply told_read in T as (r & e & A & ->). split; [|reflexivity]. split; [unfold heard; now rewrite A|exact P].
      - intros [[Ha P] ->]. apply heard_iff in Ha as (b & t & T). split; [|exact P]. exists b. pose proof T as T'. apply told_read in T as (r & e & A & ->). exact T'. }
    split.
    - intros Ne F. assert (Ps : Forall (fun t => f_ltb f_zero t = true) ts). { rewrite <- Et. apply Forall_forall. intros t It. now apply filter_In in It as [_ It]. }
      destruct (least_times ts Ne F) as [I1 F1]. destruct (most_times ts Ne Ps) as [I2 F2]. rewrite <- G. cbn [s_server_least s_server_most]. split; [exact I1|]. split; [exact I2|]. rewrite Forall_forall in *. auto.
    - intros Z0. rewrite Z0 in G. rewrite <- G. cbn [s_server_least s_server_most s_server_average fold_left]. split; [reflexivity|]. split; [split; [reflexivity|split; reflexivity]|split; [reflexivity|split; reflexivity]]. Qed.
End Bench.
