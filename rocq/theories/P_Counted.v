(** Property theorems about the statistics of the result cache. *)
From Coq Require Import String List ZArith NArith QArith Bool Lia.
From Verif Require Import Base F64 Syntax Ext Json Host HttpCache HttpServer HttpThreads Spec Spec_text Spec_numbers Spec_json Spec_http Spec_eval Spec_counted HttpExamples_proofs Reply_proofs Counted_proofs CountedWants_proofs CountedPage_proofs.
Import ListNotations.

(** * C97 The statistics of the result cache *)

(** since the cache was last empty: hits are the lookups that found a result, hits and misses are all lookups, the saved time is that of the results found, and "evictions" are the results that were replaced under their key *)
Theorem C97_counts : forall before after, since_empty before after -> let s := c_stats (cache_after (before ++ after)) in
  cs_hits s = N.of_nat (length (found before after)) /\ (cs_hits s + cs_misses s = N.of_nat (lookups after))%N
  /\ cs_saved s = fold_left (fun t e => f_add t (e_ms e)) (found before after) f_zero /\ cs_evictions s = N.of_nat (length (replaced before after)).
Proof. exact @counts. Qed.
Print Assumptions C97_counts.

(** so it is with the server's cache, whatever its threads do *)
Theorem C97_server : forall (X : Ext) (H : Host) (token admin : option str) w evs, unicode X -> w_cache w = new_cache -> let c := w_cache (sv_world (serving token admin w evs)) in
  exists before after, since_empty before after /\ c = cache_after (before ++ after) /\ cs_hits (c_stats c) = N.of_nat (length (found before after)) /\ (cs_hits (c_stats c) + cs_misses (c_stats c) = N.of_nat (lookups after))%N
    /\ cs_saved (c_stats c) = fold_left (fun t e => f_add t (e_ms e)) (found before after) f_zero /\ cs_evictions (c_stats c) = N.of_nat (length (replaced before after)).
Proof. exact @server_counts. Qed.
Print Assumptions C97_server.

(** if nobody clears the cache, the lookups are those of the requests to evaluate that were let in: at most one for each, and one for each that was answered *)
Theorem C97_requests : forall (X : Ext) (H : Host) (token admin : option str) w evs, unicode X -> w_cache w = new_cache -> (forall text, In (Arrive (inl text)) evs -> ~ is_clear text) ->
  let s := serving token admin w evs in let st := c_stats (w_cache (sv_world s)) in
  exists done, NoDup done /\ N.of_nat (length done) = (cs_hits st + cs_misses st)%N
    /\ (forall i, In i done -> exists text t p, job_at s i (inl text) p /\ wants text t)
    /\ (forall i text t answer, wants text t -> authorised token text -> answered s i (inl text) answer -> In i done).
Proof. exact @wanted_lookups. Qed.
Print Assumptions C97_requests.

(** the page /health shows these numbers, the share of hits among the lookups and the mean time of the requests processed *)
Theorem C97_page : forall (X : Ext) (H : Host) (token admin : option str) q text w, asks "GET" "/health" q text -> let s := c_stats (w_cache w) in
  (w_processed w <= 2 ^ 53)%N -> (w_micros w <= 2 ^ 53)%N -> (cs_hits s + cs_misses s <= 2 ^ 53)%N ->
  exists rate mean,
    run (handle_http_request token admin (inl text)) w = (w, Some (http_response 200 json_type (json_print (JObj
      [(lit "status", JStr (lit "healthy")); (lit "version", JStr (lit "0.5.3")); (lit "requests_processed", JNum (JPos (w_processed w))); (lit "avg_execution_time_ms", json_of_f64 mean);
       (lit "cache_stats", JObj [(lit "hits", JNum (JPos (cs_hits s))); (lit "misses", JNum (JPos (cs_misses s))); (lit "hit_rate", json_of_f64 rate); (lit "entries", JNum (JPos (cs_entries s)));
                                 (lit "evictions", JNum (JPos (cs_evictions s))); (lit "total_saved_time_ms", json_of_f64 (cs_saved s))])]))))
    /\ (cs_hits s + cs_misses s = 0 -> rate = f_zero)%N
    /\ ((0 < cs_hits s + cs_misses s)%N -> rounded rate (inject_Z (Z.of_N (cs_hits s)) / inject_Z (Z.of_N (cs_hits s + cs_misses s))) /\ is_finite rate = true /\ (0 <= exact rate <= 1)%Q)
    /\ (w_processed w = 0%N -> mean = f_zero)
    /\ ((0 < w_processed w)%N -> exists each, rounded each (inject_Z (Z.of_N (w_micros w)) / inject_Z (Z.of_N (w_processed w))) /\ is_finite each = true /\ rounded mean (exact each / inject_Z 1000)).
Proof. exact @page. Qed.
Print Assumptions C97_page.

(** a result is forgotten when results were stored under 1000 other keys since its last use; with C42_retained, it is the least recently used that goes *)
Theorem C97_forgets : forall before k after keys, ~ In Clear after -> ~ In (Get k) after -> (forall e, ~ In (Put k e) after) ->
  NoDup keys -> (1000 <= length keys)%nat -> (forall k', In k' keys -> exists e, In (Put k' e) after) -> fst (cache_get k (cache_after (before ++ after))) = None.
Proof. exact @forgets. Qed.
Print Assumptions C97_forgets.

(** that is not counted: with more than 1000 different keys a result is forgotten, and evictions stay 0 *)
Theorem C97_evictions_refuted : forall k ks e, NoDup (k :: ks) -> (1000 <= length ks)%nat -> let c := cache_after (map (fun k => Put k e) (k :: ks)) in
  fst (cache_get k c) = None /\ cs_evictions (c_stats c) = 0%N.
Proof. exact @uncounted. Qed.
Print Assumptions C97_evictions_refuted.

Example C97_nonvacuous :
  let e := mkEntry (num 3) None (f_of_Z 2) in let ops := [Get (lit "1+2"); Put (lit "1+2") e; Put (lit "1+2") e; Get (lit "1+2"); Get (lit "1+2")] in let s := c_stats (cache_after ([Put (lit "x") e; Clear] ++ ops)) in
  since_empty [Put (lit "x") e; Clear] ops /\ cs_hits s = 2%N /\ cs_misses s = 1%N /\ cs_evictions s = 1%N /\ cs_saved s = f_of_Z 4 /\ cs_entries s = 1%N /\ lookups ops = 3%nat.
Proof. intros e ops s. split; [split; [right; exists [Put (lit "x") e]; reflexivity|intros K; repeat destruct K as [K|K]; try discriminate; contradiction]|]. vm_compute. repeat split. Qed.
(** 1001 different keys *)
Example C97_keys_nonvacuous : let ks := map (fun n => [N.of_nat n]) (seq 0 1001) in NoDup ks /\ length ks = 1001%nat.
Proof. intros ks. split; [|unfold ks; now rewrite map_length, seq_length]. unfold ks. apply FinFun.Injective_map_NoDup; [|apply seq_NoDup]. intros a b E. injection E as E. lia. Qed.

Example C97_requests_nonvacuous :
  let X := example_ext in let H := example_host in let evs := one_by_one 0 [with_arguments; with_arguments] in let s := serving None None (first_world []) evs in
  (forall text, In (Arrive (inl text)) evs -> ~ is_clear text) /\ wants with_arguments arguing_task /\ authorised None with_arguments /\ (exists answer, answered s 1 (inl with_arguments) answer)
  /\ cs_hits (c_stats (w_cache (sv_world s))) = 1%N /\ cs_misses (c_stats (w_cache (sv_world s))) = 1%N.
Proof.
  intros X H evs s. split. { intros text K (l & ls & q & v & more & L & W & _). apply twice in K. subst text. unfold with_arguments in L. vm_compute in L. injection L as <- _. vm_compute in W. discriminate. }
  split; [apply arguing_wants|]. split; [exact I|]. split; [eexists; apply (example_answered [with_arguments; with_arguments] 1 with_arguments); vm_compute; reflexivity|]. split; vm_compute; reflexivity.
Qed.
Example C97_page_nonvacuous :
  let X := example_ext in let H := example_host in let w := sv_world (serving None None (first_world []) (one_by_one 0 [with_arguments; with_arguments])) in let text := lit "GET /health HTTP/1.1" ++ crlf ++ crlf in
  asks "GET" "/health" [] text /\ w_processed w = 2%N /\ exists page, run (handle_http_request None None (inl text)) w = (w, Some page) /\ contains (lit """hits"":1,""misses"":1,""hit_rate"":0.5,""entries"":1,""evictions"":0") page = true.
Proof.
  intros X H w text. split; [split; [exists (lit "HTTP/1.1"), crlf; split; [reflexivity|split; [repeat constructor|discriminate]]|split; [constructor|now left]]|].
  split; [vm_compute; reflexivity|]. eexists. split; [vm_compute; reflexivity|vm_compute; reflexivity].
Qed.
