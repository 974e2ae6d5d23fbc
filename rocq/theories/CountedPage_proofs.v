(** What the page /health shows. *)
From Coq Require Import String List ZArith NArith QArith Qabs Bool Lia Lqa.
From Verif Require Import Base F64 Syntax Ext Json Host HttpCache HttpServer HttpThreads Spec Spec_text Spec_numbers Spec_http
  Base_proofs Value_proofs Float_proofs Exact_proofs Round_proofs Nearest_proofs Rounding_proofs Number_proofs Doubles_proofs Compare_proofs Stats_proofs BenchFigures_proofs HttpIds_proofs.
Import ListNotations.
Local Open Scope Z_scope.

Lemma ratio : forall a b : N, (0 < b)%N -> (a <= 2 ^ 53)%N -> (b <= 2 ^ 53)%N -> rounded (f_div (f_of_Z (Z.of_N a)) (f_of_Z (Z.of_N b))) (inject_Z (Z.of_N a) / inject_Z (Z.of_N b)).
Proof.
  intros a b P A B. change (2 ^ 53)%N with (Z.to_N (2 ^ 53)) in *. destruct (of_Z_exact (Z.of_N a) ltac:(lia)) as (F1 & R1 & E1). destruct (of_Z_exact (Z.of_N b) ltac:(lia)) as (F2 & R2 & E2).
  eapply rounded_eq; [|apply div_rounded; [exact F1|exact F2|rewrite E2; unfold Qeq; cbn; lia]]. rewrite E1, E2. reflexivity.
Qed.
Lemma ratio_finite : forall a b : N, (0 < b)%N -> (a <= b * 2 ^ 53)%N -> (a <= 2 ^ 53)%N -> (b <= 2 ^ 53)%N ->
  (0 <= inject_Z (Z.of_N a) / inject_Z (Z.of_N b))%Q /\ (inject_Z (Z.of_N a) / inject_Z (Z.of_N b) <= inject_Z (2 ^ 53))%Q.
Proof.
  intros a b P L A B. change (2 ^ 53)%N with (Z.to_N (2 ^ 53)) in *. split.
  - apply Qle_shift_div_l; [unfold Qlt, inject_Z; cbn [Qnum Qden]; lia|]. unfold Qle, inject_Z, Qmult; cbn [Qnum Qden]; lia.
  - apply Qle_shift_div_r; [unfold Qlt, inject_Z; cbn [Qnum Qden]; lia|]. unfold Qle, inject_Z, Qmult; cbn [Qnum Qden]. nia.
Qed.
Section Page.
  Context {X : Ext} {H : Host} (token admin : option str).
  Lemma page : forall q text w, asks "GET" "/health" q text -> let s := c_stats (w_cache w) in
    (w_processed w <= 2 ^ 53)%N -> (w_micros w <= 2 ^ 53)%N -> (cs_hits s + cs_misses s <= 2 ^ 53)%N ->
    exists rate mean,
      run (handle_http_request token admin (inl text)) w = (w, Some (http_response 200 json_type (json_print (JObj
        [(lit "status", JStr (lit "healthy")); (lit "version", JStr (lit "0.5.3")); (lit "requests_processed", JNum (JPos (w_processed w))); (lit "avg_execution_time_ms", json_of_f64 mean);
         (lit "cache_stats", JObj [(lit "hits", JNum (JPos (cs_hits s))); (lit "misses", JNum (JPos (cs_misses s))); (lit "hit_rate", json_of_f64 rate); (lit "entries", JNum (JPos (cs_entries s)));
                                   (lit "evictions", JNum (JPos (cs_evictions s))); (lit "total_saved_time_ms", json_of_f64 (cs_saved s))])]))))
      /\ (cs_hits s + cs_misses s = 0 -> rate = f_zero)%N
      /\ ((0 < cs_hits s + cs_misses s)%N -> rounded rate (inject_Z (Z.of_N (cs_hits s)) / inject_Z (Z.of_N (cs_hits s + cs_misses s))) /\ is_finite rate = true /\ (0 <= exact rate <= 1)%Q)
      /\ (w_processed w = 0%N -> mean = f_zero)
      /\ ((0 < w_processed w)%N -> exists each, rounded each (inject_Z (Z.of_N (w_micros w)) / inject_Z (Z.of_N (w_processed w))) /\ is_finite each = true /\ rounded mean (exact each / inject_Z 1000)).
  Proof.
    intros q text w A s Lp Lm Lh. exists (hit_rate s), (average_ms (w_processed w) (w_micros w)). split; [exact (health_alone token admin q text w A)|]. unfold hit_rate, average_ms. split; [intros ->; reflexivity|].
    split.
    { intros P. destruct (N.eqb_spec (cs_hits s + cs_misses s) 0) as [K|_]; [lia|].
      assert (R : rounded (f_div (f_of_Z (Z.of_N (cs_hits s))) (f_of_Z (Z.of_N (cs_hits s + cs_misses s)))) (inject_Z (Z.of_N (cs_hits s)) / inject_Z (Z.of_N (cs_hits s + cs_misses s)))) by (apply ratio; lia).
      split; [exact R|]. destruct (rounded_le _ _ 1 R (whole_double 1 ltac:(lia))) as (B & C & D & E).
      - apply Qle_shift_div_r; [unfold Qlt, inject_Z; cbn [Qnum Qden]; lia|]. unfold Qle, inject_Z, Qmult; cbn [Qnum Qden]; lia.
      - apply Qle_shift_div_l; [unfold Qlt, inject_Z; cbn [Qnum Qden]; lia|]. unfold Qle, inject_Z, Qmult; cbn [Qnum Qden]; lia.
      - auto. }
    split; [intros ->; reflexivity|]. intros P. destruct (N.ltb_spec 0 (w_processed w)) as [_|K]; [|lia].
    set (each := f_div (f_of_Z (Z.of_N (w_micros w))) (f_of_Z (Z.of_N (w_processed w)))). exists each.
    assert (R : rounded each (inject_Z (Z.of_N (w_micros w)) / inject_Z (Z.of_N (w_processed w)))) by (apply ratio; lia). split; [exact R|].
    destruct (ratio_finite (w_micros w) (w_processed w) P ltac:(nia) Lm Lp) as [G1 G2]. destruct (rounded_le _ _ (2 ^ 53) R (whole_double (2 ^ 53) ltac:(lia)) G2 G1) as (B & _). split; [exact B|].
    destruct (of_Z_exact 1000 ltac:(lia)) as (F2 & R2 & E2). eapply rounded_eq; [|apply div_rounded; [exact B|exact F2|rewrite E2; discriminate]]. rewrite E2. reflexivity.
  Qed.
End Page.
