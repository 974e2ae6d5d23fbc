(** Lookups in the result cache and requests to evaluate. *)
From Coq Require Import String List ZArith NArith Bool Lia.
From Verif Require Import Base F64 Syntax Ext Json Host HttpCache HttpServer HttpThreads Spec Spec_text Spec_json Spec_http Spec_eval Spec_counted Query_proofs Reply_proofs Counted_proofs.
Import ListNotations.
Section Wanted.
  Context {X : Ext} {H : Host} (token admin : option str).
  Lemma wanted_lookups : forall w evs, unicode X -> w_cache w = new_cache -> (forall text, In (Arrive (inl text)) evs -> ~ is_clear text) ->
    let s := serving token admin w evs in let st := c_stats (w_cache (sv_world s)) in
    exists done, NoDup done /\ N.of_nat (length done) = (cs_hits st + cs_misses st)%N
      /\ (forall i, In i done -> exists text t p, job_at s i (inl text) p /\ wants text t)
      /\ (forall i text t answer, wants text t -> authorised token text -> answered s i (inl text) answer -> In i done).
  Proof.
    intros w evs U C0 Nc s st. destruct (requests token admin w evs U C0 Nc) as (done & A & B & C & D). exists done. split; [exact A|]. split; [exact B|]. split.
    - intros i I0. destruct (C i I0) as (text & req & p & J & E). exists text, (task_of req), p. split; [exact J|now apply eval_wants].
    - intros i text t answer W Au An. destruct (wants_eval _ _ W) as (req & E & _). exact (D i text req answer E Au An).
  Qed.
End Wanted.
