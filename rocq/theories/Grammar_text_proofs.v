(** Sentences of the grammar as source texts. *)
From Coq Require Import String List ZArith NArith Bool Lia.
From Verif Require Import Base F64 Utf8 Syntax Lexer Parser Spec_syntax Spec_grammar Parser_proofs Fuel_proofs Parse_proofs
  Written_proofs Sim_proofs Grammar_proofs.
Import ListNotations.

Lemma streams_spans : forall ts t p s, streams ts at_end s -> exists st1, spans (mkP t p s) (t :: ts) st1 /\ look st1 = TEof.
Proof.
  induction ts as [|u ts IH]; intros t p s H; cbn [streams] in H.
  - destruct H as (q & ->). exists (mkP TEof q (TSEnd q)). split; [|reflexivity]. cbn. split; [reflexivity|]. eexists. split; reflexivity.
  - destruct H as (q & s' & -> & H). destruct (IH u q s' H) as (st1 & A & B). exists st1. split; [|assumption].
    cbn [spans look]. split; [reflexivity|]. exists (mkP u q s'). split; [reflexivity|exact A].
Qed.
Lemma program_nonempty : forall ts e, reads_program ts e -> ts <> [].
Proof. intros ts e [us e0 vs R M|us e0 vs es R M _]; destruct (reads_start _ _ _ R) as (t & r & -> & _); discriminate. Qed.
Lemma sentence_parses : forall ts e src, reads_program ts e -> written ts src -> no_leading_eq src -> parse src = Ok e.
Proof.
  intros ts e src R W N. pose proof (written_tokens ts src W N) as S0. pose proof (parse_stream_of src N) as P.
  destruct ts as [|t ts]; [now destruct (program_nonempty _ _ R)|]. cbn [streams] in S0. destruct S0 as (p & s & E & S0). rewrite E in P.
  destruct (streams_spans ts t p s S0) as (st1 & A & B). destruct (complete_program _ _ R _ _ A B) as (m & Hm).
  unfold parse_stream in P. cbn [parser_new] in P. set (F := parse_fuel (TSCons t p s)) in *.
  destruct (Hm m (le_n _)) as (st' & Q).
  destruct (p_program F (mkP t p s)) as [e1 st2|er|w|] eqn:E2.
  - rewrite (program_any_fuel m F _ _ _ Q) in E2; [|now rewrite E2]. injection E2 as <- <-. now injection P.
  - rewrite (program_any_fuel m F _ _ _ Q) in E2; [|now rewrite E2]. discriminate.
  - rewrite (program_any_fuel m F _ _ _ Q) in E2; [|now rewrite E2]. discriminate.
  - discriminate.
Qed.
