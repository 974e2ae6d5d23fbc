(** The same question gets the same answer. *)
From Coq Require Import String List ZArith NArith Bool Lia Permutation.
From Verif Require Import Base F64 Utf8 Syntax Ext Json Registry Methods Core Evaluator Parser Api Lines Host HttpCache HttpServer HttpThreads Spec Spec_syntax Spec_text Spec_http Spec_command Spec_js Spec_json Spec_eval Spec_same.
From Verif Require Import Base_proofs Eval_proofs Object_proofs HttpServer_proofs Reply_proofs.
From Verif Require Import Spec_json Spec_eval Spec_same.
Import ListNotations.
Local Open Scope N_scope.
Local Opaque json_parse.

Lemma apart_alike : forall (X : Ext) a b, apart (Some a) -> Permutation a b -> apart (Some b).
Proof.
  intros X a b Ap P kvs before k j after k' name E El I Sk Sk'. injection E as <-. subst b.
  assert (In (k, j) a) as I1 by (apply (Permutation_in (l := before ++ (k, j) :: after)); [now apply Permutation_sym|apply in_elt]).
  apply in_split in I1. destruct I1 as (b1 & a1 & ->). apply (Ap _ b1 k j a1 k' name eq_refl eq_refl); auto.
  apply (Permutation_in (l := map fst (before ++ after))); [|assumption]. apply Permutation_map. apply Permutation_sym. now apply Permutation_app_inv with (a := (k, j)).
Qed.
Section Same.
  Context {X : Ext}.
  Lemma bound_value : forall text kvs vars k j before after, apart (Some kvs) -> object_bound text kvs vars -> kvs = before ++ (k, j) :: after -> mget (sanitize_json_key k) vars = Some (json_to_value j).
  Proof.
    intros text kvs vars k j before after Ap (B & _ & _) E. apply (B _ before k j after); auto; [now apply sanitised_iff| |now apply stands_iff].
    intros k' I K. apply (Ap kvs before k j after k' (sanitize_json_key k) eq_refl E); auto; [|now apply sanitised_iff]. rewrite map_app. apply in_or_app. now right.
  Qed.
  Lemma bound_same : forall a b v v' name, apart a -> (match a, b with None, None => True | Some x, Some y => Permutation x y | _, _ => False end) ->
    variables_from a v -> variables_from b v' -> name <> lit "arguments" -> mget name v = mget name v'.
  Proof.
    intros [a|] [b|] v v' name Ap P V V' N; try contradiction; [|now rewrite V, V']. destruct V as (k1 & P1 & B1), V' as (k2 & P2 & B2).
    pose proof (apart_alike X a k1 Ap P1) as A1. assert (P12 : Permutation k1 k2) by (apply Permutation_trans with a; [now apply Permutation_sym|]; now apply Permutation_trans with b). pose proof (apart_alike X k1 k2 A1 P12) as A2.
    destruct (in_dec (fun x y => list_eq_dec N.eq_dec x y) name (map (fun kv => sanitize_json_key (fst kv)) k1)) as [I|I].
    - apply in_map_iff in I. destruct I as ([k j] & <- & I). cbn [fst]. pose proof (Permutation_in _ P12 I) as I2. apply in_split in I, I2. destruct I as (x & y & E1), I2 as (x' & y' & E2).
      rewrite (bound_value _ k1 v k j x y A1 B1 E1). symmetry. exact (bound_value _ k2 v' k j x' y' A2 B2 E2).
    - assert (Nn : forall l, Permutation k1 l -> forall k, In k (map fst l) -> ~ sanitised k name).
      { intros l Pl k Ik Sk. apply I. apply sanitised_iff in Sk. subst name. apply in_map_iff in Ik. destruct Ik as (kv & <- & Ik). apply (in_map (fun kv => sanitize_json_key (fst kv))). apply (Permutation_in (l := l)); [now apply Permutation_sym|assumption]. }
      destruct B1 as (_ & B1 & _), B2 as (_ & B2 & _). rewrite (B1 name (Nn k1 (Permutation_refl _)) N). symmetry. exact (B2 name (Nn k2 P12) N).
  Qed.
  Lemma gives_same : forall reg s v v' r r', by_name s -> (forall name, name <> lit "arguments" -> mget name v = mget name v') -> gives reg s v r -> gives reg s v' r' -> r = r'.
  Proof.
    intros reg s v v' r r' Bn Ag G G'. destruct (parse s) as [e| |] eqn:P.
    - assert (agree_on (variables e) v v') as A. { intros x I. apply Ag. intros ->. exact (Bn e P I). }
      destruct (evaluate_with_agree s e v v' P A) as (_ & Ec & Ea). destruct G as [[S ->]|[S ->]], G' as [[S' ->]|[S' ->]]; try contradiction; auto.
    - destruct G as [[S ->]|[S ->]], G' as [[S' ->]|[S' ->]]; try contradiction; unfold evaluate_with_assignments, evaluate_with_custom; now rewrite P.
    - destruct G as [[S ->]|[S ->]], G' as [[S' ->]|[S' ->]]; try contradiction; unfold evaluate_with_assignments, evaluate_with_custom; now rewrite P.
  Qed.
  Lemma result_same : forall t t' v j j', t_structured t = t_structured t' -> result_as t v j -> result_as t' v j' -> but_for_time j j'.
  Proof.
    intros t t' v j j' E R R'. unfold result_as in *. rewrite <- E in R'. destruct (t_structured t).
    - destruct R as (tm & r & -> & R), R' as (tm' & r' & -> & R'). right. assert (r = r') as ->; [|now eexists _, _, _].
      destruct R as [[D S]|(d & Ed & S)], R' as [[D' S']|(d' & Ed' & S')].
      + apply simple_unique in S, S'. congruence.
      + exfalso. now apply (D d').
      + exfalso. now apply (D' d).
      + apply stored_iff in S, S'. congruence.
    - left. apply simple_unique in R, R'. congruence.
  Qed.
  Lemma reply_same : forall (H H' : Host) u u' reg t t' a a', apart (t_arguments t) -> by_name (t_expression t) -> alike t t' -> reply_to u reg t a -> reply_to u' reg t' a' -> same_answer a a'.
  Proof.
    intros H H' u u' reg t t' a a' Ap Bn (Ee & Es & _ & Ea) R R'.
    destruct R as [vars v kvs j V G A S1 S2 S3 S4 S5|vars e kvs V G A S1 S2 S3 S4], R' as [vars' v' kvs' j' V' G' A' S1' S2' S3' S4' S5'|vars' e' kvs' V' G' A' S1' S2' S3' S4'];
      rewrite <- Ee in G'; pose proof (gives_same reg _ vars vars' _ _ Bn (fun name Nm => bound_same _ _ _ _ name Ap Ea V V' Nm) G G') as Eq; try discriminate; injection Eq as <-.
    - exists "200"%string, kvs, kvs', j, j'. unfold has_entry in *. repeat (split; [first [assumption|congruence]|]). exact (result_same t t' v j j' Es S3 S3').
    - exists "400"%string, kvs, kvs', JNull, JNull. unfold has_entry in *. repeat (split; [first [assumption|congruence]|]). now left.
  Qed.
  Lemma told_same : forall (H H' : Host) token token' admin admin' w w' evs evs' i i' t t' a a', unicode X -> @told X H token admin w evs i t a -> @told X H' token' admin' w' evs' i' t' a' -> w_registry w = w_registry w' ->
    apart (t_arguments t) -> by_name (t_expression t) -> alike t t' -> same_answer a a'.
  Proof.
    intros H H' token token' admin admin' w w' evs evs' i i' t t' a a' U [O F K D (text & Au & W & An)] [O' F' K' D' (text' & Au' & W' & An')] Er Ap Bn Al.
    pose proof (@replied_fixed X H token admin w evs i text t a U O F K D Au W An) as R. pose proof (@replied_fixed X H' token' admin' w' evs' i' text' t' a' U O' F' K' D' Au' W' An') as R'. rewrite <- Er in R'.
    exact (reply_same H H' _ _ _ t t' a a' Ap Bn Al R R').
  Qed.
End Same.
