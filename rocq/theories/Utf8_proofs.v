(** Lemmas about UTF-8. *)
From Coq Require Import List NArith Bool Lia ZArith.
From Verif Require Import Base Base_proofs Utf8.
Import ListNotations.
Local Open Scope N_scope.
Ltac Zify.zify_post_hook ::= Z.to_euclidean_division_equations.

Lemma is_scalar_range : forall c, is_scalar c = true -> c < 55296 \/ (57343 < c /\ c < 1114112).
Proof.
  intros c H. unfold is_scalar in H. apply orb_true_iff in H as [H|H].
  - left. now apply N.ltb_lt.
  - right. apply andb_true_iff in H as [A B]. apply N.ltb_lt in A, B. lia.
Qed.

Lemma scalar_of_range : forall c, c < 55296 \/ (57343 < c /\ c < 1114112) -> is_scalar c = true.
Proof.
  intros c [H|[H1 H2]]; unfold is_scalar; apply orb_true_iff.
  - left. now apply N.ltb_lt.
  - right. apply andb_true_iff. split; now apply N.ltb_lt.
Qed.

Ltac nb := repeat match goal with
  | H : (_ <? _) = true |- _ => apply N.ltb_lt in H
  | H : (_ <? _) = false |- _ => apply N.ltb_ge in H
  | H : (_ <=? _) = true |- _ => apply N.leb_le in H
  | H : (_ <=? _) = false |- _ => apply N.leb_gt in H
  | H : (_ =? _) = true |- _ => apply N.eqb_eq in H
  | H : (_ =? _) = false |- _ => apply N.eqb_neq in H
  | H : (_ && _) = true |- _ => apply andb_true_iff in H; destruct H
  end.

Ltac rwltb x y b :=
  let E := fresh in
  assert (E : (x <? y) = b) by (first [apply N.ltb_lt; lia | apply N.ltb_ge; lia]); rewrite E; clear E.

Lemma decode_enc1_app : forall c bs, is_scalar c = true ->
  decode (enc1 c ++ bs) = option_map (cons c) (decode bs).
Proof.
  intros c bs H. pose proof (is_scalar_range c H) as R. unfold enc1.
  destruct (c <? 128) eqn:E1; nb.
  - cbn [app decode]. rwltb c 128 true. reflexivity.
  - destruct (c <? 2048) eqn:E2; nb.
    + cbn [app decode]. rwltb (192 + c/64) 128 false. rwltb (192 + c/64) 194 false.
      rwltb (192 + c/64) 224 true.
      assert (is_cont (128 + c mod 64) = true) as ->
        by (unfold is_cont; apply andb_true_iff; split; [apply N.leb_le|apply N.ltb_lt]; lia).
      f_equal. f_equal. lia.
    + destruct (c <? 65536) eqn:E3; nb.
      * cbn [app decode]. rwltb (224 + c/4096) 128 false. rwltb (224 + c/4096) 194 false.
        rwltb (224 + c/4096) 224 false. rwltb (224 + c/4096) 240 true.
        assert (E : (224 + c / 4096 - 224) * 4096 + (128 + (c / 64) mod 64 - 128) * 64 + (128 + c mod 64 - 128) = c) by lia.
        rewrite E.
        assert (is_cont (128 + (c / 64) mod 64) = true) as ->
          by (unfold is_cont; apply andb_true_iff; split; [apply N.leb_le|apply N.ltb_lt]; lia).
        assert (is_cont (128 + c mod 64) = true) as ->
          by (unfold is_cont; apply andb_true_iff; split; [apply N.leb_le|apply N.ltb_lt]; lia).
        assert (2048 <=? c = true) as -> by (apply N.leb_le; lia).
        rewrite H. reflexivity.
      * cbn [app decode]. 
        assert (c / 262144 <= 4) by lia.
        rwltb (240 + c/262144) 128 false. rwltb (240 + c/262144) 194 false.
        rwltb (240 + c/262144) 224 false. rwltb (240 + c/262144) 240 false.
        rwltb (240 + c/262144) 245 true.
        assert (E : (240 + c / 262144 - 240) * 262144 + (128 + (c / 4096) mod 64 - 128) * 4096 + (128 + (c / 64) mod 64 - 128) * 64 + (128 + c mod 64 - 128) = c) by lia.
        rewrite E.
        assert (is_cont (128 + (c / 4096) mod 64) = true) as ->
          by (unfold is_cont; apply andb_true_iff; split; [apply N.leb_le|apply N.ltb_lt]; lia).
        assert (is_cont (128 + (c / 64) mod 64) = true) as ->
          by (unfold is_cont; apply andb_true_iff; split; [apply N.leb_le|apply N.ltb_lt]; lia).
        assert (is_cont (128 + c mod 64) = true) as ->
          by (unfold is_cont; apply andb_true_iff; split; [apply N.leb_le|apply N.ltb_lt]; lia).
        assert (65536 <=? c = true) as -> by (apply N.leb_le; lia).
        rewrite H. reflexivity.
Qed.

Lemma encode_cons : forall c s, encode (c :: s) = enc1 c ++ encode s.
Proof. reflexivity. Qed.

Lemma encode_app : forall a b, encode (a ++ b) = encode a ++ encode b.
Proof. intros. unfold encode. apply flat_map_app. Qed.

Lemma decode_encode : forall s, valid_str s -> decode (encode s) = Some s.
Proof.
  induction s as [|c s IH]; intros H; [reflexivity|].
  inversion H; subst. rewrite encode_cons, decode_enc1_app by assumption.
  rewrite IH by assumption. reflexivity.
Qed.

Lemma encode_ascii : forall s, forallb is_ascii s = true -> encode s = s.
Proof.
  induction s as [|c s IH]; cbn [forallb]; intros H; [reflexivity|].
  apply andb_true_iff in H as [H1 H2]. rewrite encode_cons, IH by assumption.
  unfold enc1, is_ascii in *. rewrite H1. reflexivity.
Qed.

(** Encoding is injective on scalar values. *)
Lemma encode_inj : forall a b, valid_str a -> valid_str b -> encode a = encode b -> a = b.
Proof.
  intros a b Ha Hb E. apply decode_encode in Ha. apply decode_encode in Hb.
  rewrite E in Ha. congruence.
Qed.

(** A non-ASCII character has only bytes >= 128. *)
Lemma enc1_nonascii : forall c, 128 <= c -> Forall (fun b => 128 <= b) (enc1 c).
Proof.
  intros c H. unfold enc1. rwltb c 128 false.
  destruct (c <? 2048) eqn:E; [|destruct (c <? 65536) eqn:E2];
    repeat constructor; lia.
Qed.

Lemma enc1_ascii : forall c, c < 128 -> enc1 c = [c].
Proof. intros c H. unfold enc1. rwltb c 128 true. reflexivity. Qed.

Lemma enc1_nonempty : forall c, enc1 c <> [].
Proof. intros c. unfold enc1. repeat destruct (_ <? _); discriminate. Qed.

(** UTF-8 keeps the order of scalar values *)
Lemma head_lt : forall x y a b, x < y -> str_cmp (x :: a) (y :: b) = Lt.
Proof. intros x y a b H. simpl. now rewrite (proj2 (N.compare_lt_iff x y) H). Qed.
Lemma head_same : forall x a b, str_cmp (x :: a) (x :: b) = str_cmp a b.
Proof. intros x a b. simpl. now rewrite N.compare_refl. Qed.
Lemma same_or_lt : forall x y a b, x < y \/ (x = y /\ str_cmp a b = Lt) -> str_cmp (x :: a) (y :: b) = Lt.
Proof. intros x y a b [H|[-> H]]; [now apply head_lt|now rewrite head_same]. Qed.
Lemma mod64 : forall c, c = 64 * (c / 64) + c mod 64 /\ c mod 64 < 64.
Proof. intros c. split; [apply N.div_mod; lia|apply N.mod_lt; lia]. Qed.
Lemma enc1_lt : forall c d s t, c < d -> d < 1114112 -> str_cmp (enc1 c ++ s) (enc1 d ++ t) = Lt.
Proof.
  intros c d s t H Hd.
  assert (D1 : c / 4096 = c / 64 / 64) by (rewrite N.div_div by lia; reflexivity).
  assert (D2 : d / 4096 = d / 64 / 64) by (rewrite N.div_div by lia; reflexivity).
  assert (D3 : c / 262144 = c / 64 / 64 / 64) by (rewrite !N.div_div by lia; reflexivity).
  assert (D4 : d / 262144 = d / 64 / 64 / 64) by (rewrite !N.div_div by lia; reflexivity).
  destruct (mod64 c) as [C1 C1'], (mod64 (c / 64)) as [C2 C2'], (mod64 (c / 64 / 64)) as [C3 C3'].
  destruct (mod64 d) as [E1 E1'], (mod64 (d / 64)) as [E2 E2'], (mod64 (d / 64 / 64)) as [E3 E3'].
  unfold enc1. rewrite D1, D2, D3, D4. clear D1 D2 D3 D4.
  set (c1 := c mod 64) in *. set (d1 := d mod 64) in *.
  set (c2 := c / 64) in *. set (d2 := d / 64) in *.
  set (c2m := c2 mod 64) in *. set (d2m := d2 mod 64) in *.
  set (c3 := c2 / 64) in *. set (d3 := d2 / 64) in *.
  set (c3m := c3 mod 64) in *. set (d3m := d3 mod 64) in *.
  set (c4 := c3 / 64) in *. set (d4 := d3 / 64) in *.
  clearbody c1 d1 c2m d2m c3m d3m c4 d4. clearbody c3 d3. clearbody c2 d2.
  destruct (N.ltb_spec c 128), (N.ltb_spec d 128);
    repeat match goal with |- context [N.ltb ?a ?b] => destruct (N.ltb_spec a b) end;
    try lia; cbn [app].
  all: try (apply head_lt; lia).
  - apply same_or_lt. assert (A : c2 < d2 \/ (c2 = d2 /\ c1 < d1)) by lia.
    destruct A as [A|[A B]]; [left; lia|right; split; [lia|]]. apply head_lt. lia.
  - apply same_or_lt. assert (A : c3 < d3 \/ (c3 = d3 /\ (c2m < d2m \/ (c2m = d2m /\ c1 < d1)))) by lia.
    destruct A as [A|[A B]]; [left; lia|right; split; [lia|]].
    apply same_or_lt. destruct B as [B|[B B']]; [left; lia|right; split; [lia|]]. apply head_lt. lia.
  - apply same_or_lt. assert (A : c4 < d4 \/ (c4 = d4 /\ (c3m < d3m \/ (c3m = d3m /\ (c2m < d2m \/ (c2m = d2m /\ c1 < d1)))))) by lia.
    destruct A as [A|[A B]]; [left; lia|right; split; [lia|]].
    apply same_or_lt. destruct B as [B|[B B']]; [left; lia|right; split; [lia|]].
    apply same_or_lt. destruct B' as [B'|[B' B'']]; [left; lia|right; split; [lia|]]. apply head_lt. lia.
Qed.
Lemma str_cmp_app_same : forall p a b, str_cmp (p ++ a) (p ++ b) = str_cmp a b.
Proof. induction p as [|x p IH]; intros a b; auto. cbn [app]. now rewrite head_same. Qed.
Lemma encode_compare : forall a b, valid_str a -> valid_str b -> str_cmp (encode a) (encode b) = str_cmp a b.
Proof.
  induction a as [|x a IH]; intros b Ha Hb.
  - destruct b as [|y b]; auto. rewrite encode_cons. simpl (str_cmp [] (y :: b)).
    change (encode []) with (@nil N). pose proof (enc1_nonempty y) as Hn. now destruct (enc1 y).
  - destruct b as [|y b].
    + rewrite encode_cons. change (encode []) with (@nil N). pose proof (enc1_nonempty x) as Hn. now destruct (enc1 x).
    + inversion Ha as [|? ? Hx Ha']; inversion Hb as [|? ? Hy Hb']; subst. rewrite !encode_cons.
      assert (R : forall z, is_scalar z = true -> z < 1114112) by (intros z Hz; apply is_scalar_range in Hz; lia).
      pose proof (R x Hx). pose proof (R y Hy).
      simpl (str_cmp (x :: a) (y :: b)). destruct (N.compare_spec x y) as [->|L|L].
      * rewrite str_cmp_app_same. now apply IH.
      * now apply enc1_lt.
      * rewrite str_cmp_antisym. now rewrite enc1_lt.
Qed.
