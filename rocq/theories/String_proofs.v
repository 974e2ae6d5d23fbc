From Coq Require Import Floats.SpecFloat.
From Coq Require Import String List ZArith NArith Bool Lia.
From Verif Require Import Base Base_proofs F64 Syntax Ext Utils Strings Arrays Dispatch Registry Methods Core Evaluator Spec Value_proofs Float_proofs.
Import ListNotations.
Local Open Scope N_scope.

(** ** Byte offsets *)
Lemma char_len_pos : forall c, 0 < char_len c.
Proof. intros. unfold char_len. destruct (c <? 128), (c <? 2048), (c <? 65536); lia. Qed.
Lemma split_bytes_0 : forall s, split_bytes s 0 = Some ([], s).
Proof. now destruct s. Qed.
Lemma split_bytes_offset : forall s k,
  split_bytes s (char_byte_offset s k) = Some (firstn (N.to_nat k) s, skipn (N.to_nat k) s).
Proof.
  induction s as [|c r IH]; intros k.
  - simpl. destruct (N.to_nat k); auto.
  - cbn [char_byte_offset]. destruct (N.eqb_spec k 0) as [->|Hk]; auto.
    pose proof (char_len_pos c). cbn [split_bytes].
    destruct (N.eqb_spec (char_len c + char_byte_offset r (k - 1)) 0); [lia|].
    destruct (N.ltb_spec (char_len c + char_byte_offset r (k - 1)) (char_len c)); [lia|].
    replace (char_len c + char_byte_offset r (k - 1) - char_len c) with (char_byte_offset r (k - 1)) by lia.
    rewrite IH. replace (N.to_nat k) with (S (N.to_nat (k - 1))) by lia. reflexivity.
Qed.
Lemma slice_to_offset : forall s k, slice_to s (char_byte_offset s k) = Ok (firstn (N.to_nat k) s).
Proof. intros. unfold slice_to. now rewrite split_bytes_offset. Qed.
Lemma slice_from_offset : forall s k, slice_from s (char_byte_offset s k) = Ok (skipn (N.to_nat k) s).
Proof. intros. unfold slice_from. now rewrite split_bytes_offset. Qed.
Lemma offset_split : forall s a b, a <= b ->
  char_byte_offset s b = char_byte_offset s a + char_byte_offset (skipn (N.to_nat a) s) (b - a).
Proof.
  induction s as [|c r IH]; intros a b H.
  - simpl. destruct (N.to_nat a); auto.
  - cbn [char_byte_offset]. destruct (N.eqb_spec a 0) as [->|Ha].
    + simpl. rewrite N.sub_0_r. reflexivity.
    + destruct (N.eqb_spec b 0); [lia|].
      replace (N.to_nat a) with (S (N.to_nat (a - 1))) by lia. cbn [skipn].
      rewrite (IH (a - 1) (b - 1)) by lia. replace (b - 1 - (a - 1)) with (b - a) by lia. lia.
Qed.
Lemma slice_range_offset : forall s a b, a <= b ->
  slice_range s (char_byte_offset s a) (char_byte_offset s b) = Ok (firstn (N.to_nat (b - a)) (skipn (N.to_nat a) s)).
Proof.
  intros s a b H. unfold slice_range. rewrite (offset_split s a b H).
  destruct (N.ltb_spec (char_byte_offset s a + char_byte_offset (skipn (N.to_nat a) s) (b - a)) (char_byte_offset s a)); [lia|].
  rewrite slice_from_offset. cbn [bind].
  replace (_ + _ - _) with (char_byte_offset (skipn (N.to_nat a) s) (b - a)) by lia.
  apply slice_to_offset.
Qed.

(** ** Counts *)
Lemma trunc_whole : forall x, Z.max 0 (trunc_Z x) = whole x.
Proof.
  intros [s|s| |s m e]; auto. unfold trunc_Z, whole.
  destruct s; destruct (Z.leb_spec 0 e).
  - assert (0 < 2 ^ e)%Z by (apply Z.pow_pos_nonneg; lia). nia.
  - assert (0 <= Zpos m / 2 ^ (- e))%Z by (apply Z.div_pos; [lia|apply Z.pow_pos_nonneg; lia]). lia.
  - assert (0 < 2 ^ e)%Z by (apply Z.pow_pos_nonneg; lia). nia.
  - assert (0 <= Zpos m / 2 ^ (- e))%Z by (apply Z.div_pos; [lia|apply Z.pow_pos_nonneg; lia]). lia.
Qed.
Lemma whole_nonneg : forall x, (0 <= whole x)%Z.
Proof. intros. rewrite <- trunc_whole. lia. Qed.
Definition cap : Z := 18446744073709551615.
Lemma as_usize_whole : forall x, x <> f_inf -> as_usize x = Z.to_N (Z.min cap (whole x)).
Proof.
  intros x Hx. unfold as_usize, f_to_usize, f_to_int. change (2 ^ 64 - 1)%Z with cap.
  pose proof (trunc_whole x) as H.
  destruct x as [s|s| |s m e]; auto.
  - destruct s; auto. now destruct Hx.
  - f_equal. rewrite <- H. unfold cap. lia.
Qed.
Lemma take_count_whole : forall x, take_count x = Z.to_N (Z.min cap (whole x)).
Proof.
  intros x. unfold take_count. destruct x as [s|s| |s m e]; auto.
  destruct s; simpl; auto. apply as_usize_whole. discriminate.
Qed.
Lemma first_capped : forall s n, fits s -> (0 <= n)%Z -> firstn (N.to_nat (Z.to_N (Z.min cap n))) s = first_chars n s.
Proof.
  unfold fits, size, first_chars, cap. intros s n H Hn.
  destruct (Z.min_spec 18446744073709551615 n) as [[? ->]|[? ->]].
  - rewrite !firstn_all2; auto; lia.
  - f_equal. lia.
Qed.
Lemma after_capped : forall s n, fits s -> (0 <= n)%Z -> skipn (N.to_nat (Z.to_N (Z.min cap n))) s = after_chars n s.
Proof.
  unfold fits, size, after_chars, cap. intros s n H Hn.
  destruct (Z.min_spec 18446744073709551615 n) as [[? ->]|[? ->]].
  - rewrite !skipn_all2; auto; lia.
  - f_equal. lia.
Qed.

(** ** Splitting and joining *)
Lemma join_joined : forall sep parts, joined sep parts (join sep parts).
Proof.
  induction parts as [|p ps IH]; [constructor|]. destruct ps; [constructor|]. cbn [join]. now constructor.
Qed.
Lemma joined_join : forall sep parts s, joined sep parts s -> s = join sep parts.
Proof. induction 1; auto. subst. reflexivity. Qed.

Lemma split_skip : forall pat k s, (k <= length s)%nat -> split_aux pat k s = split_aux pat 0 (skipn k s).
Proof.
  induction k as [|k IH]; intros s H; auto. destruct s as [|c r]; simpl in *; [lia|]. apply IH. lia.
Qed.
Lemma split_aux_nonempty : forall pat k s, split_aux pat k s <> [].
Proof.
  intros pat k s. revert k. induction s as [|c r IH]; intros [|k]; simpl; try discriminate; auto.
  destruct (starts_with pat (c :: r)); try discriminate. destruct (split_aux pat 0 r); discriminate.
Qed.
Lemma cons_head_join : forall sep c parts, parts <> [] -> join sep (cons_head c parts) = c :: join sep parts.
Proof. intros sep c [|h [|h2 t]] H; try congruence; reflexivity. Qed.
Lemma join_cons_nil : forall sep parts, parts <> [] -> join sep ([] :: parts) = sep ++ join sep parts.
Proof. intros sep [|h t] H; try congruence; reflexivity. Qed.
Lemma join_split_aux : forall pat, pat <> [] -> forall n s, (length s <= n)%nat -> join pat (split_aux pat 0 s) = s.
Proof.
  intros pat Hp. induction n as [|n IH]; intros s Hs.
  - destruct s; auto. simpl in Hs. lia.
  - destruct s as [|c r]; auto. cbn [split_aux]. simpl in Hs.
    destruct (starts_with pat (c :: r)) eqn:E.
    + apply starts_with_spec in E as (t & E). destruct pat as [|p pat]; [congruence|].
      injection E as <- ->. simpl pred.
      rewrite split_skip by (rewrite app_length; lia).
      rewrite skipn_app, skipn_all, Nat.sub_diag. cbn [app skipn].
      rewrite join_cons_nil by apply split_aux_nonempty.
      rewrite IH; [reflexivity|]. rewrite app_length in Hs. lia.
    + rewrite cons_head_join by apply split_aux_nonempty. f_equal. apply IH. lia.
Qed.
Lemma split_aux_part : forall pat p rest, pat <> [] ->
  (forall a b, p ++ removelast pat <> a ++ pat ++ b) ->
  split_aux pat 0 (p ++ pat ++ rest) = p :: split_aux pat 0 rest.
Proof.
  intros pat p rest Hp. induction p as [|c p IH]; intros H.
  - destruct pat as [|x pat]; [congruence|]. cbn [app split_aux].
    assert (E : starts_with (x :: pat) (x :: pat ++ rest) = true) by (apply starts_with_spec; now exists rest).
    rewrite E. simpl pred. rewrite split_skip by (rewrite app_length; lia).
    rewrite skipn_app, skipn_all, Nat.sub_diag. reflexivity.
  - cbn [app split_aux].
    destruct (starts_with pat (c :: p ++ pat ++ rest)) eqn:E.
    + exfalso. apply starts_with_spec in E as (t & E).
      destruct (exists_last Hp) as (init & z & Hz). rewrite Hz in H, E. rewrite removelast_last in H.
      (* the occurrence ends within p ++ init *)
      assert (E2 : c :: p ++ (init ++ [z]) ++ rest = (c :: p ++ init) ++ z :: rest).
      { simpl. rewrite <- !app_assoc. reflexivity. }
      rewrite E2 in E.
      assert (L : firstn (length (init ++ [z])) ((c :: p ++ init) ++ z :: rest) = init ++ [z]).
      { rewrite E. rewrite firstn_app, firstn_all, Nat.sub_diag. simpl. apply app_nil_r. }
      rewrite firstn_app in L.
      replace (length (init ++ [z]) - length (c :: p ++ init))%nat with 0%nat in L
        by (simpl; rewrite !app_length; simpl; lia).
      simpl firstn in L at 2. rewrite app_nil_r in L.
      apply (H [] (skipn (length (init ++ [z])) ((c :: p) ++ init))).
      simpl app at 2. rewrite <- L at 1. change ((c :: p) ++ init) with (c :: p ++ init).
      now rewrite firstn_skipn.
    + rewrite IH; auto. intros a b Hab. apply (H (c :: a) b). simpl. now rewrite Hab.
Qed.
Lemma split_aux_last : forall pat p, pat <> [] -> ~ occurs pat p -> split_aux pat 0 p = [p].
Proof.
  intros pat p Hp. induction p as [|c p IH]; intros H; auto. cbn [split_aux].
  destruct (starts_with pat (c :: p)) eqn:E.
  - apply starts_with_spec in E as (t & E). destruct H. exists [], t. auto.
  - rewrite IH; auto. intros (a & b & Hab). apply H. exists (c :: a), b. simpl. now rewrite Hab.
Qed.
Lemma split_join_aux : forall pat parts, pat <> [] -> parts <> [] ->
  Forall (fun p => forall a b, p ++ removelast pat <> a ++ pat ++ b) parts ->
  split_aux pat 0 (join pat parts) = parts.
Proof.
  intros pat parts Hp Hn H. induction H as [|p ps Hp1 Hps IH]; [congruence|].
  destruct ps as [|q ps].
  - cbn [join]. apply split_aux_last; auto. intros (a & b & ->).
    apply (Hp1 a (b ++ removelast pat)). now rewrite <- !app_assoc.
  - cbn [join]. rewrite split_aux_part by auto. f_equal. apply IH. discriminate.
Qed.

(** ** Replacing *)
Lemma replace_skip : forall pat repl k s, (k <= length s)%nat ->
  replace_aux pat repl k s = replace_aux pat repl 0 (skipn k s).
Proof.
  induction k as [|k IH]; intros s H; auto. destruct s as [|c r]; simpl in *; [lia|]. apply IH. lia.
Qed.
Lemma substituted_cons : forall old new c s out, starts_with old (c :: s) = false ->
  substituted old new s out -> substituted old new (c :: s) (c :: out).
Proof.
  intros old new c s out E H. inversion H as [s' Hn|a b out' Hf Hb]; subst.
  - apply no_occurrence. intros (a & b & Hab). destruct a as [|x a].
    + assert (starts_with old (c :: out) = true) by (apply starts_with_spec; eauto). congruence.
    + apply Hn. injection Hab as -> ->. now exists a, b.
  - change (c :: a ++ old ++ b) with ((c :: a) ++ old ++ b).
    change (c :: a ++ new ++ out') with ((c :: a) ++ new ++ out').
    apply first_occurrence; auto. intros a' b' Hab. destruct a' as [|x a'].
    + assert (starts_with old (c :: a ++ old ++ b) = true).
      { apply starts_with_spec. exists b'. exact Hab. }
      congruence.
    + injection Hab as -> Hab. simpl. apply Hf in Hab. lia.
Qed.
Lemma replace_substituted : forall old new, old <> [] -> forall n s, (length s <= n)%nat ->
  substituted old new s (replace_aux old new 0 s).
Proof.
  intros old new Ho. induction n as [|n IH]; intros s Hs.
  - destruct s; [|simpl in Hs; lia]. apply no_occurrence. intros (a & b & Hab).
    destruct a; [|discriminate]. destruct old; [congruence|discriminate].
  - destruct s as [|c r].
    + apply no_occurrence. intros (a & b & Hab). destruct a; [|discriminate]. destruct old; [congruence|discriminate].
    + cbn [replace_aux]. simpl in Hs. destruct (starts_with old (c :: r)) eqn:E.
      * apply starts_with_spec in E as (t & E). destruct old as [|x old]; [congruence|].
        injection E as <- ->. simpl pred. rewrite replace_skip by (rewrite app_length; lia).
        rewrite skipn_app, skipn_all, Nat.sub_diag. cbn [app skipn].
        change (c :: old ++ t) with ([] ++ (c :: old) ++ t).
        change (new ++ replace_aux (c :: old) new 0 t) with ([] ++ new ++ replace_aux (c :: old) new 0 t).
        apply first_occurrence; [simpl; lia|]. apply IH. rewrite app_length in Hs. lia.
      * apply substituted_cons; auto. apply IH. lia.
Qed.
Lemma substituted_functional : forall old new s o1, old <> [] -> substituted old new s o1 ->
  forall o2, substituted old new s o2 -> o1 = o2.
Proof.
  intros old new s o1 Ho H. induction H as [s Hn|a b out Hf Hb IH]; intros o2 H2.
  - inversion H2 as [|a b out Hf Hb]; subst; auto. destruct Hn. now exists a, b.
  - inversion H2 as [s' Hn|a' b' out' Hf' Hb' Heq]; subst.
    + destruct Hn. now exists a, b.
    + pose proof (Hf _ _ (eq_sym Heq)) as L1. pose proof (Hf' _ _ Heq) as L2.
      assert (length a = length a') by lia.
      assert (a = a' /\ old ++ b = old ++ b') as [-> Hb2].
      { clear -H Heq. revert a' H Heq. induction a as [|x a IH]; intros [|y a'] H Heq; simpl in *; try discriminate; auto.
        injection Heq as -> Heq. destruct (IH a') as [-> ?]; auto. }
      apply app_inv_head in Hb2. subst. f_equal. f_equal. auto.
Qed.

Lemma cut_cons : forall sep c s parts, starts_with sep (c :: s) = false ->
  cut_at sep s parts -> cut_at sep (c :: s) (cons_head c parts).
Proof.
  intros sep c s parts E H. inversion H as [s' Hn|a b ps Hf Hb]; subst; cbn [cons_head].
  - apply no_cut. intros (a & b & Hab). destruct a as [|x a].
    + assert (starts_with sep (c :: s) = true) by (apply starts_with_spec; eauto). congruence.
    + apply Hn. injection Hab as -> ->. now exists a, b.
  - change (c :: a ++ sep ++ b) with ((c :: a) ++ sep ++ b).
    apply first_cut; auto. intros a' b' Hab. destruct a' as [|x a'].
    + assert (starts_with sep (c :: a ++ sep ++ b) = true).
      { apply starts_with_spec. exists b'. exact Hab. }
      congruence.
    + injection Hab as -> Hab. simpl. apply Hf in Hab. lia.
Qed.
Lemma split_cut : forall sep, sep <> [] -> forall n s, (length s <= n)%nat -> cut_at sep s (split_aux sep 0 s).
Proof.
  intros sep Ho. induction n as [|n IH]; intros s Hs.
  - destruct s; [|simpl in Hs; lia]. apply no_cut. intros (a & b & Hab).
    destruct a; [|discriminate]. destruct sep; [congruence|discriminate].
  - destruct s as [|c r].
    + apply no_cut. intros (a & b & Hab). destruct a; [|discriminate]. destruct sep; [congruence|discriminate].
    + cbn [split_aux]. simpl in Hs. destruct (starts_with sep (c :: r)) eqn:E.
      * apply starts_with_spec in E as (t & E). destruct sep as [|x sep]; [congruence|].
        injection E as <- ->. simpl pred. rewrite split_skip by (rewrite app_length; lia).
        rewrite skipn_app, skipn_all, Nat.sub_diag. cbn [app skipn].
        change (c :: sep ++ t) with ([] ++ (c :: sep) ++ t).
        apply first_cut; [simpl; lia|]. apply IH. rewrite app_length in Hs. lia.
      * apply cut_cons; auto. apply IH. lia.
Qed.
Lemma cut_functional : forall sep s p1, sep <> [] -> cut_at sep s p1 -> forall p2, cut_at sep s p2 -> p1 = p2.
Proof.
  intros sep s p1 Ho H. induction H as [s Hn|a b out Hf Hb IH]; intros o2 H2.
  - inversion H2 as [|a b out Hf Hb]; subst; auto. destruct Hn. now exists a, b.
  - inversion H2 as [s' Hn|a' b' out' Hf' Hb' Heq]; subst.
    + destruct Hn. now exists a, b.
    + pose proof (Hf _ _ (eq_sym Heq)) as L1. pose proof (Hf' _ _ Heq) as L2.
      assert (length a = length a') by lia.
      assert (a = a' /\ sep ++ b = sep ++ b') as [-> Hb2].
      { clear -H Heq. revert a' H Heq. induction a as [|x a IH]; intros [|y a'] H Heq; simpl in *; try discriminate; auto.
        injection Heq as -> Heq. destruct (IH a') as [-> ?]; auto. }
      apply app_inv_head in Hb2. subst. f_equal. auto.
Qed.

(** ** The calls *)
Section Calls.
  Context {X : Ext}.
  Ltac builtin name vs :=
    rewrite (call_builtin name _ vs); [| reflexivity | assumption | repeat constructor; assumption].

  Lemma left_call : forall c e d s x, uncustomised c "LEFT" -> fits s ->
    eval e c = Ok (VString s) -> eval d c = Ok (VNumber x) ->
    eval (call "LEFT" [e; d]) c = Ok (VString (first_chars (whole x) s)).
  Proof.
    intros c e d s x Hu Hf He Hd. builtin "LEFT"%string [VString s; VNumber x].
    change (fn_left [VString s; VNumber x] = Ok (VString (first_chars (whole x) s))).
    unfold fn_left. cbn [count_arg nth_error bind]. rewrite slice_to_offset. cbn [bind].
    rewrite take_count_whole, first_capped; auto using whole_nonneg.
  Qed.
  Lemma right_call : forall c e d s x, uncustomised c "RIGHT" -> fits s ->
    eval e c = Ok (VString s) -> eval d c = Ok (VNumber x) ->
    eval (call "RIGHT" [e; d]) c = Ok (VString (after_chars (size s - whole x) s)).
  Proof.
    intros c e d s x Hu Hf He Hd. builtin "RIGHT"%string [VString s; VNumber x].
    change (fn_right [VString s; VNumber x] = Ok (VString (after_chars (size s - whole x) s))).
    unfold fn_right. cbn [count_arg nth_error bind]. rewrite slice_from_offset. cbn [bind].
    rewrite take_count_whole. unfold after_chars. do 3 f_equal.
    unfold char_count, fits, size, cap in *. pose proof (whole_nonneg x). lia.
  Qed.
  Lemma left_right_default : forall c e s, uncustomised c "LEFT" -> uncustomised c "RIGHT" -> fits s ->
    eval e c = Ok (VString s) ->
    eval (call "LEFT" [e]) c = Ok (VString (first_chars 1 s))
    /\ eval (call "RIGHT" [e]) c = Ok (VString (after_chars (size s - 1) s)).
  Proof.
    intros c e s Hu1 Hu2 Hf He. split.
    - builtin "LEFT"%string [VString s].
      change (fn_left [VString s] = Ok (VString (first_chars 1 s))).
      unfold fn_left. cbn [count_arg nth_error bind]. rewrite slice_to_offset. reflexivity.
    - builtin "RIGHT"%string [VString s].
      change (fn_right [VString s] = Ok (VString (after_chars (size s - 1) s))).
      unfold fn_right. cbn [count_arg nth_error bind]. rewrite slice_from_offset. cbn [bind].
      unfold after_chars. do 3 f_equal. change (take_count f_one) with 1.
      unfold char_count, size. lia.
  Qed.
  Lemma substring_call : forall c e d l s x y, uncustomised c "SUBSTRING" -> fits s ->
    eval e c = Ok (VString s) -> eval d c = Ok (VNumber x) -> eval l c = Ok (VNumber y) ->
    x <> f_inf -> y <> f_inf ->
    eval (call "SUBSTRING" [e; d]) c = Ok (VString (after_chars (whole x) s))
    /\ eval (call "SUBSTRING" [e; d; l]) c = Ok (VString (first_chars (whole y) (after_chars (whole x) s))).
  Proof.
    intros c e d l s x y Hu Hf He Hd Hl Hx Hy.
    assert (Hb : fits (after_chars (whole x) s)).
    { unfold fits, size, after_chars in *. rewrite skipn_length. lia. }
    pose proof (whole_nonneg x). pose proof (whole_nonneg y).
    split.
    - builtin "SUBSTRING"%string [VString s; VNumber x].
      change (fn_substring [VString s; VNumber x] = Ok (VString (after_chars (whole x) s))).
      unfold fn_substring. rewrite as_usize_whole by auto.
      destruct (N.leb_spec (char_count s) (N.min (Z.to_N (Z.min cap (whole x))) (char_count s))).
      + unfold after_chars. rewrite skipn_all2; auto. unfold char_count, cap, fits, size in *. lia.
      + rewrite slice_range_offset by lia. cbn [bind]. do 2 f_equal. unfold after_chars.
        rewrite firstn_all2. 2: { rewrite skipn_length. unfold char_count in *. lia. }
        f_equal. unfold char_count, cap, fits, size in *. lia.
    - builtin "SUBSTRING"%string [VString s; VNumber x; VNumber y].
      change (fn_substring [VString s; VNumber x; VNumber y] = Ok (VString (first_chars (whole y) (after_chars (whole x) s)))).
      unfold fn_substring. rewrite !as_usize_whole by auto.
      destruct (N.leb_spec (char_count s) (N.min (Z.to_N (Z.min cap (whole x))) (char_count s))).
      + unfold after_chars, first_chars. rewrite (skipn_all2 s). now rewrite firstn_nil.
        unfold char_count, cap, fits, size in *. lia.
      + rewrite slice_range_offset by lia. cbn [bind]. do 2 f_equal. unfold after_chars, first_chars.
        replace (N.to_nat (N.min (Z.to_N (Z.min cap (whole x))) (char_count s))) with (Z.to_nat (whole x))
          by (unfold char_count, cap, fits, size in *; lia).
        unfold sat_add, usize_max.
        destruct (Z_le_gt_dec (whole x + whole y) (size s)).
        * f_equal. unfold char_count, cap, fits, size in *. lia.
        * rewrite !firstn_all2; auto; rewrite skipn_length; unfold char_count, cap, fits, size in *; lia.
  Qed.

  (** the 0-based start of MID and REPLACE *)
  Lemma one_based_start : forall x, representable x -> is_finite x = true ->
    as_usize (if f_ltb x f_one then f_one else f_floor x) - 1 = Z.to_N (Z.min cap (Z.max 1 (whole x)) - 1).
  Proof.
    intros x Hr Hf. destruct x as [s|s| |s m e]; try discriminate.
    - reflexivity.
    - destruct s.
      + reflexivity.
      + rewrite f_ltb_one by auto.
        assert (Ht : trunc_Z (S754_finite false m e) = whole (S754_finite false m e)).
        { unfold trunc_Z, whole. reflexivity. }
        destruct (Z.ltb_spec (trunc_Z (S754_finite false m e)) 1).
        * rewrite Ht in *. change (as_usize f_one - 1) with 0. unfold cap. lia.
        * unfold as_usize, f_to_usize, f_to_int.
          pose proof (trunc_floor_pos m e Hr) as HF. pose proof (floor_finite _ Hf Hr) as HFin.
          destruct (f_floor (S754_finite false m e)) as [sf|sf| |sf mf ef]; try discriminate;
            rewrite HF, Ht in *; change (2 ^ 64 - 1)%Z with cap; unfold cap; lia.
  Qed.
  Lemma mid_call : forall c e d l s x y, uncustomised c "MID" -> fits s ->
    eval e c = Ok (VString s) -> eval d c = Ok (VNumber x) -> eval l c = Ok (VNumber y) ->
    representable x -> is_finite x = true ->
    eval (call "MID" [e; d]) c = Ok (VString (after_chars (Z.max 1 (whole x) - 1) s))
    /\ eval (call "MID" [e; d; l]) c = Ok (VString (first_chars (whole y) (after_chars (Z.max 1 (whole x) - 1) s))).
  Proof.
    intros c e d l s x y Hu Hf He Hd Hl Hr Hfin.
    pose proof (whole_nonneg x). pose proof (whole_nonneg y).
    split.
    - builtin "MID"%string [VString s; VNumber x].
      change (exec_builtin_fast (lit "MID") [VString s; VNumber x]) with (fn_mid [VString s; VNumber x]).
      unfold fn_mid. cbn [bind]. rewrite Hfin, one_based_start by auto.
      set (st := N.min (Z.to_N (Z.min cap (Z.max 1 (whole x)) - 1)) (char_count s)).
      destruct ((char_count s <=? st) || (char_count s <=? st)) eqn:E.
      + apply orb_true_iff in E. assert (char_count s <= st) by (destruct E as [E|E]; now apply N.leb_le in E).
        unfold after_chars. rewrite skipn_all2; auto. subst st. unfold char_count, cap, fits, size in *. lia.
      + apply orb_false_iff in E as [E _]. apply N.leb_gt in E. subst st.
        rewrite slice_range_offset by lia. cbn [bind]. do 2 f_equal. unfold after_chars.
        rewrite firstn_all2. 2: { rewrite skipn_length. unfold char_count in *. lia. }
        f_equal. unfold char_count, cap, fits, size in *. lia.
    - builtin "MID"%string [VString s; VNumber x; VNumber y].
      change (exec_builtin_fast (lit "MID") [VString s; VNumber x; VNumber y]) with (fn_mid [VString s; VNumber x; VNumber y]).
      unfold fn_mid. cbn [bind]. rewrite Hfin, one_based_start by auto. rewrite take_count_whole.
      set (st := N.min (Z.to_N (Z.min cap (Z.max 1 (whole x)) - 1)) (char_count s)).
      set (en := N.min (sat_add st (Z.to_N (Z.min cap (whole y)))) (char_count s)).
      destruct ((char_count s <=? st) || (en <=? st)) eqn:E.
      + apply orb_true_iff in E. unfold first_chars, after_chars. destruct E as [E|E]; apply N.leb_le in E.
        * rewrite (skipn_all2 s), firstn_nil; auto. subst st. unfold char_count, cap, fits, size in *. lia.
        * destruct (N.le_gt_cases (char_count s) st).
          -- rewrite (skipn_all2 s), firstn_nil; auto. subst st. unfold char_count, cap, fits, size in *. lia.
          -- replace (Z.to_nat (whole y)) with 0%nat; auto.
             subst st en. unfold sat_add, usize_max, char_count, cap, fits, size in *. lia.
      + apply orb_false_iff in E as [E E2]. apply N.leb_gt in E, E2.
        rewrite slice_range_offset by lia. cbn [bind]. do 2 f_equal. unfold after_chars, first_chars.
        replace (N.to_nat st) with (Z.to_nat (Z.max 1 (whole x) - 1))
          by (subst st; unfold char_count, cap, fits, size in *; lia).
        destruct (Z_le_gt_dec (Z.max 1 (whole x) - 1 + whole y) (size s)).
        * f_equal. subst st en. unfold sat_add, usize_max, char_count, cap, fits, size in *. lia.
        * subst st en. rewrite !firstn_all2; auto; rewrite skipn_length;
            unfold sat_add, usize_max, char_count, cap, fits, size in *; lia.
  Qed.
  Lemma replace_call : forall c e d l n s x y t, uncustomised c "REPLACE" -> fits s ->
    eval e c = Ok (VString s) -> eval d c = Ok (VNumber x) -> eval l c = Ok (VNumber y) -> eval n c = Ok (VString t) ->
    representable x -> is_finite x = true -> representable y ->
    eval (call "REPLACE" [e; d; l; n]) c =
      Ok (VString (first_chars (Z.max 1 (whole x) - 1) s ++ t ++ after_chars (Z.max 1 (whole x) - 1 + whole y) s)).
  Proof.
    intros c e d l n s x y t Hu Hf He Hd Hl Hn Hr Hfin Hry.
    pose proof (whole_nonneg x). pose proof (whole_nonneg y).
    builtin "REPLACE"%string [VString s; VNumber x; VNumber y; VString t].
    change (exec_builtin_fast (lit "REPLACE") [VString s; VNumber x; VNumber y; VString t])
      with (fn_replace [VString s; VNumber x; VNumber y; VString t]).
    unfold fn_replace. rewrite Hfin.
    assert (Hst : as_usize (f_max (f_floor x) f_one) - 1 = Z.to_N (Z.min cap (Z.max 1 (whole x)) - 1)).
    { pose proof (floor_finite _ Hfin Hr) as HFin.
      destruct x as [sx|sx| |sx m ex]; try discriminate.
      - reflexivity.
      - destruct sx.
        + (* negative: the floor is negative *)
          assert (f_max (f_floor (S754_finite true m ex)) f_one = f_one) as ->; [|reflexivity].
          unfold f_floor. destruct (0 <=? ex)%Z eqn:E; [reflexivity|].
          unfold f_of_Z_signed. unfold signed.
          destruct (Zneg m / 2 ^ (- ex))%Z eqn:Q; try reflexivity.
          * exfalso. apply Z.leb_gt in E.
            assert (Zneg m / 2 ^ (- ex) < 0)%Z.
            { apply Z.div_lt_upper_bound; [apply Z.pow_pos_nonneg|]; lia. }
            lia.
          * destruct (representable_digits _ _ _ Hr) as (R1 & R2 & R3). apply Z.leb_gt in E.
            assert (- Zpos m <= Zneg m / 2 ^ (- ex))%Z.
            { apply Z.div_le_lower_bound; [apply Z.pow_pos_nonneg; lia|].
              assert (1 <= 2 ^ (- ex))%Z by (assert (0 < 2 ^ (- ex))%Z by (apply Z.pow_pos_nonneg; lia); lia).
              change (Zneg m) with (- Zpos m)%Z. nia. }
            rewrite f_of_Z_neg by lia. reflexivity.
        + rewrite <- one_based_start by auto. f_equal. f_equal.
          rewrite f_ltb_one by auto.
          assert (Ht : trunc_Z (S754_finite false m ex) = whole (S754_finite false m ex)) by reflexivity.
          unfold f_floor. destruct (0 <=? ex)%Z eqn:E.
          * (* already integral *)
            assert (1 <= trunc_Z (S754_finite false m ex))%Z.
            { unfold trunc_Z. rewrite E. apply Z.leb_le in E.
              assert (0 < 2 ^ ex)%Z by (apply Z.pow_pos_nonneg; lia). nia. }
            assert (HL := f_ltb_one m ex Hr).
            destruct (Z.ltb_spec (trunc_Z (S754_finite false m ex)) 1); [lia|].
            unfold f_max. change f_one with (S754_finite false 4503599627370496 (-52)) in *.
            rewrite HL. reflexivity.
          * destruct (representable_digits _ _ _ Hr) as (R1 & R2 & R3). apply Z.leb_gt in E.
            assert (HQ : trunc_Z (S754_finite false m ex) = (Zpos m / 2 ^ (- ex))%Z).
            { unfold trunc_Z. destruct (Z.leb_spec 0 ex); auto; lia. }
            rewrite HQ. unfold signed.
            assert (0 <= Zpos m / 2 ^ (- ex) < 2 ^ 53)%Z.
            { assert (0 < 2 ^ (- ex))%Z by (apply Z.pow_pos_nonneg; lia).
              split; [apply Z.div_pos; lia|]. apply Z.div_lt_upper_bound; nia. }
            unfold f_of_Z_signed. destruct (Zpos m / 2 ^ (- ex))%Z as [|q|q] eqn:Q; try lia.
            -- reflexivity.
            -- destruct (Z.ltb_spec (Zpos q) 1); [lia|].
               unfold f_max. pose proof (f_ltb_of_Z (Zpos q) 1) as HL.
               rewrite f_of_Z_pos in * by lia. change f_one with (f_of_Z 1).
               rewrite HL by lia. change (f_of_Z 1) with (S754_finite false 4503599627370496 (-52)).
               destruct (Z.ltb_spec (Zpos q) 1); [lia|reflexivity]. }
    rewrite Hst.
    assert (Htk : (if is_finite y && f_ltb f_zero y then as_usize (f_floor y) else 0) = Z.to_N (Z.min cap (whole y))).
    { destruct y as [sy|sy| |sy m ey]; try reflexivity. destruct sy; [reflexivity|].
      simpl is_finite. change (f_ltb f_zero (S754_finite false m ey)) with true. cbn [andb].
      pose proof (trunc_floor_pos m ey Hry) as HF. pose proof (floor_finite (S754_finite false m ey) eq_refl Hry) as HFin.
      unfold as_usize, f_to_usize, f_to_int.
      assert (Ht : trunc_Z (S754_finite false m ey) = whole (S754_finite false m ey)) by reflexivity.
      destruct (f_floor (S754_finite false m ey)) as [sf|sf| |sf mf ef]; try discriminate;
        rewrite HF, Ht in *; change (2 ^ 64 - 1)%Z with cap; unfold cap; lia. }
    rewrite Htk. rewrite slice_to_offset, slice_from_offset. cbn [bind]. do 2 f_equal.
    unfold first_chars, after_chars. f_equal; [|f_equal].
    - destruct (Z_le_gt_dec (Z.max 1 (whole x) - 1) (size s)).
      + f_equal. unfold char_count, cap, fits, size in *. lia.
      + rewrite !firstn_all2; auto; unfold char_count, cap, fits, size in *; lia.
    - destruct (Z_le_gt_dec (Z.max 1 (whole x) - 1 + whole y) (size s)).
      + f_equal. unfold sat_add, usize_max, char_count, cap, fits, size in *. lia.
      + rewrite !skipn_all2; auto; unfold sat_add, usize_max, char_count, cap, fits, size in *; lia.
  Qed.
  Lemma left_substring_concat : forall c e d s x,
    uncustomised c "LEFT" -> uncustomised c "SUBSTRING" -> uncustomised c "CONCAT" -> fits s ->
    eval e c = Ok (VString s) -> eval d c = Ok (VNumber x) -> x <> f_inf ->
    eval (call "CONCAT" [call "LEFT" [e; d]; call "SUBSTRING" [e; d]]) c = Ok (VString s).
  Proof.
    intros c e d s x H1 H2 H3 Hf He Hd Hx.
    pose proof (left_call c e d s x H1 Hf He Hd) as HL.
    destruct (substring_call c e d d s x x H2 Hf He Hd Hd Hx Hx) as [HS _].
    rewrite (call_builtin "CONCAT" _ [VString (first_chars (whole x) s); VString (after_chars (whole x) s)]); auto.
    2: { repeat constructor; auto. }
    change (Ok (VString (first_chars (whole x) s ++ after_chars (whole x) s ++ [])) = Ok (VString s)).
    rewrite app_nil_r. unfold first_chars, after_chars. now rewrite firstn_skipn.
  Qed.
  Lemma left_covers : forall s x, (size s <= whole x)%Z -> first_chars (whole x) s = s.
  Proof. intros. unfold first_chars, size in *. apply firstn_all2. lia. Qed.

  Lemma split_joined : forall c e d s sep, uncustomised c "SPLIT" -> sep <> [] ->
    eval e c = Ok (VString s) -> eval d c = Ok (VString sep) ->
    exists parts, eval (call "SPLIT" [e; d]) c = Ok (VArray (map VString parts)) /\ cut_at sep s parts /\ joined sep parts s.
  Proof.
    intros c e d s sep Hu Hs He Hd. exists (split_str sep s). split; [|split].
    - builtin "SPLIT"%string [VString s; VString sep]. reflexivity.
    - unfold split_str. destruct sep; [congruence|]. eapply split_cut; eauto.
    - assert (H : join sep (split_str sep s) = s).
      { unfold split_str. destruct sep; [congruence|]. eapply join_split_aux; eauto. }
      pose proof (join_joined sep (split_str sep s)) as J. now rewrite H in J.
  Qed.
  Lemma join_call : forall c e d parts sep, uncustomised c "JOIN" ->
    eval e c = Ok (VArray (map VString parts)) -> eval d c = Ok (VString sep) ->
    exists s, eval (call "JOIN" [e; d]) c = Ok (VString s) /\ joined sep parts s.
  Proof.
    intros c e d parts sep Hu He Hd. exists (join sep parts). split; [|apply join_joined].
    builtin "JOIN"%string [VArray (map VString parts); VString sep].
    change (fn_join [VArray (map VString parts); VString sep] = Ok (VString (join sep parts))).
    unfold fn_join. rewrite mapM_map. rewrite (mapM_pure _ _ _ (fun p => p)) by auto. now rewrite map_id.
  Qed.
  Lemma join_split : forall c e d s sep, uncustomised c "SPLIT" -> uncustomised c "JOIN" -> sep <> [] ->
    eval e c = Ok (VString s) -> eval d c = Ok (VString sep) ->
    eval (call "JOIN" [call "SPLIT" [e; d]; d]) c = Ok (VString s).
  Proof.
    intros c e d s sep Hu Hu2 Hs He Hd.
    destruct (split_joined c e d s sep Hu Hs He Hd) as (parts & HS & _ & HJ).
    destruct (join_call c (call "SPLIT" [e; d]) d parts sep Hu2 HS Hd) as (s' & H & HJ').
    rewrite H. apply joined_join in HJ, HJ'. congruence.
  Qed.
  Lemma split_join : forall c e d parts sep, uncustomised c "SPLIT" -> uncustomised c "JOIN" -> sep <> [] -> parts <> [] ->
    Forall (fun p => ~ occurs sep (p ++ removelast sep)) parts ->
    eval e c = Ok (VArray (map VString parts)) -> eval d c = Ok (VString sep) ->
    eval (call "SPLIT" [call "JOIN" [e; d]; d]) c = Ok (VArray (map VString parts)).
  Proof.
    intros c e d parts sep Hu Hu2 Hs Hp Hf He Hd.
    destruct (join_call c e d parts sep Hu2 He Hd) as (s' & H & HJ).
    builtin "SPLIT"%string [VString s'; VString sep].
    change (Ok (VArray (map VString (split_str sep s'))) = Ok (VArray (map VString parts))).
    apply joined_join in HJ. subst s'. unfold split_str. destruct sep; [congruence|].
    rewrite split_join_aux; auto.
    eapply Forall_impl; [|exact Hf]. intros p Hn a b Hab. apply Hn. now exists a, b.
  Qed.
  Lemma split_join_char : forall c e d parts k, uncustomised c "SPLIT" -> uncustomised c "JOIN" -> parts <> [] ->
    Forall (fun p => ~ In k p) parts ->
    eval e c = Ok (VArray (map VString parts)) -> eval d c = Ok (VString [k]) ->
    eval (call "SPLIT" [call "JOIN" [e; d]; d]) c = Ok (VArray (map VString parts)).
  Proof.
    intros c e d parts k Hu Hu2 Hp Hf He Hd. apply split_join with [k]; auto; [discriminate|].
    eapply Forall_impl; [|exact Hf]. simpl. intros p Hn (a & b & Hab). apply Hn.
    rewrite app_nil_r in Hab. rewrite Hab. apply in_app_iff. simpl. auto.
  Qed.
  Lemma substitute_call : forall name c e o n s old new, name = "SUBSTITUTE"%string \/ name = "SUBSTITUTEM"%string ->
    uncustomised c name -> old <> [] ->
    eval e c = Ok (VString s) -> eval o c = Ok (VString old) -> eval n c = Ok (VString new) ->
    exists out, eval (call name [e; o; n]) c = Ok (VString out) /\ substituted old new s out.
  Proof.
    intros name c e o n s old new Hn Hu Ho He Hol Hnw. exists (replace_str old new s). split.
    - rewrite (call_builtin name _ [VString s; VString old; VString new]); auto;
        try (repeat constructor; assumption); destruct Hn as [-> | ->]; reflexivity.
    - unfold replace_str. destruct old; [congruence|]. eapply replace_substituted; eauto.
  Qed.
End Calls.
