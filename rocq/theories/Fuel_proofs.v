(** More fuel never changes a result of the parser. *)
From Coq Require Import String List NArith Bool Lia ZArith.
From Verif Require Import Base F64 Utf8 Syntax Lexer Parser.
Import ListNotations.
Local Open Scope nat_scope.

Definition le_res {A} (r r' : pres A) : Prop := r = OutOfFuel \/ r = r'.
Lemma le_refl : forall A (r : pres A), le_res r r.
Proof. intros; now right. Qed.
Lemma le_out : forall A (r : pres A), le_res OutOfFuel r.
Proof. intros; now left. Qed.
Lemma le_bind : forall A B (r r' : pres A) (k k' : A -> pstate -> pres B),
  le_res r r' -> (forall a st, le_res (k a st) (k' a st)) -> le_res (pbind r k) (pbind r' k').
Proof.
  intros A B r r' k k' [-> | ->] H; [left; reflexivity|]. destruct r'; cbn; try (right; reflexivity). apply H.
Qed.
Ltac mono := repeat first
  [ apply le_refl | apply le_out | assumption
  | match goal with H : _ |- le_res (?f _) (?g _) => apply H end
  | match goal with H : _ |- le_res (?f _ _) (?g _ _) => apply H; lia end
  | match goal with H : _ |- le_res (?f _ _ _) (?g _ _ _) => apply H; lia end
  | (apply le_bind; [|intros ? ?])
  | match goal with |- le_res (match ?x with _ => _ end) (match ?x with _ => _ end) => destruct x end ].

Section Mono.
  Variables rec rec' : pstate -> pres expr.
  Hypothesis Hrec : forall st, le_res (rec st) (rec' st).
  Lemma p_arg_mono : forall st, le_res (p_arg rec st) (p_arg rec' st).
  Proof. intros st. unfold p_arg. mono. Qed.
  Lemma p_args_mono : forall n n' msg st, n <= n' -> le_res (p_args rec n msg st) (p_args rec' n' msg st).
  Proof.
    induction n as [|n IH]; intros n' msg st H; [apply le_out|]. destruct n' as [|n']; [lia|]. cbn [p_args].
    pose proof p_arg_mono. mono; try lia; apply IH; lia.
  Qed.
  Lemma p_args0_mono : forall n n' msg st, n <= n' -> le_res (p_args0 rec n msg st) (p_args0 rec' n' msg st).
  Proof. intros n n' msg st H. unfold p_args0. pose proof (p_args_mono n n' msg). mono; try lia; auto. Qed.
  Lemma p_items_mono : forall n n' st, n <= n' -> le_res (p_items rec n st) (p_items rec' n' st).
  Proof.
    induction n as [|n IH]; intros n' st H; [apply le_out|]. destruct n' as [|n']; [lia|]. cbn [p_items].
    mono; try lia; apply IH; lia.
  Qed.
  Lemma p_pairs_mono : forall n n' st, n <= n' -> le_res (p_pairs rec n st) (p_pairs rec' n' st).
  Proof.
    induction n as [|n IH]; intros n' st H; [apply le_out|]. destruct n' as [|n']; [lia|]. cbn [p_pairs].
    mono; try lia; apply IH; lia.
  Qed.
  Lemma p_atom_mono : forall n n' st, n <= n' -> le_res (p_atom rec n st) (p_atom rec' n' st).
  Proof.
    intros n n' st H. unfold p_atom. pose proof (fun st => p_args0_mono n n' "Expected ',' or ')' in argument list" st H).
    pose proof (fun st => p_items_mono n n' st H). pose proof (fun st => p_pairs_mono n n' st H). mono; try lia; auto.
  Qed.
  Lemma p_dot_mono : forall n n' node st, n <= n' -> le_res (p_dot rec n node st) (p_dot rec' n' node st).
  Proof.
    intros n n' node st H. unfold p_dot. pose proof (fun st => p_args0_mono n n' "Expected ',' or ')' in method args" st H). mono; try lia; auto.
  Qed.
  Lemma p_safe_mono : forall n n' node st, n <= n' -> le_res (p_safe rec n node st) (p_safe rec' n' node st).
  Proof.
    intros n n' node st H. unfold p_safe. pose proof (fun st => p_args0_mono n n' "Expected ',' or ')' in safe method args" st H). mono; try lia; auto.
  Qed.
  Lemma p_slice_end_mono : forall node s st, le_res (p_slice_end rec node s st) (p_slice_end rec' node s st).
  Proof. intros node s st. unfold p_slice_end. mono. Qed.
  Lemma p_index_mono : forall node st, le_res (p_index rec node st) (p_index rec' node st).
  Proof. intros node st. unfold p_index. pose proof p_slice_end_mono. mono; try lia; auto. Qed.
  Lemma p_postfix_mono : forall n n' node st, n <= n' -> le_res (p_postfix rec n node st) (p_postfix rec' n' node st).
  Proof.
    induction n as [|n IH]; intros n' node st H; [apply le_out|]. destruct n' as [|n']; [lia|]. cbn [p_postfix].
    destruct (look st); try apply le_refl; (apply le_bind; [apply le_refl|intros _ st1]).
    - apply le_bind; [apply p_dot_mono; lia|intros ? ?]. apply IH. lia.
    - apply le_bind; [apply p_safe_mono; lia|intros ? ?]. apply IH. lia.
    - apply le_bind; [apply p_index_mono; lia|intros ? ?]. apply IH. lia.
  Qed.
  Lemma p_cast_mono : forall n n' st, n <= n' -> le_res (p_cast rec n st) (p_cast rec' n' st).
  Proof.
    intros n n' st H. unfold p_cast. apply le_bind; [now apply p_atom_mono|intros a st0].
    apply le_bind; [now apply p_postfix_mono|intros b st1]. mono.
  Qed.
  Lemma p_unary_mono : forall n n' st, n <= n' -> le_res (p_unary rec n st) (p_unary rec' n' st).
  Proof.
    induction n as [|n IH]; intros n' st H; [apply le_out|]. destruct n' as [|n']; [lia|]. cbn [p_unary].
    assert (IH' : forall st, le_res (p_unary rec n st) (p_unary rec' n' st)) by (intros; apply IH; lia).
    destruct (unop_of (look st)); [mono; auto|].
    apply le_bind; [apply p_cast_mono; lia|intros a st1]. mono; try lia; auto.
  Qed.
  Lemma p_bin_loop_mono : forall sub sub' lvl n n' node st, (forall st, le_res (sub st) (sub' st)) -> n <= n' ->
    le_res (p_bin_loop sub lvl n node st) (p_bin_loop sub' lvl n' node st).
  Proof.
    induction n as [|n IH]; intros n' node st Hs H; [apply le_out|]. destruct n' as [|n']; [lia|]. cbn [p_bin_loop].
    destruct (binop_at lvl (look st)); [|apply le_refl]. apply le_bind; [apply le_refl|intros _ st1].
    apply le_bind; [apply Hs|intros ? ?]. apply IH; [assumption|lia].
  Qed.
  Lemma p_bin_mono : forall k n n' st, n <= n' -> le_res (p_bin rec n k st) (p_bin rec' n' k st).
  Proof.
    induction k as [|k IH]; intros n n' st H; cbn [p_bin]; [now apply p_unary_mono|].
    apply le_bind; [now apply IH|intros ? ?]. apply p_bin_loop_mono; [|assumption]. intros; now apply IH.
  Qed.
  Lemma p_ternary_mono : forall n n' st, n <= n' -> le_res (p_ternary rec n st) (p_ternary rec' n' st).
  Proof. intros n n' st H. unfold p_ternary. apply le_bind; [now apply p_bin_mono|intros ? ?]. mono. Qed.
  Lemma p_assignment_mono : forall n n' st, n <= n' -> le_res (p_assignment rec n st) (p_assignment rec' n' st).
  Proof.
    intros n n' st H. unfold p_assignment. pose proof (fun st => p_ternary_mono n n' st H). mono; try lia; auto.
  Qed.
End Mono.
Lemma p_expr_mono : forall f f' st, f <= f' -> le_res (p_expr f st) (p_expr f' st).
Proof.
  induction f as [|f IH]; intros f' st H; [apply le_out|]. destruct f' as [|f']; [lia|]. cbn [p_expr].
  apply p_assignment_mono; [|lia]. intros; apply IH; lia.
Qed.
Lemma p_stmts_mono : forall f f' st, f <= f' -> le_res (p_stmts f st) (p_stmts f' st).
Proof.
  induction f as [|f IH]; intros f' st H; [apply le_out|]. destruct f' as [|f']; [lia|]. cbn [p_stmts].
  destruct (look st); try apply le_refl. apply le_bind; [apply le_refl|intros _ st1].
  destruct (tk_is (look st1) TEof); [apply le_refl|].
  apply le_bind; [apply p_expr_mono; lia|intros ? ?]. apply le_bind; [apply IH; lia|intros ? ?]. apply le_refl.
Qed.
Lemma p_program_mono : forall f f' st, f <= f' -> le_res (p_program f st) (p_program f' st).
Proof.
  intros f f' st H. unfold p_program. apply le_bind; [now apply p_expr_mono|intros ? ?].
  apply le_bind; [now apply p_stmts_mono|intros ? ?]. apply le_refl.
Qed.
(** a result obtained with some fuel is the result *)
Lemma program_any_fuel : forall f f' st e st', p_program f st = POk e st' -> p_program f' st <> OutOfFuel ->
  p_program f' st = POk e st'.
Proof.
  intros f f' st e st' H Hn. destruct (Nat.le_ge_cases f f') as [L|L].
  - destruct (p_program_mono f f' st L) as [E|E]; congruence.
  - destruct (p_program_mono f' f st L) as [E|E]; congruence.
Qed.
