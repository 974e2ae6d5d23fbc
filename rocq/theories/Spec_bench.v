(** Vocabulary for the benchmark mode of the client. *)
From Coq Require Import String List ZArith NArith QArith Bool.
From Verif Require Import Base F64 Syntax Ext Json Struct Methods Spec Spec_numbers Spec_syntax Spec_args Spec_client Spec_struct.
Import ListNotations.
Local Open Scope N_scope.

(** [bench_line ps default args n]: after the expression, [args] are the words
    of [ps] with counts between them, and [n] is the count given last *)
Inductive bench_line : list client_part -> N -> list str -> N -> Prop :=
| bench_nothing : forall n, bench_line [] n [] n
| bench_option : forall p ps args k n, client_proper p -> bench_line ps k args n -> bench_line (p :: ps) k (client_words p ++ args) n
| bench_count : forall w ps args j k n, count_text w j -> bench_line ps j args n -> bench_line ps k (w :: args) n.

(** a line is an answer of the server that tells success or failure and a time *)
Inductive told : str -> bool -> f64 -> Prop :=
| told_so : forall line j b time id e, struct_parse answer_names line = Some j ->
    given answer_names j (lit "success") (Some (JBool b)) -> given answer_names j (lit "execution_time_ms") (Some (JNum time)) -> given answer_names j (lit "request_id") (Some (JNum (JPos id))) ->
    given answer_names j (lit "error") e -> e = None \/ e = Some JNull \/ (exists s, e = Some (JStr s)) ->
    told line b (f_of_jnum time).
Definition readable (line : str) : Prop := exists b t, told line b t.
Definition succeeded (line : str) : Prop := exists t, told line true t.

(** how many elements of a list have a property *)
Inductive tally {A} (P : A -> Prop) : list A -> N -> Prop :=
| tally_none : tally P [] 0
| tally_one : forall x l n, P x -> tally P l n -> tally P (x :: l) (n + 1)
| tally_skip : forall x l n, ~ P x -> tally P l n -> tally P (x :: l) n.
(** what the elements of a list give, for those that give something *)
Inductive gathered {A B} (R : A -> B -> Prop) : list A -> list B -> Prop :=
| gathered_none : gathered R [] []
| gathered_one : forall x y l ys, R x y -> gathered R l ys -> gathered R (x :: l) (y :: ys)
| gathered_skip : forall x l ys, (forall y, ~ R x y) -> gathered R l ys -> gathered R (x :: l) ys.

(** the answers to requests number [first], [first + 1], ... and how long they took *)
Definition replies (exchange : nat -> str -> str) (took : nat -> N) (line : str) (first n : nat) : list (str * N) :=
  map (fun k => (exchange k line, took k)) (seq first n).
(** the milliseconds an answered request took *)
Definition answered_in (reply : str * N) (ms : N) : Prop := readable (fst reply) /\ ms = snd reply.
(** the positive time an answer tells *)
Definition worked_for (reply : str * N) (t : f64) : Prop := (exists b, told (fst reply) b t) /\ f_ltb f_zero t = true.
Definition total_of (l : list N) : N := fold_right N.add 0 l.
(** [x] is the element of [ms] with [k] elements before it in order *)
Definition of_rank (k : nat) (ms : list N) (x : N) : Prop :=
  exists below above, Permutation.Permutation ms (below ++ x :: above) /\ length below = k /\ Forall (fun y => y <= x) below /\ Forall (fun y => x <= y) above.
(** the rank for a percentage: the exact position, rounded as the division and the multiplication round, without its fraction *)
Definition position (percent : Z) (size k : nat) : Prop :=
  exists share place, rounded share (percent # 100) /\ rounded place (exact share * inject_Z (Z.of_nat size - 1)) /\ Z.of_nat k = Qround.Qfloor (exact place).
