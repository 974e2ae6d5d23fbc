(** What a JSON text stands for. *)
From Coq Require Import String List ZArith NArith Bool.
From Verif Require Import Base F64 Syntax Ext Json Spec Spec_numbers Spec_syntax Spec_text Spec_json Spec_struct.
Import ListNotations.
Local Open Scope N_scope.

Section Meaning.
  Context {X : Ext}.
  (** a value between others: white space may surround it *)
  Definition around (R : str -> Prop) (t : str) : Prop := exists w1 s w2, t = w1 ++ s ++ w2 /\ blank w1 /\ blank w2 /\ R s.
  (** [means d s j]: the text [s] stands for [j], and opens at most [d] brackets inside
      each other; of members with equal names the last one counts *)
  Inductive means : nat -> str -> json -> Prop :=
  | null_means : forall d, means d (lit "null") JNull
  | true_means : forall d, means d (lit "true") (JBool true)
  | false_means : forall d, means d (lit "false") (JBool false)
  | number_means : forall d s n, number_shape s -> json_parse s = Some (JNum n) -> means d s (JNum n)
  | string_means : forall d s t, quoted_as s t -> means d t (JStr s)
  | no_elements_mean : forall d w, blank w -> means (S d) (lit "[" ++ w ++ lit "]") (JArr [])
  | elements_mean : forall d ts js, ts <> [] -> Forall2 (fun t j => around (fun s => means d s j) t) ts js -> means (S d) (lit "[" ++ join (lit ",") ts ++ lit "]") (JArr js)
  | no_members_mean : forall d w, blank w -> means (S d) (lit "{" ++ w ++ lit "}") (JObj [])
  | members_mean : forall d ts ms kvs, ts <> [] ->
      Forall2 (fun t m => exists w1 q w2 v, t = w1 ++ q ++ w2 ++ lit ":" ++ v /\ blank w1 /\ quoted_as (fst m) q /\ blank w2 /\ around (fun s => means d s (snd m)) v) ts ms ->
      in_key_order (map fst kvs) -> (forall k j, In (k, j) kvs <-> last_value ms k j) -> means (S d) (lit "{" ++ join (lit ",") ts ++ lit "}") (JObj kvs).
End Meaning.

(** ** Numbers *)
(** the digits after the point *)
Definition fraction_of (f ds : str) : Prop := f = [] /\ ds = [] \/ some_digits ds /\ f = lit "." ++ ds.
(** the power of ten after the letter e *)
Definition exponent_of (e : str) (x : Z) : Prop :=
  e = [] /\ x = 0%Z
  \/ exists m ds, In m [lit "e"; lit "E"] /\ some_digits ds
       /\ ((e = m ++ ds \/ e = m ++ lit "+" ++ ds) /\ x = Z.of_N (digits_value ds) \/ e = m ++ lit "-" ++ ds /\ x = (- Z.of_N (digits_value ds))%Z).
(** [number_value s n]: the text [s] stands for the number [n]: whole numbers of 64 bits
    stand for themselves, and anything with a point or a power of ten for the nearest
    double, as long as its digits are below 2^53 and its power of ten is within 22 *)
Inductive number_value : str -> jnum -> Prop :=
| natural_value : forall a, whole_shape a -> digits_value a < 2 ^ 64 -> number_value a (JPos (digits_value a))
| negative_value : forall a, whole_shape a -> 0 < digits_value a <= 2 ^ 63 -> number_value (lit "-" ++ a) (JNeg (- Z.of_N (digits_value a)))
| below_value : forall a y, whole_shape a -> digits_value a = 0 \/ 2 ^ 63 < digits_value a < 2 ^ 64 -> denotes true (digits_value a) 0 y -> number_value (lit "-" ++ a) (JFlt y)
| point_value : forall (neg : bool) a f ds e x y, whole_shape a -> fraction_of f ds -> exponent_of e x -> f ++ e <> [] -> digits_value (a ++ ds) < 2 ^ 53 ->
    (Z.abs x < 2 ^ 31)%Z -> (Z.abs (x - Z.of_nat (length ds)) <= 22)%Z -> denotes neg (digits_value (a ++ ds)) (x - Z.of_nat (length ds)) y ->
    number_value ((if neg then lit "-" else []) ++ a ++ f ++ e) (JFlt y).
