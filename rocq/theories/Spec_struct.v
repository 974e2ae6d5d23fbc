(** Vocabulary for JSON texts and the requests and answers written in them. *)
From Coq Require Import String List ZArith NArith Bool.
From Verif Require Import Base F64 Syntax Ext Json Spec Spec_syntax Spec_text Spec_json.
Import ListNotations.
Local Open Scope N_scope.

(** ** The grammar of JSON (RFC 8259), whatever the values mean *)
Definition hexadecimal (c : N) : Prop := 48 <= c <= 57 \/ 65 <= c <= 70 \/ 97 <= c <= 102.
(** what stands for one character between quotation marks *)
Inductive quoted_part : str -> Prop :=
| plain_part : forall c, 32 <= c -> c <> 34 -> c <> 92 -> quoted_part [c]
| short_part : forall c, In c (lit """\/bfnrt") -> quoted_part [92; c]
| hex_part : forall a b c d, hexadecimal a -> hexadecimal b -> hexadecimal c -> hexadecimal d -> quoted_part [92; 117; a; b; c; d].
Definition quoted_shape (s : str) : Prop := exists ps, Forall quoted_part ps /\ s = [34] ++ concat ps ++ [34].
Definition some_digits (s : str) : Prop := s <> [] /\ Forall (fun c => 48 <= c <= 57) s.
Definition whole_shape (s : str) : Prop := s = lit "0" \/ some_digits s /\ hd 0 s <> 48.
Definition fraction_shape (s : str) : Prop := s = [] \/ exists ds, some_digits ds /\ s = lit "." ++ ds.
Definition exponent_shape (s : str) : Prop :=
  s = [] \/ exists m sg ds, In m [lit "e"; lit "E"] /\ In sg [[]; lit "+"; lit "-"] /\ some_digits ds /\ s = m ++ sg ++ ds.
Definition number_shape (s : str) : Prop :=
  exists sg a f e, In sg [[]; lit "-"] /\ whole_shape a /\ fraction_shape f /\ exponent_shape e /\ s = sg ++ a ++ f ++ e.

Inductive json_shape : str -> Prop :=
| word_shape : forall s, In s [lit "null"; lit "true"; lit "false"] -> json_shape s
| a_number_shape : forall s, number_shape s -> json_shape s
| a_quoted_shape : forall s, quoted_shape s -> json_shape s
| empty_array_shape : forall w, blank w -> json_shape (lit "[" ++ w ++ lit "]")
| array_shape : forall t, elements_shape t -> json_shape (lit "[" ++ t ++ lit "]")
| empty_object_shape : forall w, blank w -> json_shape (lit "{" ++ w ++ lit "}")
| object_shape : forall t, members_shape t -> json_shape (lit "{" ++ t ++ lit "}")
with elements_shape : str -> Prop :=
| last_element : forall w1 s w2, blank w1 -> json_shape s -> blank w2 -> elements_shape (w1 ++ s ++ w2)
| more_elements : forall w1 s w2 t, blank w1 -> json_shape s -> blank w2 -> elements_shape t -> elements_shape (w1 ++ s ++ w2 ++ lit "," ++ t)
with members_shape : str -> Prop :=
| last_member : forall w1 k w2 w3 s w4, blank w1 -> quoted_shape k -> blank w2 -> blank w3 -> json_shape s -> blank w4 -> members_shape (w1 ++ k ++ w2 ++ lit ":" ++ w3 ++ s ++ w4)
| more_members : forall w1 k w2 w3 s w4 t, blank w1 -> quoted_shape k -> blank w2 -> blank w3 -> json_shape s -> blank w4 -> members_shape t ->
    members_shape (w1 ++ k ++ w2 ++ lit ":" ++ w3 ++ s ++ w4 ++ lit "," ++ t).
(** a JSON text: a value, with white space around it *)
Definition json_document (s : str) : Prop := exists w1 v w2, blank w1 /\ json_shape v /\ blank w2 /\ s = w1 ++ v ++ w2.

(** ** Requests and answers with known fields *)
Section Fields.
  Context {X : Ext}.
  (** one member: [fs] is the field it gives, if it is known *)
  Inductive member_gives (names : list str) : str -> list (str * json) -> Prop :=
  | known_member : forall k q j w1 w2 w3 s w4, In k names -> quoted_as k q -> document j -> (nesting j <= 126)%nat -> json_text j s -> blank w1 -> blank w2 -> blank w3 -> blank w4 ->
      member_gives names (w1 ++ q ++ w2 ++ lit ":" ++ w3 ++ s ++ w4) [(k, j)]
  | other_member : forall k q w1 w2 w3 s w4, ~ In k names -> quoted_as k q -> json_shape s -> blank w1 -> blank w2 -> blank w3 -> blank w4 ->
      member_gives names (w1 ++ q ++ w2 ++ lit ":" ++ w3 ++ s ++ w4) [].
  (** an object with the fields [kvs] and perhaps others *)
  Definition object_with (names : list str) (kvs : list (str * json)) (s : str) : Prop :=
    exists w1 w2 t, blank w1 /\ blank w2 /\ s = w1 ++ lit "{" ++ t ++ lit "}" ++ w2
      /\ (kvs = [] /\ blank t \/ exists ts fs, ts <> [] /\ Forall2 (member_gives names) ts fs /\ kvs = concat fs /\ NoDup (map fst kvs) /\ t = join (lit ",") ts).
  (** an object in which the known field [k] is given a second time; whatever follows *)
  Definition given_twice (names : list str) (k : str) (s : str) : Prop :=
    exists w1 ts fs w2 q w3 rest, blank w1 /\ ts <> [] /\ Forall2 (member_gives names) ts fs /\ NoDup (map fst (concat fs)) /\ In k (map fst (concat fs)) /\ blank w2 /\ quoted_as k q /\ blank w3
      /\ s = w1 ++ lit "{" ++ join (lit ",") ts ++ lit "," ++ w2 ++ q ++ w3 ++ lit ":" ++ rest.
End Fields.

(** a request or answer as it is read: an object with the fields [names], or an
    array with all of them in this order *)
Definition given (names : list str) (j : json) (k : str) (o : option json) : Prop :=
  match j with
  | JObj kvs => o = mget k kvs
  | JArr xs => length xs = length names /\ exists i, nth_error names i = Some k /\ o = nth_error xs i
  | _ => False
  end.
