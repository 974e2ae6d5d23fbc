(** JSON texts are read as what they stand for. *)
From Coq Require Import String List ZArith NArith Bool Lia.
From Coq Require Import Floats.SpecFloat.
From Verif Require Import Base F64 F64Text Syntax Ext Json Spec Spec_numbers Spec_syntax Spec_text Spec_json Spec_struct Spec_means
  Rounding_proofs Means_proofs Numeral_proofs.
Import ListNotations.
Local Open Scope N_scope.

(** * C87 A JSON text is read exactly as what it stands for
    [means d s j]: the text [s], white space around it removed, stands for [j] and opens at
    most [d] brackets inside each other; [number_value s n]: the number written [s] is [n]. *)

(** every text that stands for something is read as that, and no other text is read *)
Theorem C87_read : forall s j, json_parse s = Some j <-> around (fun t => means 127 t j) s.
Proof. exact @json_meant. Qed.
Print Assumptions C87_read.
Theorem C87_unread : forall s, (exists j, around (fun t => means 127 t j) s) \/ json_parse s = None /\ forall j, ~ around (fun t => means 127 t j) s.
Proof. exact @whole_or_none. Qed.
Print Assumptions C87_unread.

(** a text stands for one thing only *)
Theorem C87_once : forall d s j j', means d s j -> means d s j' -> j = j'.
Proof. exact @meant_once. Qed.
Print Assumptions C87_once.

(** numbers of 64 bits are exact, and short decimals are the nearest double *)
Theorem C87_numbers : forall s n, number_value s n -> json_parse s = Some (JNum n).
Proof. exact @number_read. Qed.
Print Assumptions C87_numbers.

(** nothing deeper than 127 levels is read *)
Theorem C87_depth : forall s j, json_parse s = Some j -> (nesting j <= 127)%nat.
Proof. exact @read_depth. Qed.
Print Assumptions C87_depth.

Example C87_number_nonvacuous :
  number_value (lit "18446744073709551615") (JPos 18446744073709551615) /\ number_value (lit "-9223372036854775808") (JNeg (-9223372036854775808))
  /\ number_value (lit "-12.50E+2") (JFlt (f_of_Z (-1250))) /\ number_value (lit "-0") (JFlt (S754_zero true)).
Proof.
  split; [|split; [|split]].
  - apply (natural_value (lit "18446744073709551615")); [right; split; [split; [discriminate|repeat constructor; vm_compute; discriminate]|discriminate]|reflexivity].
  - apply (negative_value (lit "9223372036854775808")); [right; split; [split; [discriminate|repeat constructor; vm_compute; discriminate]|discriminate]|split; [reflexivity|discriminate]].
  - apply (point_value true (lit "12") (lit ".50") (lit "50") (lit "E+2") 2); try (vm_compute; congruence); [right; split; [split; [discriminate|repeat constructor; vm_compute; discriminate]|discriminate]|right; split; [split; [discriminate|repeat constructor; vm_compute; discriminate]|reflexivity]| |].
    + right. exists (lit "E"), (lit "2"). split; [cbn; tauto|]. split; [split; [discriminate|repeat constructor; vm_compute; discriminate]|]. left. split; [now right|reflexivity].
    + apply denotes_iff. vm_compute. reflexivity.
  - apply (below_value (lit "0")); [now left|now left|]. apply denotes_iff. reflexivity.
Qed.
(** of members with equal names the last one counts, however it is spelled *)
Example C87_nonvacuous :
  around (fun t => means 127 t (JObj [(lit "a", JArr [JBool true; JNull]); (lit "b", JStr (lit "/"))])) (lit " { ""b"" : 1e2 ,""a"":[true , null], ""b"":""\/""} ").
Proof. apply json_meant. vm_compute. reflexivity. Qed.
(** longer numbers are read digit by digit and may miss the nearest double; the largest are not read at all *)
Example C87_long_number_refuted :
  json_parse (lit "9007199254740991.0") = Some (JNum (JFlt (f_of_Z 9007199254740990))) /\ json_parse (lit "1e309") = None.
Proof. vm_compute. split; reflexivity. Qed.
