(** Property theorems about JSON text, object literals, property access, DIG
    and JSON variables. *)
From Coq Require Import String List ZArith NArith Bool Sorted Lia.
From Coq Require Import Floats.SpecFloat.
From Verif Require Import Base F64 Utf8 Syntax Ext Json Registry Core Evaluator Lexer Parser Api Spec Spec_syntax Spec_text Spec_json
  Pretty Json_proofs Object_proofs Layout_proofs Pretty_proofs.
Import ListNotations.
Local Open Scope N_scope.

(** * C32 JSON text round trip *)

(** printing any document and reading the text gives the document back, up to 127 levels of nesting *)
Theorem C32_round_trip : forall (X : Ext) j, document j -> (nesting j <= 127)%nat -> json_parse (json_print j) = Some j.
Proof. exact @round_trip. Qed.
Print Assumptions C32_round_trip.

(** however the text is laid out, and whatever the order of the members of its objects *)
Theorem C32_any_layout : forall (X : Ext) j s w1 w2, document j -> (nesting j <= 127)%nat -> json_text j s -> blank w1 -> blank w2 -> json_parse (w1 ++ s ++ w2) = Some j.
Proof. exact @any_layout. Qed.
Print Assumptions C32_any_layout.

(** the pretty printer writes such a text *)
Theorem C32_pretty : forall (X : Ext) j level, json_text j (json_pretty level j).
Proof. exact @pretty_text. Qed.
Print Assumptions C32_pretty.

(** whole numbers of up to 15 digits are among the numbers that survive *)
Theorem C32_whole_number : forall (X : Ext) z, (Z.abs z <= 900719925474099)%Z -> plain_number (JFlt (f_of_Z z)).
Proof. exact @whole_plain. Qed.
Print Assumptions C32_whole_number.

(** an object literal evaluates to text that reads back as the object of its last values, keys in order *)
Theorem C32_object_literal : forall (X : Ext) c pairs js, stored_pairs c pairs js -> Forall (fun q => document (snd q) /\ (nesting (snd q) <= 126)%nat) js ->
  exists s kvs, eval (EObjectLiteral pairs) c = Ok (VJson s) /\ json_parse s = Some (JObj kvs) /\ in_key_order (map fst kvs)
    /\ forall k j, In (k, j) kvs <-> last_value js k j.
Proof. exact @object_literal. Qed.
Print Assumptions C32_object_literal.
Example C32_nonvacuous :
  let X := example_ext in
  document (JObj [(lit "a", JArr [JNum (JFlt (f_of_Z (-7))); JStr (lit "x""y"); JNum (JPos 18446744073709551615)]); (lit "b", JNull)])
  /\ (nesting (JObj [(lit "a", JArr [JNull]); (lit "b", JNull)]) = 2)%nat
  /\ json_print (JObj [(lit "a", JArr [JNum (JFlt (f_of_Z (-7))); JStr (lit "x""y")]); (lit "b", JNull)]) = lit "{""a"":[-7.0,""x\""y""],""b"":null}"
  /\ evaluate (lit "{b: 'q', a: [1, TRUE], b: NULL}") = Ok (VJson (lit "{""a"":[1.0,true],""b"":null}"))
  /\ json_pretty 0 (JObj [(lit "a", JArr [JNull; JBool true]); (lit "b", JObj [])]) = lit "{" ++ [10] ++ lit "  ""a"": [" ++ [10] ++ lit "    null," ++ [10] ++ lit "    true" ++ [10] ++ lit "  ]," ++ [10] ++ lit "  ""b"": {}" ++ [10] ++ lit "}"
  /\ json_parse (lit " {""b"" : [ ] ,""a"":1 } ") = Some (JObj [(lit "a", JNum (JPos 1)); (lit "b", JArr [])]).
Proof. intros X. split.
  - assert (P : plain_number (JFlt (f_of_Z (-7)))) by now apply whole_plain.
    constructor; [repeat constructor|]. repeat (exact P || constructor).
  - vm_compute. repeat split; reflexivity. Qed.
(** numbers whose printed digits reach 2^53 may change: the reader is not exact there... *)
Example C32_long_number_refuted :
  let X := example_ext in
  let j := JNum (JFlt (f_of_Z 9007199254740991)) in
  json_print j = lit "9007199254740991.0" /\ json_parse (json_print j) = Some (JNum (JFlt (f_of_Z 9007199254740990)))
  /\ evaluate (lit "9007199254740991 - {a: 9007199254740991}.a") = Ok (num 1).
Proof. vm_compute. repeat split; reflexivity. Qed.
(** ...and text nested 128 deep does not read back *)
Example C32_deep_refuted :
  let X := example_ext in
  nesting (nested_array 128) = 128%nat /\ document (nested_array 128) /\ json_parse (json_print (nested_array 128)) = None
  /\ json_parse (json_print (nested_array 127)) = Some (nested_array 127).
Proof. intros X. split; [reflexivity|]. split; [repeat constructor|]. vm_compute. split; reflexivity. Qed.

(** * C33 Property access and DIG read back what was stored *)

(** the value of the last pair with the key, in its JSON form *)
Theorem C33_present : forall (X : Ext) c pairs js k j v, stored_pairs c pairs js -> Forall (fun q => document (snd q) /\ (nesting (snd q) <= 126)%nat) js ->
  last_value js k j -> stands_for j v ->
  eval (EPropertyAccess (EObjectLiteral pairs) k) c = Ok v /\ eval (ESafePropertyAccess (EObjectLiteral pairs) k) c = Ok v.
Proof. exact @property_present. Qed.
Print Assumptions C33_present.

(** a missing key is an error, or NULL with safe navigation *)
Theorem C33_absent : forall (X : Ext) c pairs js k, stored_pairs c pairs js -> Forall (fun q => document (snd q) /\ (nesting (snd q) <= 126)%nat) js ->
  ~ In k (map fst pairs) ->
  (exists e, eval (EPropertyAccess (EObjectLiteral pairs) k) c = Err e) /\ eval (ESafePropertyAccess (EObjectLiteral pairs) k) c = Ok VNull.
Proof. exact @property_absent. Qed.
Print Assumptions C33_absent.

(** texts, booleans, nulls, whole numbers of up to 15 digits and arrays of them come back unchanged *)
Theorem C33_unchanged : forall (X : Ext) c pairs vs k v, evaluate_to c (map snd pairs) vs -> Forall storable vs -> Forall (fun v => (depth v <= 126)%nat) vs ->
  last_value (combine (map fst pairs) vs) k v ->
  eval (EPropertyAccess (EObjectLiteral pairs) k) c = Ok v.
Proof. exact @reads_back_property. Qed.
Print Assumptions C33_unchanged.

(** DIG returns the document at the end of the path *)
Theorem C33_dig_found : forall (X : Ext) c e p more s j path ds j' v, uncustomised c "DIG" -> eval e c = Ok (VJson s) -> json_parse s = Some j -> eval p c = Ok (VArray path) -> evaluate_to c more ds ->
  Forall good_segment path -> path_to j path j' -> stands_for j' v -> eval (call "DIG" (e :: p :: more)) c = Ok v.
Proof. exact @dig_found. Qed.
Print Assumptions C33_dig_found.

(** DIG returns the default, or NULL, exactly when some step does not exist *)
Theorem C33_dig_missing : forall (X : Ext) c e p more s j path ds, uncustomised c "DIG" -> eval e c = Ok (VJson s) -> json_parse s = Some j -> eval p c = Ok (VArray path) -> evaluate_to c more ds ->
  Forall good_segment path -> (forall j', ~ path_to j path j') -> eval (call "DIG" (e :: p :: more)) c = Ok (hd VNull ds).
Proof. exact @dig_missing. Qed.
Print Assumptions C33_dig_missing.
Example C33_nonvacuous :
  let X := example_ext in
  evaluate (lit "{a: [1, 'x'], b: 2, a: 3}.a") = Ok (num 3)
  /\ evaluate (lit "{a: [1, 'x'], b: 2}.a") = Ok (VArray [num 1; VString (lit "x")])
  /\ evaluate (lit "{b: 2}&.a") = Ok VNull
  /\ evaluate (lit "DIG({a: [{b: 5}]}, ['a', 0, 'b'])") = Ok (num 5)
  /\ evaluate (lit "DIG({a: [{b: 5}]}, ['a', 1, 'b'])") = Ok VNull
  /\ evaluate (lit "DIG({a: [{b: 5}]}, ['a', 0 - 1], 'none')") = Ok (VString (lit "none"))
  /\ storable (VArray [num (-3); VString (lit "x"); VNull])
  /\ last_value [(lit "a", 1); (lit "b", 2); (lit "a", 3)] (lit "a") 3
  /\ good_segment (num 0) /\ good_segment (VString (lit "a"))
  /\ path_to (JObj [(lit "a", JArr [JNull; JStr (lit "z")])]) [VString (lit "a"); num 1] (JStr (lit "z")).
Proof. intros X. do 6 (split; [vm_compute; reflexivity|]). split; [repeat constructor; vm_compute; discriminate|]. split; [|split; [|split]].
  - exists [(lit "a", 1); (lit "b", 2)], []. split; [reflexivity|intros []].
  - intros x E. injection E as <-. exists 0%Z. split; reflexivity.
  - discriminate.
  - apply (path_key _ _ (JArr [JNull; JStr (lit "z")])); [exists [], []; split; [reflexivity|intros []]|]. apply (path_index _ 1 (JStr (lit "z"))); [reflexivity|reflexivity|constructor]. Qed.
(** dates and currency amounts come back as plain numbers, and a fractional position in a path is rounded down *)
Example C33_changed_types_refuted :
  let X := example_ext in
  evaluate (lit "{a: 5::Currency}.a") = Ok (num 5)
  /\ evaluate (lit "{a: DATE(1970, 1, 2)}.a") = Ok (num 86400)
  /\ evaluate (lit "DIG({a: [7, 8]}, ['a', 1.9])") = Ok (num 8).
Proof. vm_compute. repeat split; reflexivity. Qed.

(** * C34 JSON variables arrive under their sanitised names *)

(** every key is bound, under its sanitised name, to its value; of several keys with one name the last in key order wins; "arguments" is the raw document unless a key takes the name; nothing else is bound *)
Theorem C34_variables : forall (X : Ext) text kvs, json_parse text = Some (JObj kvs) ->
  in_key_order (map fst kvs) /\
  exists vars, (forall src, evaluate_with_json src text = evaluate_with src vars)
    /\ (forall reg src, evaluate_with_json_custom reg src text = evaluate_with_custom reg src vars)
    /\ (forall name before k j after v, kvs = before ++ (k, j) :: after -> sanitised k name -> (forall k', In k' (map fst after) -> ~ sanitised k' name) -> stands_for j v -> mget name vars = Some v)
    /\ (forall name, (forall k, In k (map fst kvs) -> ~ sanitised k name) -> name <> lit "arguments" -> mget name vars = None)
    /\ ((forall k, In k (map fst kvs) -> ~ sanitised k (lit "arguments")) -> mget (lit "arguments") vars = Some (VJson text)).
Proof. exact @json_variables. Qed.
Print Assumptions C34_variables.

(** anything but a JSON object is an error *)
Theorem C34_not_object : forall (X : Ext) text src, (forall kvs, json_parse text <> Some (JObj kvs)) -> exists e, evaluate_with_json src text = Err e.
Proof. exact @json_not_object. Qed.
Print Assumptions C34_not_object.
Example C34_nonvacuous :
  let X := example_ext in
  evaluate_with_json (lit ":user_name") (lit "{""user-name"": ""x"", ""n"": 2}") = Ok (VString (lit "x"))
  /\ evaluate_with_json (lit ":n + 1") (lit "{""user-name"": ""x"", ""n"": 2}") = Ok (num 3)
  /\ evaluate_with_json (lit ":arguments") (lit "{""n"": 2}") = Ok (VJson (lit "{""n"": 2}"))
  /\ evaluate_with_json (lit ":arguments") (lit "{""arguments"": 2}") = Ok (num 2)
  /\ evaluate_with_json (lit ":a_b") (lit "{""a.b"": 1, ""a_b"": 2, ""a-b"": 3}") = Ok (num 2)
  /\ (exists e, evaluate_with_json (lit "1") (lit "[1]") = Err e) /\ (exists e, evaluate_with_json (lit ":zz") (lit "{}") = Err e)
  /\ sanitised (lit "a.b") (lit "a_b").
Proof. vm_compute. repeat split; try (eexists; reflexivity); repeat constructor. Qed.
