(** Property theorems about the text functions. *)
From Coq Require Import String List ZArith NArith Bool.
From Verif Require Import Base F64 Syntax Ext Evaluator Api Spec String_proofs.
Import ListNotations.

(** C24: the substring functions return the documented character segment. *)
Theorem C24_left : forall (X : Ext) c e d s x,
  uncustomised c "LEFT" -> fits s -> eval e c = Ok (VString s) -> eval d c = Ok (VNumber x) ->
  eval (call "LEFT" [e; d]) c = Ok (VString (first_chars (whole x) s)).
Proof. exact @left_call. Qed.
Print Assumptions C24_left.
Theorem C24_right : forall (X : Ext) c e d s x,
  uncustomised c "RIGHT" -> fits s -> eval e c = Ok (VString s) -> eval d c = Ok (VNumber x) ->
  eval (call "RIGHT" [e; d]) c = Ok (VString (after_chars (size s - whole x) s)).
Proof. exact @right_call. Qed.
Print Assumptions C24_right.
Theorem C24_left_right_default : forall (X : Ext) c e s,
  uncustomised c "LEFT" -> uncustomised c "RIGHT" -> fits s -> eval e c = Ok (VString s) ->
  eval (call "LEFT" [e]) c = Ok (VString (first_chars 1 s))
  /\ eval (call "RIGHT" [e]) c = Ok (VString (after_chars (size s - 1) s)).
Proof. exact @left_right_default. Qed.
Print Assumptions C24_left_right_default.
(** SUBSTRING counts from 0 *)
Theorem C24_substring : forall (X : Ext) c e d l s x y,
  uncustomised c "SUBSTRING" -> fits s ->
  eval e c = Ok (VString s) -> eval d c = Ok (VNumber x) -> eval l c = Ok (VNumber y) ->
  x <> f_inf -> y <> f_inf ->
  eval (call "SUBSTRING" [e; d]) c = Ok (VString (after_chars (whole x) s))
  /\ eval (call "SUBSTRING" [e; d; l]) c
     = Ok (VString (first_chars (whole y) (after_chars (whole x) s))).
Proof. exact @substring_call. Qed.
Print Assumptions C24_substring.
(** MID and REPLACE count from 1 *)
Theorem C24_mid : forall (X : Ext) c e d l s x y,
  uncustomised c "MID" -> fits s ->
  eval e c = Ok (VString s) -> eval d c = Ok (VNumber x) -> eval l c = Ok (VNumber y) ->
  representable x -> is_finite x = true ->
  eval (call "MID" [e; d]) c = Ok (VString (after_chars (Z.max 1 (whole x) - 1) s))
  /\ eval (call "MID" [e; d; l]) c
     = Ok (VString (first_chars (whole y) (after_chars (Z.max 1 (whole x) - 1) s))).
Proof. exact @mid_call. Qed.
Print Assumptions C24_mid.
Theorem C24_replace : forall (X : Ext) c e d l n s x y t,
  uncustomised c "REPLACE" -> fits s ->
  eval e c = Ok (VString s) -> eval d c = Ok (VNumber x) -> eval l c = Ok (VNumber y) ->
  eval n c = Ok (VString t) ->
  representable x -> is_finite x = true -> representable y ->
  eval (call "REPLACE" [e; d; l; n]) c =
    Ok (VString (first_chars (Z.max 1 (whole x) - 1) s ++ t
                 ++ after_chars (Z.max 1 (whole x) - 1 + whole y) s)).
Proof. exact @replace_call. Qed.
Print Assumptions C24_replace.
(** LEFT and the rest reassemble the text *)
Theorem C24_reassemble : forall (X : Ext) c e d s x,
  uncustomised c "LEFT" -> uncustomised c "SUBSTRING" -> uncustomised c "CONCAT" -> fits s ->
  eval e c = Ok (VString s) -> eval d c = Ok (VNumber x) -> x <> f_inf ->
  eval (call "CONCAT" [call "LEFT" [e; d]; call "SUBSTRING" [e; d]]) c = Ok (VString s).
Proof. exact @left_substring_concat. Qed.
Print Assumptions C24_reassemble.
Example C24_example :
  let X := example_ext in let text := [104; 233; 8364; 128512; 111]%N in
  fits text /\ representable (f_of_Z 2) /\ whole (f_of_Z 2) = 2%Z
  /\ evaluate (lit "LEFT('" ++ text ++ lit "', 2.9)") = Ok (VString [104; 233]%N)
  /\ evaluate (lit "RIGHT('" ++ text ++ lit "', 2)") = Ok (VString [128512; 111]%N)
  /\ evaluate (lit "MID('" ++ text ++ lit "', 2, 2)") = Ok (VString [233; 8364]%N)
  /\ evaluate (lit "SUBSTRING('" ++ text ++ lit "', 2, 2)") = Ok (VString [8364; 128512]%N)
  /\ evaluate (lit "REPLACE('" ++ text ++ lit "', 2, 3, 'x')") = Ok (VString [104; 120; 111]%N).
Proof. vm_compute. repeat split. Qed.

(** C25: SPLIT cuts a text into parts that rejoin to it, JOIN puts parts
    together, and they are inverse to each other. *)
Theorem C25_split : forall (X : Ext) c e d s sep,
  uncustomised c "SPLIT" -> sep <> [] ->
  eval e c = Ok (VString s) -> eval d c = Ok (VString sep) ->
  exists parts, eval (call "SPLIT" [e; d]) c = Ok (VArray (map VString parts))
    /\ cut_at sep s parts /\ joined sep parts s.
Proof. exact @split_joined. Qed.
Print Assumptions C25_split.
Theorem C25_cut_unique : forall sep s p1,
  sep <> [] -> cut_at sep s p1 -> forall p2, cut_at sep s p2 -> p1 = p2.
Proof. exact cut_functional. Qed.
Print Assumptions C25_cut_unique.
Theorem C25_join : forall (X : Ext) c e d parts sep,
  uncustomised c "JOIN" ->
  eval e c = Ok (VArray (map VString parts)) -> eval d c = Ok (VString sep) ->
  exists s, eval (call "JOIN" [e; d]) c = Ok (VString s) /\ joined sep parts s.
Proof. exact @join_call. Qed.
Print Assumptions C25_join.
Theorem C25_join_split : forall (X : Ext) c e d s sep,
  uncustomised c "SPLIT" -> uncustomised c "JOIN" -> sep <> [] ->
  eval e c = Ok (VString s) -> eval d c = Ok (VString sep) ->
  eval (call "JOIN" [call "SPLIT" [e; d]; d]) c = Ok (VString s).
Proof. exact @join_split. Qed.
Print Assumptions C25_join_split.
(** the separator must not occur in a part, nor across the end of a part and
    the following separator; for one-character separators the first suffices *)
Theorem C25_split_join : forall (X : Ext) c e d parts sep,
  uncustomised c "SPLIT" -> uncustomised c "JOIN" -> sep <> [] -> parts <> [] ->
  Forall (fun p => ~ occurs sep (p ++ removelast sep)) parts ->
  eval e c = Ok (VArray (map VString parts)) -> eval d c = Ok (VString sep) ->
  eval (call "SPLIT" [call "JOIN" [e; d]; d]) c = Ok (VArray (map VString parts)).
Proof. exact @split_join. Qed.
Print Assumptions C25_split_join.
Theorem C25_split_join_one_char : forall (X : Ext) c e d parts k,
  uncustomised c "SPLIT" -> uncustomised c "JOIN" -> parts <> [] ->
  Forall (fun p => ~ In k p) parts ->
  eval e c = Ok (VArray (map VString parts)) -> eval d c = Ok (VString [k]) ->
  eval (call "SPLIT" [call "JOIN" [e; d]; d]) c = Ok (VArray (map VString parts)).
Proof. exact @split_join_char. Qed.
Print Assumptions C25_split_join_one_char.
(** without that condition the claim is false: no part contains 'aa' *)
Theorem C25_split_join_refuted :
  let X := example_ext in
  evaluate (lit "SPLIT(JOIN(['a', 'b'], 'aa'), 'aa')") = Ok (VArray [VString []; VString (lit "ab")]).
Proof. vm_compute. reflexivity. Qed.
Print Assumptions C25_split_join_refuted.
Example C25_example :
  let X := example_ext in
  evaluate (lit "SPLIT('a--b-', '--')") = Ok (VArray [VString (lit "a"); VString (lit "b-")])
  /\ evaluate (lit "JOIN(SPLIT('a--b-', '--'), '--')") = Ok (VString (lit "a--b-"))
  /\ evaluate (lit "SPLIT(JOIN(['x', '', 'y'], ', '), ', ')")
     = Ok (VArray [VString (lit "x"); VString []; VString (lit "y")]).
Proof. vm_compute. repeat split. Qed.

(** C26 *)
Theorem C26_substitute : forall (X : Ext) name c e o n s old new,
  name = "SUBSTITUTE"%string \/ name = "SUBSTITUTEM"%string ->
  uncustomised c name -> old <> [] ->
  eval e c = Ok (VString s) -> eval o c = Ok (VString old) -> eval n c = Ok (VString new) ->
  exists out, eval (call name [e; o; n]) c = Ok (VString out) /\ substituted old new s out.
Proof. exact @substitute_call. Qed.
Print Assumptions C26_substitute.
(** the specification determines the result *)
Theorem C26_unique : forall old new s o1,
  old <> [] -> substituted old new s o1 -> forall o2, substituted old new s o2 -> o1 = o2.
Proof. exact substituted_functional. Qed.
Print Assumptions C26_unique.
Example C26_example :
  let X := example_ext in
  evaluate (lit "SUBSTITUTE('aaaxa', 'aa', 'b')") = Ok (VString (lit "baxa"))
  /\ evaluate (lit "SUBSTITUTE('abc', 'z', 'b')") = Ok (VString (lit "abc")).
Proof. vm_compute. repeat split. Qed.
