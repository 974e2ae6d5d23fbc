(** Property theorems about the surface syntax. *)
From Coq Require Import String List ZArith NArith Bool.
From Verif Require Import Base F64 Utf8 Syntax Ext Lexer Parser Evaluator Api Parser_proofs Lexer_proofs Parse_proofs Spec_syntax Spec_grammar
  Written_proofs Sim_proofs Source_proofs Print_proofs Range_proofs Text_proofs.
Import ListNotations.
Local Open Scope N_scope.

(** C01: a string literal denotes the text that was quoted, however it was
    quoted; and every text can be quoted. *)
Theorem C01_string_literal : forall (X : Ext) q text value, q = 34 \/ q = 39 -> quoted q text value ->
  parse (q :: text ++ [q]) = Ok (EStringLit value)
  /\ evaluate (q :: text ++ [q]) = Ok (VString value).
Proof. exact @string_literal. Qed.
Print Assumptions C01_string_literal.

Theorem C01_every_text : forall (X : Ext) q s, q = 34 \/ q = 39 -> valid_str s ->
  parse (q :: escape q s ++ [q]) = Ok (EStringLit s)
  /\ evaluate (q :: escape q s ++ [q]) = Ok (VString s).
Proof. exact @every_text. Qed.
Print Assumptions C01_every_text.

Example C01_nonvacuous : quoted 39 (lit "a\'b\nc""") (lit "a'b" ++ [10] ++ lit "c""")
  /\ valid_str [128512; 39; 233; 92].
Proof.
  split.
  - change (lit "a\'b\nc""") with [97; 92; 39; 98; 92; 110; 99; 34].
    change (lit "a'b" ++ [10] ++ lit "c""") with [97; 39; 98; 10; 99; 34].
    apply quoted_char; [reflexivity|discriminate..|]. apply quoted_other; [reflexivity|discriminate..|].
    apply quoted_char; [reflexivity|discriminate..|]. apply quoted_newline.
    apply quoted_char; [reflexivity|discriminate..|]. apply quoted_char; [reflexivity|discriminate..|]. constructor.
  - repeat constructor.
Qed.

(** C02: parsing stops on every input, and the only inputs on which the
    result is neither a tree nor an error are those starting (after blanks)
    with exactly two '='. *)
Theorem C02_parse_total : forall input : str,
  exists r, parse_out input = Done r /\
    ((exists w, r = Panic w) <->
     (exists ws rest, input = ws ++ lit "==" ++ rest
        /\ Forall (fun c => is_whitespace c = true) ws /\ hd 0 rest <> 61)).
Proof. exact parse_total_iff. Qed.
Print Assumptions C02_parse_total.

Example C02_nonvacuous_tree : exists e, parse (lit "1 + [2, :x].map(:x * 2)") = Ok e.
Proof. eexists; vm_compute; reflexivity. Qed.
Example C02_nonvacuous_error : exists e, parse (lit "1 + ") = Err e.
Proof. eexists; vm_compute; reflexivity. Qed.
Example C02_nonvacuous_panic : exists w, parse (lit " ==1") = Panic w.
Proof. eexists; vm_compute; reflexivity. Qed.

(** C03: the source with parentheses only where precedence and associativity
    ([Spec_grammar]) require them is read as the tree it was written for;
    every tree is either read from some source in this way, or from none. *)
Theorem C03_printed : forall e src, program e -> written (snd (print e)) src -> parse src = Ok e.
Proof. exact printed_parses'. Qed.
Print Assumptions C03_printed.

Theorem C03_every_tree : forall e, program e -> exists src, written (snd (print e)) src /\ no_leading_eq src /\ parse src = Ok e.
Proof. exact every_program. Qed.
Print Assumptions C03_every_tree.

Theorem C03_exactly_the_programs : forall e, (exists src, parse src = Ok e) <-> program e.
Proof. exact parse_exactly. Qed.
Print Assumptions C03_exactly_the_programs.

(** any sentence of the grammar, with redundant parentheses or without, is
    read as its tree *)
Theorem C03_sentence : forall ts e src, reads_program ts e -> written ts src -> parse src = Ok e.
Proof. exact sentence_parses'. Qed.
Print Assumptions C03_sentence.

(** [a op1 b op2 c]: the tighter operator first, from left to right on a tie *)
Theorem C03_two_operators : forall t1 op1 k1 t2 op2 k2 as_ a bs b cs c src,
  In (t1, op1, k1) infix_operators -> In (t2, op2, k2) infix_operators ->
  reads (Binary 0) as_ a -> reads (Binary 0) bs b -> reads (Binary 0) cs c ->
  written (as_ ++ t1 :: bs ++ t2 :: cs) src ->
  parse src = Ok (if (k1 <=? k2)%nat then EBinary (EBinary a op1 b) op2 c else EBinary a op1 (EBinary b op2 c)).
Proof. exact two_operators. Qed.
Print Assumptions C03_two_operators.

Theorem C03_powers : forall as_ a bs b cs c src, reads Cast as_ a -> reads Cast bs b -> reads (Binary 0) cs c ->
  written (as_ ++ TCaret :: bs ++ TCaret :: cs) src -> parse src = Ok (EBinary a BPow (EBinary b BPow c)).
Proof. exact powers. Qed.
Print Assumptions C03_powers.

Theorem C03_negated_power : forall t op as_ a bs b src, In (t, op) prefix_operators -> reads Cast as_ a -> reads (Binary 0) bs b ->
  written (t :: as_ ++ TCaret :: bs) src -> parse src = Ok (EUnary op (EBinary a BPow b)).
Proof. exact negated_power. Qed.
Print Assumptions C03_negated_power.

Example C03_nonvacuous :
  let x := EVariable (lit "x") in let y := EVariable (lit "y") in let z := EVariable (lit "z") in
  let e := EFunctionCall (lit "__TERNARY__") [EBinary (EBinary x BSub (EBinary y BSub z)) BMul (EUnary UMinus (EBinary x BPow y)); x; EArray [y; ETypeCast z TyInteger]] in
  program e
  /\ snd (print e) = [TLParen; TColon; TIdentifier (lit "x"); TMinus; TLParen; TColon; TIdentifier (lit "y"); TMinus; TColon; TIdentifier (lit "z"); TRParen; TRParen;
       TStar; TMinus; TColon; TIdentifier (lit "x"); TCaret; TColon; TIdentifier (lit "y"); TQMark; TColon; TIdentifier (lit "x"); TColon;
       TLBracket; TColon; TIdentifier (lit "y"); TComma; TColon; TIdentifier (lit "z"); TDoubleColon; TIdentifier (lit "Integer"); TRBracket]
  /\ parse (lit "(:x - (:y - :z)) * -:x ^ :y ? :x : [:y, :z::Integer]") = Ok e.
Proof.
  cbv zeta. split; [|split; vm_compute; reflexivity]. apply C03_exactly_the_programs.
  exists (lit "(:x - (:y - :z)) * -:x ^ :y ? :x : [:y, :z::Integer]"). vm_compute. reflexivity.
Qed.
Example C03_range_nonvacuous : ~ program (EVariable (lit "true")) /\ ~ program (EFunctionCall (lit "sum") []).
Proof.
  split; intros [H|(a & b & es & H & _)]; try discriminate; inversion H as [| | | | |? N| | | |? ? N U| | | | | | |]; subst.
  - destruct N as [_ K]. apply K. left. reflexivity.
  - discriminate U.
Qed.

(** C04: two sources written with the same tokens parse alike. *)
Theorem C04_gaps : forall ts src src', written ts src -> written ts src' ->
  no_leading_eq src -> no_leading_eq src' ->
  forall e, parse src = Ok e <-> parse src' = Ok e.
Proof. exact respaced_same. Qed.
Print Assumptions C04_gaps.

Theorem C04_leading_equals : forall ws src, Forall (fun c => is_whitespace c = true) ws -> no_leading_eq src ->
  parse (ws ++ 61 :: src) = parse src.
Proof. exact leading_eq. Qed.
Print Assumptions C04_leading_equals.

Example C04_nonvacuous :
  let ts := [TColon; TIdentifier (lit "x"); TDot; TIdentifier (lit "len"); TStar; TNumber (f_of_Z 2)] in
  written ts (lit ":x.len*2") /\ written ts (lit "  : x . len" ++ [10; 9] ++ lit "* 2 ")
  /\ no_leading_eq (lit ":x.len*2") /\ exists e, parse (lit ":x.len*2") = Ok e.
Proof.
  cbv zeta. change (f_of_Z 2) with (f_of_dec false (digits_value (lit "2")) 0).
  assert (N : number (lit "2") (f_of_dec false (digits_value (lit "2")) 0)).
  { apply number_int. split; [discriminate|reflexivity]. }
  assert (W1 : name (lit "x")).
  { split; [exists 120, []; repeat split|]. intros [H|[H|H]]; discriminate H. }
  assert (W2 : name (lit "len")).
  { split; [exists 108, (lit "en"); repeat split|]. intros [H|[H|H]]; discriminate H. }
  repeat split.
  - apply (written_token [] TColon (lit ":")); [constructor|apply spelled_symbol; cbn; tauto| |now right].
    apply (written_token [] (TIdentifier (lit "x")) (lit "x")); [constructor|now constructor| |now right].
    apply (written_token [] TDot (lit ".")); [constructor|apply spelled_symbol; cbn; tauto| |now right].
    apply (written_token [] (TIdentifier (lit "len")) (lit "len")); [constructor|now constructor| |now right].
    apply (written_token [] TStar (lit "*")); [constructor|apply spelled_symbol; cbn; tauto| |now right].
    apply (written_token [] _ (lit "2") [] []); [constructor|now constructor|constructor; constructor|now left].
  - apply (written_token (lit "  ") TColon (lit ":")); [repeat constructor|apply spelled_symbol; cbn; tauto| |now right].
    apply (written_token (lit " ") (TIdentifier (lit "x")) (lit "x")); [repeat constructor|now constructor| |now right].
    apply (written_token (lit " ") TDot (lit ".")); [repeat constructor|apply spelled_symbol; cbn; tauto| |now right].
    apply (written_token (lit " ") (TIdentifier (lit "len")) (lit "len")); [repeat constructor|now constructor| |now right].
    apply (written_token [10; 9] TStar (lit "*")); [constructor; [|constructor; [|constructor]]; cbn; tauto|apply spelled_symbol; cbn; tauto| |now right].
    apply (written_token (lit " ") _ (lit "2") [] (lit " ")); [repeat constructor|now constructor|constructor; repeat constructor|now right].
  - discriminate.
  - eexists; vm_compute; reflexivity.
Qed.

(** C05: what follows a complete expression and cannot continue it is ignored. *)
Theorem C05_trailing_input_ignored : forall ts src e t s rest gap, written ts src -> no_leading_eq src ->
  parse src = Ok e -> last ts TEof <> TSemicolon ->
  cannot_continue t = true -> spelled t s -> blank gap ->
  parse (src ++ gap :: s ++ gap :: rest) = Ok e.
Proof. exact trailing_ignored. Qed.
Print Assumptions C05_trailing_input_ignored.

(** so it is false that a source is accepted only if it is read to its end *)
Theorem C05_reads_everything_refuted : ~ forall src e c, parse src = Ok e ->
  is_whitespace c = false -> c <> 59 -> parse (src ++ [c]) <> Ok e.
Proof. exact reads_everything_refuted. Qed.
Print Assumptions C05_reads_everything_refuted.

Example C05_nonvacuous : written [TNumber (f_of_Z 2)] (lit "2") /\ cannot_continue TRParen = true /\ spelled TRParen (lit ")")
  /\ parse (lit "2 ) ""@#") = Ok (ENumber (f_of_Z 2)).
Proof.
  split; [|split; [reflexivity|split; [apply spelled_symbol; cbn; tauto|vm_compute; reflexivity]]].
  change (f_of_Z 2) with (f_of_dec false (digits_value (lit "2")) 0).
  apply (written_token [] _ (lit "2") [] []); [constructor| |constructor; constructor|now left].
  apply spelled_number, number_int. split; [discriminate|reflexivity].
Qed.

(** C06: letter case in a source only matters for the names of variables,
    properties and keys. *)
Theorem C06_letter_case : forall ts ts' src src' e, Forall2 same_but_case ts ts' -> written ts src -> written ts' src' ->
  no_leading_eq src -> no_leading_eq src' -> parse src = Ok e ->
  exists e', parse src' = Ok e' /\ rename (map lower_ascii) e = rename (map lower_ascii) e'
             /\ (names_of e = names_of e' -> e = e').
Proof. exact recased_source. Qed.
Print Assumptions C06_letter_case.

Example C06_nonvacuous :
  Forall2 same_but_case [TIdentifier (lit "sum"); TLParen; TTrue; TRParen] [TIdentifier (lit "SuM"); TLParen; TTrue; TRParen]
  /\ written [TIdentifier (lit "sum"); TLParen; TTrue; TRParen] (lit "sum(true)")
  /\ written [TIdentifier (lit "SuM"); TLParen; TTrue; TRParen] (lit "SuM(TRue)")
  /\ parse (lit "sum(true)") = Ok (EFunctionCall (lit "SUM") [EFunctionCall (lit "__CONST_TRUE__") []])
  /\ parse (lit ":a") <> parse (lit ":A").
Proof.
  split; [|split; [|split; [|split; [vm_compute; reflexivity|vm_compute; discriminate]]]].
  - constructor; [right; exists (lit "sum"), (lit "SuM"); repeat split|]. repeat (constructor; [left; reflexivity|]). constructor.
  - apply (written_token [] _ (lit "sum")); [constructor| | |now right].
    + apply spelled_name. split; [exists 115, (lit "um"); repeat split|]. intros [H|[H|H]]; discriminate H.
    + apply (written_token [] _ (lit "(")); [constructor|apply spelled_symbol; cbn; tauto| |now right].
      apply (written_token [] _ (lit "true")); [constructor|apply spelled_true; reflexivity| |now right].
      apply (written_token [] _ (lit ")") [] []); [constructor|apply spelled_symbol; cbn; tauto|constructor; constructor|now left].
  - apply (written_token [] _ (lit "SuM")); [constructor| | |now right].
    + apply spelled_name. split; [exists 83, (lit "uM"); repeat split|]. intros [H|[H|H]]; discriminate H.
    + apply (written_token [] _ (lit "(")); [constructor|apply spelled_symbol; cbn; tauto| |now right].
      apply (written_token [] _ (lit "TRue")); [constructor|apply spelled_true; reflexivity| |now right].
      apply (written_token [] _ (lit ")") [] []); [constructor|apply spelled_symbol; cbn; tauto|constructor; constructor|now left].
Qed.
