(** Numbers: literals, operators, rounding functions and printing. *)
From Coq Require Import String List ZArith NArith QArith Qabs Qround Bool.
From Coq Require Import Floats.SpecFloat.
From Verif Require Import Base F64 F64Text Syntax Ext Cast Registry Core Evaluator Lexer Parser Api Spec Spec_syntax Spec_grammar Spec_text Spec_numbers
  Text_proofs Display_proofs Rounding_proofs Number_proofs Special_proofs Shortest_proofs.
Import ListNotations.
Local Open Scope Q_scope.

(** * C45 Writing a number as text and reading it back *)

(** every number, including infinities and NaN, casts to a text that denotes exactly that number, and casting back gives it again *)
Theorem C45_number_text_number : forall (X : Ext) e c x, eval e c = Ok (VNumber x) -> representable x ->
  (exists s, eval (ETypeCast e TyString) c = Ok (VString s) /\ float_text s x) /\ eval (ETypeCast (ETypeCast e TyString) TyFloat) c = Ok (VNumber x).
Proof. exact @number_to_text. Qed.
Print Assumptions C45_number_text_number.

(** the text of a number has the fewest digits of all the decimals that read back as that number, and of those it is the closest one *)
Theorem C45_shortest : forall (X : Ext) e c x, eval e c = Ok (VNumber x) -> representable x -> is_finite x = true -> ~ exact x == 0 ->
  exists s d k, eval (ETypeCast e TyString) c = Ok (VString s) /\ shortest_decimal (sign_bit x) d k x /\ plain_text (sign_bit x) d k s.
Proof. exact @shortest_text. Qed.
Print Assumptions C45_shortest.
Example C45_nonvacuous :
  let X := example_ext in
  evaluate (lit "(0.1 + 0.2)::String") = Ok (VString (lit "0.30000000000000004"))
  /\ evaluate (lit "(((0.1 + 0.2)::String)::Float) = (0.1 + 0.2)") = Ok (VBoolean true)
  /\ evaluate (lit "((1 / 0)::String)::Float") = Ok (VNumber (S754_infinity false))
  /\ representable (f_div (f_of_Z 1) (f_of_Z 3)).
Proof. vm_compute. repeat split; try reflexivity. Qed.
Example C45_shortest_nonvacuous :
  let X := example_ext in
  evaluate (lit "(0 - 2.5)::String") = Ok (VString (lit "-2.5")) /\ plain_text true 25 (-1) (lit "-2.5") /\ plain_text false 12 2 (lit "1200")
  /\ evaluate (lit "(5 / 1000)::String") = Ok (VString (lit "0.005")) /\ plain_text false 5 (-3) (lit "0.005") /\ ~ plain_text false 5 (-1) (lit "0.50").
Proof.
  split; [vm_compute; reflexivity|]. split; [exists (lit "2"), (lit "5"); vm_compute; repeat split; solve [discriminate | left; reflexivity | right; discriminate]|]. split; [exists (lit "1200"), []; vm_compute; repeat split; solve [discriminate | left; reflexivity | right; discriminate]|].
  split; [vm_compute; reflexivity|]. split; [exists (lit "0"), (lit "005"); vm_compute; repeat split; solve [discriminate | left; reflexivity | right; discriminate]|].
  intros (a & b & E & (Na & Da) & _ & _ & Ha & Hb). cbn in E. destruct a as [|a0 [|a1 a2]]; [congruence| |].
  - injection E as <- E. destruct b as [|b0 b]; [discriminate|]. injection E as <- <-. destruct Hb as [Hb|Hb]; [discriminate|now apply Hb].
  - injection E as <- <- _. cbn in Da. discriminate.
Qed.

(** * C46 Whole numbers print as plain decimal integers *)

Theorem C46_whole_to_text : forall (X : Ext) e c z s, eval e c = Ok (num z) -> (Z.abs z < 2 ^ 53)%Z -> (eval (ETypeCast e TyString) c = Ok (VString s) <-> integer_written z s).
Proof. exact @whole_to_text. Qed.
Print Assumptions C46_whole_to_text.
Example C46_nonvacuous :
  let X := example_ext in
  evaluate (lit "(0 - 1200)::String") = Ok (VString (lit "-1200")) /\ integer_written (-1200) (lit "-1200") /\ ~ integer_written (-1200) (lit "-01200").
Proof.
  cbv zeta. split; [vm_compute; reflexivity|]. split; [now apply written_unique|]. intros H. apply written_unique in H. vm_compute in H. discriminate.
Qed.

(** * C47 Arithmetic on whole numbers is exact *)

(** a literal of decimal digits below 2^53 is that number *)
Theorem C47_literal : forall (X : Ext) ds, digits ds -> (Z.of_N (digits_value ds) < 2 ^ 53)%Z -> evaluate ds = Ok (num (Z.of_N (digits_value ds))).
Proof. exact @exact_literal. Qed.
Print Assumptions C47_literal.

(** if the exact result of + - * / on two whole numbers is a whole number of at most 2^53, it is the result *)
Theorem C47_operators : forall (X : Ext) op a b c m n v k, eval a c = Ok (num m) -> eval b c = Ok (num n) ->
  (Z.abs m <= 2 ^ 53)%Z -> (Z.abs n <= 2 ^ 53)%Z -> exact_op op (inject_Z m) (inject_Z n) = Some v -> (op = BDiv -> n <> 0%Z) ->
  v == inject_Z k -> (Z.abs k <= 2 ^ 53)%Z ->
  exists r, eval (EBinary a op b) c = Ok (VNumber r) /\ is_exactly r (inject_Z k).
Proof. exact @whole_operators. Qed.
Print Assumptions C47_operators.

Theorem C47_sum : forall (X : Ext) es c zs, uncustomised c "SUM" -> evaluate_to c es (map num zs) -> (fold_right Z.add 0 (map Z.abs zs) < 2 ^ 53)%Z ->
  eval (call "SUM" es) c = Ok (num (fold_right Z.add 0 zs)%Z).
Proof. exact @sum_whole. Qed.
Print Assumptions C47_sum.

Theorem C47_sum_array : forall (X : Ext) e c zs, uncustomised c "SUM" -> eval e c = Ok (VArray (map num zs)) -> (fold_right Z.add 0 (map Z.abs zs) < 2 ^ 53)%Z ->
  eval (call "SUM" [e]) c = Ok (num (fold_right Z.add 0 zs)%Z).
Proof. exact @sum_whole_array. Qed.
Print Assumptions C47_sum_array.
Example C47_nonvacuous :
  let X := example_ext in
  evaluate (lit "9007199254740990 + 1") = Ok (num 9007199254740991)
  /\ evaluate (lit "94906265 * 94906265") = Ok (num 9007199136250225) /\ evaluate (lit "9007199136250225 / 94906265") = Ok (num 94906265)
  /\ evaluate (lit "SUM(1, 2, 0 - 7)") = Ok (num (-4)) /\ evaluate (lit "SUM([4503599627370496, 4503599627370494])") = Ok (num 9007199254740990)
  /\ exact_op BDiv (inject_Z 6) (inject_Z 3) = Some (inject_Z 6 / inject_Z 3).
Proof. vm_compute. repeat split; try reflexivity. Qed.
Example C47_beyond_refuted :
  let X := example_ext in evaluate (lit "9007199254740992 + 1") = Ok (num 9007199254740992).
Proof. vm_compute. reflexivity. Qed.

(** * C48 Literals and operators are correctly rounded *)

Theorem C48_whole_literal : forall (X : Ext) ds, digits ds -> exists x, evaluate ds = Ok (VNumber x) /\ denotes false (digits_value ds) 0 x.
Proof. exact @whole_literal. Qed.
Print Assumptions C48_whole_literal.

Theorem C48_decimal_literal : forall (X : Ext) ds fs, all_digits ds -> digits fs ->
  exists x, evaluate (ds ++ lit "." ++ fs) = Ok (VNumber x) /\ denotes false (digits_value (ds ++ fs)) (- Z.of_nat (length fs)) x.
Proof. exact @decimal_literal. Qed.
Print Assumptions C48_decimal_literal.

(** the result of + - * / on any finite doubles is the double closest to the exact rational result; of two equally close ones, the one with the even significand *)
Theorem C48_operators : forall (X : Ext) op a b c x y v, eval a c = Ok (VNumber x) -> eval b c = Ok (VNumber y) ->
  representable x -> representable y -> is_finite x = true -> is_finite y = true ->
  exact_op op (exact x) (exact y) = Some v -> (op = BDiv -> ~ exact y == 0) ->
  exists r, eval (EBinary a op b) c = Ok (VNumber r) /\ rounded r v.
Proof. exact @operators_rounded. Qed.
Print Assumptions C48_operators.

(** in particular a result that a double can hold is returned exactly *)
Theorem C48_operators_exact : forall (X : Ext) op a b c x y v, eval a c = Ok (VNumber x) -> eval b c = Ok (VNumber y) ->
  representable x -> representable y -> is_finite x = true -> is_finite y = true ->
  exact_op op (exact x) (exact y) = Some v -> (op = BDiv -> ~ exact y == 0) -> is_double v ->
  exists r, eval (EBinary a op b) c = Ok (VNumber r) /\ is_exactly r v.
Proof. exact @operators_exact. Qed.
Print Assumptions C48_operators_exact.

(** % and MOD are exact: x - y * trunc(x / y) *)
Theorem C48_remainder : forall (X : Ext) a b c x y, eval a c = Ok (VNumber x) -> eval b c = Ok (VNumber y) ->
  representable x -> representable y -> is_finite x = true -> is_finite y = true -> ~ exact y == 0 ->
  exists r, eval (EBinary a BMod b) c = Ok (VNumber r) /\ (uncustomised c "MOD" -> eval (call "MOD" [a; b]) c = Ok (VNumber r)) /\ is_exactly r (exact x - inject_Z (truncated (exact x / exact y)) * exact y).
Proof. exact @remainder_exact. Qed.
Print Assumptions C48_remainder.

(** the rounded result and its sign leave no choice *)
Theorem C48_determined : forall s x y v, rounded x v -> rounded y v -> has_sign s x -> has_sign s y -> x = y.
Proof. exact @rounded_unique. Qed.
Print Assumptions C48_determined.

(** a result that is zero has the sign IEEE 754 prescribes *)
Theorem C48_zero_signs : forall (X : Ext) op a b c x y s, In op operators -> eval a c = Ok (VNumber x) -> eval b c = Ok (VNumber y) ->
  representable x -> representable y -> is_finite x = true -> is_finite y = true -> eval (EBinary a op b) c = Ok (VNumber (S754_zero s)) -> zero_sign op x y s.
Proof. exact @operators_zero. Qed.
Print Assumptions C48_zero_signs.

(** infinities, NaN and division by zero *)
Theorem C48_exceptional : forall (X : Ext) op a b c x y r, eval a c = Ok (VNumber x) -> eval b c = Ok (VNumber y) -> exceptional op x y r -> eval (EBinary a op b) c = Ok (VNumber r).
Proof. exact @operators_exceptional. Qed.
Print Assumptions C48_exceptional.

(** there are no other cases *)
Theorem C48_covered : forall op x y, In op operators ->
  (is_finite x = true /\ is_finite y = true /\ ((op = BDiv \/ op = BMod) -> ~ exact y == 0)) \/ exists r, exceptional op x y r.
Proof. exact @operators_covered. Qed.
Print Assumptions C48_covered.

Theorem C48_negation : forall (X : Ext) e c x, eval e c = Ok (VNumber x) -> representable x -> is_finite x = true ->
  exists r, eval (EUnary UMinus e) c = Ok (VNumber r) /\ is_exactly r (- exact x).
Proof. exact @negation. Qed.
Print Assumptions C48_negation.
Example C48_nonvacuous :
  let X := example_ext in
  evaluate (lit "0.1 + 0.2") = Ok (VNumber (S754_finite false 5404319552844596 (-54)))
  /\ evaluate (lit "5.5 % 2") = Ok (VNumber (S754_finite false 6755399441055744 (-52)))
  /\ evaluate (lit "MOD(0 - 7, 3)") = Ok (num (-1))
  /\ Qeq_bool (exact (S754_finite false 6755399441055744 (-52))) (3 # 2) = true
  /\ truncated (- 7 # 3) = (-2)%Z.
Proof. vm_compute. repeat split; try reflexivity. Qed.

Example C48_exceptional_nonvacuous :
  let X := example_ext in
  evaluate (lit "1 / 0") = Ok (VNumber (S754_infinity false)) /\ evaluate (lit "(0 - 1) / 0") = Ok (VNumber (S754_infinity true)) /\ evaluate (lit "0 / 0") = Ok (VNumber S754_nan)
  /\ evaluate (lit "1 % 0") = Ok (VNumber S754_nan) /\ evaluate (lit "1 / 0 - 1 / 0") = Ok (VNumber S754_nan) /\ evaluate (lit "5 % (1 / 0)") = Ok (num 5)
  /\ evaluate (lit "0 * (0 - 1)") = Ok (VNumber (S754_zero true)) /\ evaluate (lit "1 - 1") = Ok (VNumber (S754_zero false))
  /\ exceptional BDiv (f_of_Z 1) (S754_zero false) (S754_infinity false) /\ exceptional BSub (S754_infinity false) (S754_infinity false) S754_nan.
Proof.
  do 8 (split; [vm_compute; reflexivity|]). split; [|constructor]. apply (quotient_infinite (f_of_Z 1) (S754_zero false)); [discriminate|discriminate|]. right. split; [now exists false|]. intros [s K]. discriminate.
Qed.

(** * C49 Rounding functions return the documented whole number *)

(** FLOOR, INT, CEIL, CEILING and one-argument ROUND, for every finite double *)
Theorem C49_whole_functions : forall (X : Ext) name f e c x, In (name, f) whole_functions -> uncustomised c name -> eval e c = Ok (VNumber x) -> representable x -> is_finite x = true ->
  exists r, eval (call name [e]) c = Ok (VNumber r) /\ is_exactly r (inject_Z (f (exact x))).
Proof. exact @whole_function. Qed.
Print Assumptions C49_whole_functions.

Theorem C49_abs : forall (X : Ext) e c x, uncustomised c "ABS" -> eval e c = Ok (VNumber x) -> representable x -> is_finite x = true ->
  exists r, eval (call "ABS" [e]) c = Ok (VNumber r) /\ is_exactly r (Qabs (exact x)).
Proof. exact @absolute_value. Qed.
Print Assumptions C49_abs.

(** ROUND(x, d) scales, rounds half away from zero and scales back; the scaling and the final division are correctly rounded *)
Theorem C49_round_decimals : forall (X : Ext) a b c x d, uncustomised c "ROUND" -> eval a c = Ok (VNumber x) -> eval b c = Ok (num d) -> representable x -> is_finite x = true ->
  (0 <= d <= 22)%Z -> ~ overflows (exact x * inject_Z (10 ^ d)) ->
  exists y r, eval (call "ROUND" [a; b]) c = Ok (VNumber r) /\ nearest y (exact x * inject_Z (10 ^ d)) /\ rounded r (inject_Z (half_away (exact y)) / inject_Z (10 ^ d)).
Proof. exact @round_decimals. Qed.
Print Assumptions C49_round_decimals.
Example C49_nonvacuous :
  let X := example_ext in
  evaluate (lit "FLOOR(0 - 2.5)") = Ok (num (-3)) /\ evaluate (lit "CEIL(0 - 2.5)") = Ok (num (-2)) /\ evaluate (lit "INT(2.9)") = Ok (num 2)
  /\ evaluate (lit "ROUND(0 - 2.5)") = Ok (num (-3)) /\ evaluate (lit "ROUND(2.5)") = Ok (num 3) /\ evaluate (lit "ABS(0 - 2)") = Ok (num 2)
  /\ evaluate (lit "ROUND(3.14159, 2) = 3.14") = Ok (VBoolean true)
  /\ half_away (- 5 # 2) = (-3)%Z /\ half_away (5 # 2) = 3%Z /\ Qfloor (- 5 # 2) = (-3)%Z /\ Qceiling (- 5 # 2) = (-2)%Z.
Proof. vm_compute. repeat split; try reflexivity. Qed.
(** decimal rounding acts on the scaled double, so a literal just below a tie may round up *)
Example C49_decimal_tie_refuted :
  let X := example_ext in evaluate (lit "ROUND(1.005, 2) = 1") = Ok (VBoolean true) /\ evaluate (lit "ROUND(2.675, 2) = 2.68") = Ok (VBoolean true).
Proof. vm_compute. split; reflexivity. Qed.
