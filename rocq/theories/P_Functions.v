(** Property theorems about the text, path and financial functions. *)
From Coq Require Import String List ZArith NArith Bool QArith.
From Coq Require Import Floats.SpecFloat.
From Verif Require Import Base F64 Syntax Ext Json Registry Core Evaluator Api Spec_http Spec_registry Spec_syntax Spec_text Spec_json Spec_numbers Spec_stats Spec Spec_methods Spec_functions Function_proofs Finance_proofs.
Import ListNotations.
Local Open Scope Z_scope.

(** * C74 Text functions *)
Theorem C74_concat : forall (X : Ext) c es vs, uncustomised c "CONCAT" -> evaluate_to c es vs -> Forall doubles vs ->
  exists ss, eval (call "CONCAT" es) c = Ok (VString (concat ss)) /\ Forall2 inlined vs ss.
Proof. exact @concat_call. Qed.
Print Assumptions C74_concat.
Theorem C74_concat_number : forall (X : Ext) c e x, uncustomised c "CONCAT" -> eval e c = Ok (VNumber x) ->
  eval (call "CONCAT" [e]) c = eval (ETypeCast e TyString) c.
Proof. exact @concat_number. Qed.
Print Assumptions C74_concat_number.
Theorem C74_length : forall (X : Ext) c e v, uncustomised c "LENGTH" -> eval e c = Ok v ->
  match v with
  | VString s => eval (call "LENGTH" [e]) c = Ok (num (Z.of_nat (length s)))
  | VArray xs => eval (call "LENGTH" [e]) c = Ok (num (Z.of_nat (length xs)))
  | VNull => eval (call "LENGTH" [e]) c = Ok (num 0)
  | _ => fails (eval (call "LENGTH" [e]) c)
  end.
Proof. exact @length_call. Qed.
Print Assumptions C74_length.
Theorem C74_letter_case : forall (X : Ext) c e s (up : bool), uncustomised c (if up then "UPPER" else "LOWER") -> eval e c = Ok (VString s) -> ascii s ->
  eval (call (if up then "UPPER" else "LOWER") [e]) c = Ok (VString (map (if up then upper_ascii else lower_ascii) s)).
Proof. exact @case_call. Qed.
Print Assumptions C74_letter_case.
Theorem C74_trim : forall (X : Ext) c e s, uncustomised c "TRIM" -> eval e c = Ok (VString s) ->
  exists core, eval (call "TRIM" [e]) c = Ok (VString core) /\ trimmed s core.
Proof. exact @trim_call. Qed.
Print Assumptions C74_trim.
(** white space is the White_Space property of Unicode *)
Theorem C74_white_space : forall ch, is_whitespace ch = true <-> In ch unicode_white_space.
Proof. exact @white_space. Qed.
Print Assumptions C74_white_space.
Theorem C74_text_only : forall (X : Ext) c e v name, In name ["UPPER"; "LOWER"; "TRIM"]%string -> uncustomised c name -> eval e c = Ok v -> (forall s, v <> VString s) ->
  fails (eval (call name [e]) c).
Proof. exact @text_only. Qed.
Print Assumptions C74_text_only.
Theorem C74_includes : forall (X : Ext) c a b s p, uncustomised c "INCLUDES" -> eval a c = Ok (VString s) -> eval b c = Ok (VString p) ->
  decides (eval (call "INCLUDES" [a; b]) c) (occurs p s).
Proof. exact @includes_call. Qed.
Print Assumptions C74_includes.
Theorem C74_isblank : forall (X : Ext) c e v, uncustomised c "ISBLANK" -> eval e c = Ok v -> decides (eval (call "ISBLANK" [e]) c) (blank v).
Proof. exact @isblank_call. Qed.
Print Assumptions C74_isblank.
Theorem C74_isnumber : forall (X : Ext) c e v, uncustomised c "ISNUMBER" -> eval e c = Ok v ->
  decides (eval (call "ISNUMBER" [e]) c) (exists x, v = VNumber x \/ v = VCurrency x).
Proof. exact @isnumber_call. Qed.
Print Assumptions C74_isnumber.
Theorem C74_istext : forall (X : Ext) c e v, uncustomised c "ISTEXT" -> eval e c = Ok v -> decides (eval (call "ISTEXT" [e]) c) (exists s, v = VString s).
Proof. exact @istext_call. Qed.
Print Assumptions C74_istext.
Example C74_nonvacuous :
  let X := example_ext in
  evaluate (lit "CONCAT('a', 1.5, [TRUE, ['b', null]], 0-7)") = Ok (VString (lit "a1.5TRUEb-7")) /\ evaluate (lit "LENGTH(TRIM('  ab c '))") = Ok (num 4)
  /\ evaluate (lit "UPPER('aBc')") = Ok (VString (lit "ABC")) /\ fails (evaluate (lit "LOWER(1)")) /\ evaluate (lit "INCLUDES('hello', 'll')") = Ok (VBoolean true)
  /\ evaluate (lit "ISBLANK(' ')") = Ok (VBoolean true) /\ evaluate (lit "ISNUMBER('1')") = Ok (VBoolean false) /\ evaluate (lit "ISTEXT('1')") = Ok (VBoolean true)
  /\ inlined (VArray [VBoolean true; VArray [VString (lit "b"); VNull]]) (lit "TRUEb").
Proof.
  cbv zeta. repeat (split; [vm_compute; first [reflexivity | eexists; reflexivity]|]).
  change (lit "TRUEb") with (concat [lit "TRUE"; concat [lit "b"; []]]). repeat constructor.
Qed.

(** * C75 BETWEEN and powers *)
(** BETWEEN is only known inside method arguments (C30) *)
Theorem C75_between : forall (X : Ext) vars a b e lo hi x, ev a (Some vars) = Ok (VNumber lo) -> ev b (Some vars) = Ok (VNumber hi) -> ev e (Some vars) = Ok (VNumber x) ->
  decides (ev (call "BETWEEN" [a; b; e]) (Some vars)) (number_relation BLe lo x /\ number_relation BLe x hi).
Proof. exact @between_call. Qed.
Print Assumptions C75_between.
Theorem C75_power : forall (X : Ext) c a b x y name, In name ["POW"; "POWER"]%string -> uncustomised c name -> eval a c = Ok (VNumber x) -> eval b c = Ok (VNumber y) ->
  eval (call name [a; b]) c = Ok (VNumber (x_powf x y)) /\ eval (EBinary a BPow b) c = Ok (VNumber (x_powf x y)).
Proof. exact @pow_call. Qed.
Print Assumptions C75_power.
Example C75_nonvacuous :
  let X := example_powers in
  evaluate (lit "[1, 2, 3, 4].filter(BETWEEN(2, 3, :x))") = Ok (VArray [num 2; num 3]) /\ evaluate (lit "POW(2, 5) = 2 ^ 5") = Ok (VBoolean true) /\ evaluate (lit "POWER(2, 5)") = Ok (num 32).
Proof. vm_compute. repeat split. Qed.

(** * C76 JQ hands the value to the path engine and its matches back *)
Theorem C76_matches : forall (X : Ext) c a b v j p rs, uncustomised c "JQ" -> eval a c = Ok v -> eval b c = Ok (VString (lit "$" ++ p)) -> json_form v j ->
  x_jsonpath j (lit "$" ++ p) = inl rs ->
  exists ws, Forall2 Spec_json.stands_for rs ws /\ eval (call "JQ" [a; b]) c = Ok (match ws with [w] => w | _ => VArray ws end).
Proof. exact @jq_call. Qed.
Print Assumptions C76_matches.
Theorem C76_fails : forall (X : Ext) c a b v w, uncustomised c "JQ" -> eval a c = Ok v -> eval b c = Ok w ->
  (forall p, w <> VString (lit "$" ++ p)) \/ (exists j p e, w = VString p /\ json_form v j /\ x_jsonpath j p = inr e) -> fails (eval (call "JQ" [a; b]) c).
Proof. exact @jq_fails. Qed.
Print Assumptions C76_fails.
Theorem C76_arguments : forall (X : Ext) c es, uncustomised c "JQ" -> length es <> 2%nat -> fails (eval (call "JQ" es) c).
Proof. exact @jq_arguments. Qed.
Print Assumptions C76_arguments.
Example C76_nonvacuous :
  let X := example_powers in
  evaluate (lit "JQ({a: [1, 'x']}, '$.a')") = Ok (VArray [num 1; VString (lit "x")]) /\ evaluate (lit "JQ({a: 1}, '$.b')") = Ok (VArray [])
  /\ evaluate (lit "JQ([1, 2], '$*')") = Ok (VArray [num 1; num 2]) /\ evaluate (lit "JQ([7], '$*')") = Ok (num 7) /\ fails (evaluate (lit "JQ({a: 1}, 'a')")) /\ fails (evaluate (lit "JQ({a: 1}, '$[')"))
  /\ json_form (VArray [num 7; num (-7); VString (lit "x")]) (JArr [JNum (JPos 7); JNum (JNeg (-7)); JStr (lit "x")]).
Proof.
  cbv zeta. repeat (split; [vm_compute; first [reflexivity | eexists; reflexivity]|]). repeat constructor; vm_compute; reflexivity || discriminate.
Qed.

(** * C77 Financial functions *)
(** the same sums as the textbook formulas, in doubles; an optional argument that is not a number counts as missing *)
Theorem C77_payment : forall (X : Ext) c es rate nper pv more fv ty, uncustomised c "PMT" ->
  evaluate_to c es (VNumber rate :: VNumber nper :: VNumber pv :: more) -> (length more <= 2)%nat -> optional more 0 f_zero fv -> optional more 1 f_zero ty ->
  (number_relation BLe nper f_zero -> fails (eval (call "PMT" es) c)) /\
  (~ number_relation BLe nper f_zero -> number_relation BEq rate f_zero ->
     eval (call "PMT" es) c = Ok (VNumber (f_div (f_neg (f_add pv fv)) nper))) /\
  (~ number_relation BLe nper f_zero -> ~ number_relation BEq rate f_zero ->
     eval (call "PMT" es) c = Ok (VNumber (f_div (f_neg (f_add (f_mul pv (growth rate nper)) fv)) (annuity rate nper (at_start ty))))).
Proof. exact @pmt_call. Qed.
Print Assumptions C77_payment.
Theorem C77_future_value : forall (X : Ext) c es rate nper pmt more pv ty, uncustomised c "FV" ->
  evaluate_to c es (VNumber rate :: VNumber nper :: VNumber pmt :: more) -> (length more <= 2)%nat -> optional more 0 f_zero pv -> optional more 1 f_zero ty ->
  (number_relation BLt nper f_zero -> fails (eval (call "FV" es) c)) /\
  (~ number_relation BLt nper f_zero -> number_relation BEq rate f_zero ->
     eval (call "FV" es) c = Ok (VNumber (f_sub (f_neg pv) (f_mul pmt nper)))) /\
  (~ number_relation BLt nper f_zero -> ~ number_relation BEq rate f_zero ->
     eval (call "FV" es) c = Ok (VNumber (f_sub (f_mul (f_neg pv) (growth rate nper)) (f_mul pmt (annuity rate nper (at_start ty)))))).
Proof. exact @fv_call. Qed.
Print Assumptions C77_future_value.
(** without interest, whole amounts that divide evenly: the payments are exact and lead exactly to the future value *)
Theorem C77_without_interest : forall (X : Ext) c er en ep ef epay n pv fv q pay, uncustomised c "PMT" -> uncustomised c "FV" ->
  eval er c = Ok (num 0) -> eval en c = Ok (num n) -> eval ep c = Ok (num pv) -> eval ef c = Ok (num fv) ->
  0 < n <= 2 ^ 53 -> Z.abs pv <= 2 ^ 53 -> Z.abs fv <= 2 ^ 53 -> Z.abs (pv + fv) <= 2 ^ 53 -> pv + fv = n * q ->
  (eval (call "PMT" [er; en; ep; ef]) c = Ok (VNumber pay) -> is_exactly pay (inject_Z (- q))) /\
  (exists p, eval (call "PMT" [er; en; ep; ef]) c = Ok (VNumber p)) /\
  (eval epay c = Ok (VNumber pay) -> is_exactly pay (inject_Z (- q)) ->
     exists v, eval (call "FV" [er; en; epay; ep]) c = Ok (VNumber v) /\ is_exactly v (inject_Z fv)).
Proof. exact @zero_rate. Qed.
Print Assumptions C77_without_interest.
(** the interest of the first period, and of the later ones by the balance the code keeps; [es'] are the arguments without the period *)
Theorem C77_interest : forall (X : Ext) c es es' rate per nper pv more fv ty, uncustomised c "IPMT" -> uncustomised c "PMT" ->
  evaluate_to c es (VNumber rate :: VNumber per :: VNumber nper :: VNumber pv :: more) -> (length more <= 2)%nat ->
  evaluate_to c es' (VNumber rate :: VNumber nper :: VNumber pv :: more) -> optional more 0 f_zero fv -> optional more 1 f_zero ty ->
  (number_relation BLt per f_one \/ number_relation BLt nper per \/ number_relation BLe nper f_zero -> fails (eval (call "IPMT" es) c)) /\
  (~ (number_relation BLt per f_one \/ number_relation BLt nper per \/ number_relation BLe nper f_zero) ->
     (number_relation BEq rate f_zero -> eval (call "IPMT" es) c = Ok (num 0)) /\
     (~ number_relation BEq rate f_zero -> forall k, per = f_of_Z (Z.of_nat k) -> Z.of_nat k < 2 ^ 31 ->
        exists pmt b, eval (call "PMT" es') c = Ok (VNumber pmt) /\ tallied pv pmt rate (at_start ty) k b
          /\ eval (call "IPMT" es) c = Ok (VNumber (if at_start ty && (k =? 1)%nat then f_zero else f_mul b rate)))).
Proof. exact @ipmt_call. Qed.
Print Assumptions C77_interest.
(** from the second period on that is not the interest on what is owed: a loan of 300 at 100% over two periods is paid
    by 400 each; after the first payment 200 are owed, and the interest is 200, not -400 *)
Theorem C77_later_interest_refuted :
  let X := example_powers in
  evaluate (lit "PMT(1, 2, 300)") = Ok (num (-400)) /\ owed (f_of_Z 300) (f_of_Z (-400)) f_one 2 (f_of_Z 200) /\ owed (f_of_Z 300) (f_of_Z (-400)) f_one 3 f_zero
  /\ f_mul (f_of_Z 200) f_one = f_of_Z 200 /\ evaluate (lit "IPMT(1, 2, 2, 300)") = Ok (num (-400)).
Proof.
  cbv zeta. split; [vm_compute; reflexivity|]. assert (O : owed (f_of_Z 300) (f_of_Z (-400)) f_one 2 (f_of_Z 200)) by exact (owed_next _ _ _ _ _ (owed_first _ _ _)).
  split; [exact O|]. split; [exact (owed_next _ _ _ _ _ O)|]. vm_compute. repeat split.
Qed.
Theorem C77_depreciation : forall (X : Ext) c es cost salvage life period more month, uncustomised c "DB" ->
  evaluate_to c es (VNumber cost :: VNumber salvage :: VNumber life :: VNumber period :: more) -> (length more <= 1)%nat -> optional more 0 (f_of_Z 12) month ->
  let rate := decline cost salvage life in
  let wrong := number_relation BLt cost f_zero \/ number_relation BLt salvage f_zero \/ number_relation BLe life f_zero \/ number_relation BLt period f_zero in
  (wrong -> fails (eval (call "DB" es) c)) /\
  (~ wrong -> number_relation BLt life period -> eval (call "DB" es) c = Ok (num 0)) /\
  (~ wrong -> ~ number_relation BLt life period -> forall k l, period = f_of_Z (Z.of_nat k) -> Z.of_nat k < 2 ^ 31 -> is_finite life = true -> truncated (exact life) = l -> l < 2 ^ 31 ->
     (k = 1%nat -> eval (call "DB" es) c = Ok (VNumber (first_year cost rate month))) /\
     (forall j, k = S (S j) -> exists b, booked cost rate month (S j) b /\
        eval (call "DB" es) c = Ok (VNumber (f_max (if (Z.of_nat k =? l) && f_ltb month (f_of_Z 12)
                                                   then f_div (f_mul (f_mul b rate) (f_sub (f_of_Z 12) month)) (f_of_Z 12)
                                                   else f_mul b rate) f_zero)))).
Proof. exact @db_call. Qed.
Print Assumptions C77_depreciation.
(** a period 0 is accepted and depreciates like the second *)
Theorem C77_period_zero_refuted :
  let X := example_powers in evaluate (lit "DB(100, 25, 2, 0)") = Ok (num 25) /\ evaluate (lit "DB(100, 25, 2, 2)") = Ok (num 25).
Proof. vm_compute. repeat split. Qed.
Theorem C77_argument_count : forall (X : Ext) c es vs name lo hi, In (name, (lo, hi)) financial_arity -> uncustomised c name -> evaluate_to c es vs ->
  (length vs < lo)%nat \/ (hi < length vs)%nat -> fails (eval (call name es) c).
Proof. exact @finance_arity. Qed.
Print Assumptions C77_argument_count.
Theorem C77_numbers_only : forall (X : Ext) c es vs name lo hi i v, In (name, (lo, hi)) financial_arity -> uncustomised c name -> evaluate_to c es vs ->
  (i < lo)%nat -> nth_error vs i = Some v -> (forall x, v <> VNumber x) -> fails (eval (call name es) c).
Proof. exact @finance_numbers. Qed.
Print Assumptions C77_numbers_only.
Example C77_nonvacuous :
  let X := example_powers in
  evaluate (lit "PMT(0, 4, 100, 20)") = Ok (num (-30)) /\ evaluate (lit "FV(0, 4, 0-30, 100)") = Ok (num 20) /\ evaluate (lit "FV(1, 2, 0-400, 300)") = Ok (num 0)
  /\ evaluate (lit "PMT(1, 2, 300, 0, 1)") = Ok (num (-200)) /\ evaluate (lit "IPMT(1, 1, 2, 300)") = Ok (num 300) /\ evaluate (lit "DB(100, 25, 2, 1, 6)") = Ok (num 25)
  /\ evaluate (lit "DB(100, 25, 2, 2, 6)") = Ok (VNumber (f_div (f_of_Z 75) (f_of_Z 4))) /\ fails (evaluate (lit "PMT(1, 0, 300)")) /\ fails (evaluate (lit "DB(1, 'x', 2, 2)")).
Proof. cbv zeta. repeat (split; [vm_compute; first [reflexivity | eexists; reflexivity]|]). vm_compute. eexists. reflexivity. Qed.
