(** [runtime/financial.rs] *)
From Coq Require Import String List ZArith NArith Bool.
From Verif Require Import Base F64 Syntax Ext Utils.
Import ListNotations.
Local Open Scope Z_scope.

(** [args[i].as_number().ok_or_else(..)?] *)
Definition req_num (args : list value) (i : nat) (msg : string) : res f64 :=
  match nth_error args i with
  | Some (VNumber n) => Ok n
  | _ => Err (err msg)
  end.
(** [args.get(i).and_then(|v| v.as_number()).unwrap_or(d)] *)
Definition opt_num (args : list value) (i : nat) (d : f64) : f64 :=
  match nth_error args i with Some (VNumber n) => n | _ => d end.
Definition arity_between (args : list value) (lo hi : nat) : bool :=
  (lo <=? length args)%nat && (length args <=? hi)%nat.

Definition f_12 : f64 := f_of_Z 12.
(** iterate [f] [z] times (not at all when [z <= 0]) *)
Definition iterZ (z : Z) (f : f64 -> f64) (x : f64) : f64 := Nat.iter (Z.to_nat z) f x.

(** the payment of [financial.rs:26-27] and [120-121] *)
Definition annuity_payment {X : Ext} (rate nper pv fv : f64) (at_beginning : bool) : f64 :=
  let pvif := x_powf (f_add f_one rate) nper in
  f_div (f_neg (f_add (f_mul pv pvif) fv))
        (f_mul (f_div (f_sub pvif f_one) rate) (if at_beginning then f_add f_one rate else f_one)).

(** [financial.rs:6-32] *)
Definition fn_pmt {X : Ext} (args : list value) : res value :=
  if negb (arity_between args 3 5)
  then Err (err "PMT expects 3-5 arguments: rate, nper, pv, [fv], [type]")
  else
    rate <- req_num args 0 "PMT rate must be a number" ;;
    nper <- req_num args 1 "PMT nper must be a number" ;;
    pv <- req_num args 2 "PMT pv must be a number" ;;
    let fv := opt_num args 3 f_zero in
    let ptype := opt_num args 4 f_zero in
    if f_leb nper f_zero then Err (err "PMT nper must be positive")
    else
      let at_beginning := negb (f_eqb ptype f_zero) in
      Ok (VNumber (if f_eqb rate f_zero then f_div (f_neg (f_add pv fv)) nper
                   else annuity_payment rate nper pv fv at_beginning)).

(** [financial.rs:33-71] *)
Definition fn_db {X : Ext} (args : list value) : res value :=
  if negb (arity_between args 4 5)
  then Err (err "DB expects 4-5 arguments: cost, salvage, life, period, [month]")
  else
    cost <- req_num args 0 "DB cost must be a number" ;;
    salvage <- req_num args 1 "DB salvage must be a number" ;;
    life <- req_num args 2 "DB life must be a number" ;;
    period <- req_num args 3 "DB period must be a number" ;;
    let month := opt_num args 4 f_12 in
    if f_ltb cost f_zero || f_ltb salvage f_zero || f_leb life f_zero || f_ltb period f_zero
    then Err (err "DB arguments must be non-negative (life must be positive)")
    else if f_ltb life period then Ok (VNumber f_zero)
    else
      let rate := f_sub f_one (x_powf (f_div salvage cost) (f_div f_one life)) in
      let first := f_div (f_mul (f_mul cost rate) month) f_12 in
      if f_eqb period f_one then Ok (VNumber first)
      else
        let book0 := f_sub cost first in
        let book := iterZ (f_to_i32 period - 2) (fun b => f_sub b (f_mul b rate)) book0 in
        let cur :=
          if (f_to_i32 period =? f_to_i32 life) && f_ltb month f_12
          then f_div (f_mul (f_mul book rate) (f_sub f_12 month)) f_12
          else f_mul book rate in
        Ok (VNumber (f_max cur f_zero)).

(** [financial.rs:72-98] *)
Definition fn_fv {X : Ext} (args : list value) : res value :=
  if negb (arity_between args 3 5)
  then Err (err "FV expects 3-5 arguments: rate, nper, pmt, [pv], [type]")
  else
    rate <- req_num args 0 "FV rate must be a number" ;;
    nper <- req_num args 1 "FV nper must be a number" ;;
    pmt <- req_num args 2 "FV pmt must be a number" ;;
    let pv := opt_num args 3 f_zero in
    let ptype := opt_num args 4 f_zero in
    if f_ltb nper f_zero then Err (err "FV nper must be non-negative")
    else
      let at_beginning := negb (f_eqb ptype f_zero) in
      if f_eqb rate f_zero then Ok (VNumber (f_sub (f_neg pv) (f_mul pmt nper)))
      else
        let compound := x_powf (f_add f_one rate) nper in
        let annuity := f_mul (f_div (f_sub compound f_one) rate)
                             (if at_beginning then f_add f_one rate else f_one) in
        Ok (VNumber (f_sub (f_mul (f_neg pv) compound) (f_mul pmt annuity))).

(** [financial.rs:99-138] *)
Definition fn_ipmt {X : Ext} (args : list value) : res value :=
  if negb (arity_between args 4 6)
  then Err (err "IPMT expects 4-6 arguments: rate, per, nper, pv, [fv], [type]")
  else
    rate <- req_num args 0 "IPMT rate must be a number" ;;
    per <- req_num args 1 "IPMT per must be a number" ;;
    nper <- req_num args 2 "IPMT nper must be a number" ;;
    pv <- req_num args 3 "IPMT pv must be a number" ;;
    let fv := opt_num args 4 f_zero in
    let ptype := opt_num args 5 f_zero in
    if f_ltb per f_one || f_ltb nper per || f_leb nper f_zero
    then Err (err "IPMT period must be between 1 and nper")
    else
      let at_beginning := negb (f_eqb ptype f_zero) in
      if f_eqb rate f_zero then Ok (VNumber f_zero)
      else
        let pmt := annuity_payment rate nper pv fv at_beginning in
        let step b :=
          let interest := f_mul b rate in
          let principal := if at_beginning then f_sub pmt (f_div interest (f_add f_one rate))
                           else f_sub pmt interest in
          f_add b principal in
        let balance := iterZ (f_to_i32 per - 1) step pv in
        Ok (VNumber (if at_beginning && f_eqb per f_one then f_zero else f_mul balance rate)).

(** [financial.rs:4-140] *)
Definition exec_financial {X : Ext} (name : str) (args : list value) : res value :=
  if is name "PMT" then fn_pmt args
  else if is name "DB" then fn_db args
  else if is name "FV" then fn_fv args
  else if is name "IPMT" then fn_ipmt args
  else Err (mkErr (lit "Unknown financial function: " ++ name) None).
