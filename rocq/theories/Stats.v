(** [runtime/statistical.rs] *)
From Coq Require Import String List ZArith NArith Bool.
From Verif Require Import Base F64 Syntax Utils Arrays.
Import ListNotations.
Local Open Scope Z_scope.

(** [statistical.rs:9-20] and its copies *)
Fixpoint collect_nums (v : value) : list f64 :=
  match v with
  | VNumber n | VCurrency n => [n]
  | VArray xs => flat_map collect_nums xs
  | _ => []
  end.
Definition all_nums (args : list value) : list f64 := flat_map collect_nums args.

(** indexing a non-empty vector; the default is not reached *)
Definition fnth (xs : list f64) (i : Z) : f64 := nth (Z.to_nat i) xs f_nan.

(** [statistical.rs:7-34] *)
Definition fn_median (args : list value) : res value :=
  let nums := all_nums args in
  match nums with
  | [] => Ok (VNumber f_zero)
  | _ =>
      sorted <- sort_nums nums ;;
      let len := zlen sorted in
      Ok (VNumber (if Z.even len
                   then f_div (f_add (fnth sorted (len / 2 - 1)) (fnth sorted (len / 2))) (f_of_Z 2)
                   else fnth sorted (len / 2)))
  end.

(** occurrences of a bit pattern *)
Definition count_bits (x : f64) (xs : list f64) : nat := length (filter (f_bits_eqb x) xs).
(** [statistical.rs:35-73]: the most frequent number, earliest first occurrence
    on a tie.  The two hash maps are replaced by counting. *)
Definition mode_of (nums : list f64) : option f64 :=
  let best := fold_right (fun x m => Nat.max (count_bits x nums) m) 0%nat nums in
  find (fun x => (count_bits x nums =? best)%nat) nums.
Definition fn_mode (args : list value) : res value :=
  let nums := all_nums args in
  match nums with
  | [] => Ok (VNumber f_zero)
  | _ => match mode_of nums with
         | Some x => Ok (VNumber x)
         | None => Panic "called `Option::unwrap()` on a `None` value"
         end
  end.

(** [iter().sum::<f64>()]; the start value (0.0 or -0.0, depending on the
    standard library version) does not change the results below *)
Definition f_sum (xs : list f64) : f64 := fold_left f_add xs f_zero.
(** [statistical.rs:95-96], [120-121] *)
Definition variance (nums : list f64) : f64 :=
  let n := f_of_Z (zlen nums) in
  let mean := f_div (f_sum nums) n in
  f_div (f_sum (map (fun x => let d := f_sub x mean in f_mul d d) nums)) n.
(** [statistical.rs:74-98] *)
Definition fn_stdevp (args : list value) : res value :=
  match all_nums args with
  | [] => Ok (VNumber f_zero)
  | nums => Ok (VNumber (f_sqrt (variance nums)))
  end.
(** [statistical.rs:99-123] *)
Definition fn_varp (args : list value) : res value :=
  match all_nums args with
  | [] => Ok (VNumber f_zero)
  | nums => Ok (VNumber (variance nums))
  end.

(** [statistical.rs:160-172] and [208-220]: linear interpolation *)
Definition interpolate (sorted : list f64) (percentile : f64) : f64 :=
  let n := zlen sorted in
  let rank := f_mul percentile (f_sub (f_of_Z n) f_one) in
  let lo := f_to_usize (f_floor rank) in
  let hi := f_to_usize (f_ceil rank) in
  if (lo =? hi) || (n <=? hi) then fnth sorted (Z.min lo (n - 1))
  else
    let weight := f_sub rank (f_of_Z lo) in
    f_add (f_mul (fnth sorted lo) (f_sub f_one weight)) (f_mul (fnth sorted hi) weight).

(** [statistical.rs:124-173] *)
Definition fn_percentile (args : list value) : res value :=
  if (length args <? 2)%nat then Err (err "PERCENTILE.INC expects array and percentile")
  else
    let nums := all_nums (removelast args) in
    match last_opt args with
    | Some (VNumber p) =>
        match nums with
        | [] => Ok (VNumber f_zero)
        | _ =>
            if f_ltb p f_zero || f_ltb f_one p
            then Err (err "Percentile must be between 0 and 1")
            else sorted <- sort_nums nums ;; Ok (VNumber (interpolate sorted p))
        end
    | _ => Err (err "Percentile must be a number")
    end.
(** [statistical.rs:174-221] *)
Definition fn_quartile (args : list value) : res value :=
  if (length args <? 2)%nat then Err (err "QUARTILE.INC expects array and quartile")
  else
    let nums := all_nums (removelast args) in
    match last_opt args with
    | Some (VNumber qf) =>
        let q := f_to_i32 qf in
        match nums with
        | [] => Ok (VNumber f_zero)
        | _ =>
            if (q <? 0) || (4 <? q) then Err (err "Quartile must be 0-4")
            else
              sorted <- sort_nums nums ;;
              Ok (VNumber (interpolate sorted (f_div (f_of_Z q) (f_of_Z 4))))
        end
    | _ => Err (err "Quartile must be a number")
    end.

(** [statistical.rs:5-227] *)
Definition exec_statistical (name : str) (args : list value) : res value :=
  if is name "MEDIAN" then fn_median args
  else if is name "MODE.SNGL" || is name "MODESNGL" || is name "MODE_SNGL" then fn_mode args
  else if is name "STDEV.P" || is name "STDEVP" || is name "STDEV_P" then fn_stdevp args
  else if is name "VAR.P" || is name "VARP" || is name "VAR_P" then fn_varp args
  else if is name "PERCENTILE.INC" || is name "PERCENTILEINC" || is name "PERCENTILE_INC"
       then fn_percentile args
  else if is name "QUARTILE.INC" || is name "QUARTILEINC" || is name "QUARTILE_INC"
       then fn_quartile args
  else Err (mkErr (lit "Unknown statistical function: " ++ name) None).
