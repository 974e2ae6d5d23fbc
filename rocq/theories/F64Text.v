(** Text forms of [f64] and [i64]: what Rust's [Display], [Debug], [{:.p}] and
    [FromStr] do.  These are standard-library functions, not code of this
    repository; they are modelled because results of the crate contain them. *)
From Coq Require Import String List ZArith NArith Bool.
From Coq Require Import Floats.SpecFloat.
From Verif Require Import Base F64.
Import ListNotations.
Local Open Scope Z_scope.

(** ** Reading *)

(** leading digits of a text *)
Fixpoint span_digits (s : str) : str * str :=
  match s with
  | c :: r => if is_digit c then let '(d, r') := span_digits r in (c :: d, r') else ([], s)
  | [] => ([], [])
  end.
Definition dec_N (digits : str) : N := fold_left (fun a b => a * 10 + (b - 48))%N digits 0%N.

(** optional exponent part: [e|E][+|-]digits; [None] if malformed *)
Definition read_exp (s : str) : option Z :=
  match s with
  | [] => Some 0
  | c :: r =>
      if (N.eqb c 101 || N.eqb c 69)%bool then
        let '(neg, r1) := match r with
                          | 45%N :: r' => (true, r')
                          | 43%N :: r' => (false, r')
                          | _ => (false, r)
                          end in
        let '(d, r2) := span_digits r1 in
        match d, r2 with
        | _ :: _, [] => Some (if neg : bool then - Z.of_N (dec_N d) else Z.of_N (dec_N d))
        | _, _ => None
        end
      else None
  end.

(** [f64::from_str] on an unsigned text *)
Definition read_unsigned (neg : bool) (s : str) : option f64 :=
  let low := map lower_ascii s in
  if str_eqb low (lit "inf") || str_eqb low (lit "infinity") then Some (S754_infinity neg)
  else if str_eqb low (lit "nan") then Some S754_nan
  else
    let '(ip, r) := span_digits s in
    let '(fp, r') := match r with
                     | 46%N :: r1 => span_digits r1
                     | _ => ([], r)
                     end in
    match ip ++ fp with
    | [] => None
    | ds =>
        match read_exp r' with
        | Some e => Some (f_of_dec neg (dec_N ds) (e - Z.of_nat (length fp)))
        | None => None
        end
    end.

(** [str::parse::<f64>().ok()] *)
Definition f_from_str (s : str) : option f64 :=
  match s with
  | 45%N :: r => read_unsigned true r
  | 43%N :: r => read_unsigned false r
  | _ => read_unsigned false s
  end.

(** [str::parse::<i64>().ok()] *)
Definition i64_from_str (s : str) : option Z :=
  let '(neg, r) := match s with
                   | 45%N :: r => (true, r)
                   | 43%N :: r => (false, r)
                   | _ => (false, s)
                   end in
  match span_digits r with
  | ((_ :: _) as d, []) =>
      let v := if neg : bool then - Z.of_N (dec_N d) else Z.of_N (dec_N d) in
      if (i64_min <=? v) && (v <=? i64_max) then Some v else None
  | _ => None
  end.

(** ** Printing *)

(** Is m * 2^e >= 10^k ? *)
Definition ge_pow10 (m : positive) (e k : Z) : bool :=
  let l := if 0 <=? e then Zpos m * 2 ^ e else Zpos m in
  let l' := if k <? 0 then l * 10 ^ (- k) else l in
  let r := if 0 <=? k then 10 ^ k else 1 in
  let r' := if e <? 0 then r * 2 ^ (- e) else r in
  r' <=? l'.

(** the [k] with 10^(k-1) <= m*2^e < 10^k (estimate from log2, then adjust) *)
Definition dec_exponent (m : positive) (e : Z) : Z :=
  let est := ((Z.log2 (Zpos m) + e) * 30103) / 100000 in
  if ge_pow10 m e (est + 1) then est + 2
  else if ge_pow10 m e est then est + 1
  else est.

(** floor and remainder of m*2^e * 10^t, as (quotient, remainder, divisor) *)
Definition scaled (m : positive) (e t : Z) : Z * Z * Z :=
  let num := Zpos m * (if 0 <=? e then 2 ^ e else 1) * (if 0 <=? t then 10 ^ t else 1) in
  let den := (if e <? 0 then 2 ^ (- e) else 1) * (if t <? 0 then 10 ^ (- t) else 1) in
  (num / den, num mod den, den).

(** [n]-digit candidates around m*2^e that read back as the same float; the
    nearer one wins, the upper one on a tie. *)
Definition candidate (m : positive) (e k : Z) (n : nat) : option (N * Z) :=
  let t := Z.of_nat n - k in
  let '(q, r, d) := scaled m e t in
  let x := S754_finite false m e in
  let ok (c : Z) := f_bits_eqb (f_of_dec false (Z.to_N c) (- t)) x in
  let lo := ok q in
  let hi := ok (q + 1) in
  if hi && (negb lo || (d <=? 2 * r)) then Some (Z.to_N (q + 1), - t)
  else if lo then Some (Z.to_N q, - t)
  else None.

Fixpoint search_digits (m : positive) (e k : Z) (n : nat) (todo : nat) : option (N * Z) :=
  match candidate m e k n with
  | Some c => Some c
  | None => match todo with O => None | S t => search_digits m e k (S n) t end
  end.

(** shortest decimal (digits, exponent): value = digits * 10^exponent.  17
    digits always suffice for binary64; the last line (the exact expansion)
    is never reached and is there to make the function total. *)
Definition shortest (m : positive) (e : Z) : N * Z :=
  match search_digits m e (dec_exponent m e) 1 16 with
  | Some c => c
  | None => if 0 <=? e then (Z.to_N (Zpos m * 2 ^ e), 0) else (Z.to_N (Zpos m * 5 ^ (- e)), e)
  end.

Fixpoint zeros (n : nat) : str := match n with O => [] | S k => 48%N :: zeros k end.

(** digits [ds] with the decimal point after position [k] (may be outside) *)
Definition place_point (ds : str) (k : Z) : str * str :=
  let n := Z.of_nat (length ds) in
  if k <=? 0 then ([48%N], zeros (Z.to_nat (- k)) ++ ds)
  else if n <=? k then (ds ++ zeros (Z.to_nat (k - n)), [])
  else (firstn (Z.to_nat k) ds, skipn (Z.to_nat k) ds).

Fixpoint strip_trailing_zeros (ds : str) : str :=
  match ds with
  | [] => []
  | c :: r => match strip_trailing_zeros r with
              | [] => if N.eqb c 48 then [] else [c]
              | r' => c :: r'
              end
  end.

Definition with_sign (neg : bool) (s : str) : str := if neg then 45%N :: s else s.

(** shortest digits (no trailing zeros) and point position *)
Definition digits_of (m : positive) (e : Z) : str * Z :=
  let '(d, x) := shortest m e in
  let ds := N_to_str d in
  (strip_trailing_zeros ds, Z.of_nat (length ds) + x).

(** [Display] for f64: never an exponent *)
Definition f_display (x : f64) : str :=
  match x with
  | S754_nan => lit "NaN"
  | S754_infinity s => with_sign s (lit "inf")
  | S754_zero s => with_sign s (lit "0")
  | S754_finite s m e =>
      let '(ds, k) := digits_of m e in
      let '(ip, fp) := place_point ds k in
      with_sign s (match fp with [] => ip | _ => ip ++ 46%N :: fp end)
  end.

(** d.ddd e exp *)
Definition sci (ds : str) (k : Z) (plus : bool) : str :=
  let mant := match ds with
              | [] => [48%N]
              | [d] => [d]
              | d :: r => d :: 46%N :: r
              end in
  let ex := k - 1 in
  mant ++ 101%N :: (if plus && (0 <=? ex) then 43%N :: Z_to_str ex else Z_to_str ex).

(** [Debug] for f64: at least one decimal; exponent form outside [1e-4, 1e16) *)
Definition f_debug (x : f64) : str :=
  match x with
  | S754_nan => lit "NaN"
  | S754_infinity s => with_sign s (lit "inf")
  | S754_zero s => with_sign s (lit "0.0")
  | S754_finite s m e =>
      let '(ds, k) := digits_of m e in
      with_sign s
        (if (-3 <=? k) && (k <=? 16) then
           let '(ip, fp) := place_point ds k in
           ip ++ 46%N :: (match fp with [] => [48%N] | _ => fp end)
         else sci ds k false)
  end.

(** [{:.p}]: exact decimal value rounded half to even *)
Definition round_half_even (q r d : Z) : Z :=
  if 2 * r <? d then q
  else if d <? 2 * r then q + 1
  else if Z.even q then q else q + 1.
Definition f_fixed (p : nat) (x : f64) : str :=
  match x with
  | S754_nan => lit "NaN"
  | S754_infinity s => with_sign s (lit "inf")
  | _ =>
      let '(s, z) := match x with
                     | S754_finite s m e =>
                         let '(q, r, d) := scaled m e (Z.of_nat p) in (s, round_half_even q r d)
                     | S754_zero s => (s, 0)
                     | _ => (false, 0)
                     end in
      let ds := N_to_str (Z.to_N z) in
      let ds' := zeros (S p - length ds) ++ ds in
      let n := (length ds' - p)%nat in
      with_sign s (match p with O => ds' | _ => firstn n ds' ++ 46%N :: skipn n ds' end)
  end.

(** [10f64.powi(n)] and friends: LLVM's [__powidf2], repeated squaring. *)
Fixpoint powi_loop (fuel : nat) (a r : f64) (b : Z) : f64 :=
  match fuel with
  | O => r
  | S f =>
      let r' := if Z.odd b then f_mul r a else r in
      let b' := Z.quot b 2 in
      if b' =? 0 then r' else powi_loop f (f_mul a a) r' b'
  end.
Definition f_powi (a : f64) (b : Z) : f64 :=
  let r := powi_loop 32 a f_one b in
  if b <? 0 then f_div f_one r else r.
