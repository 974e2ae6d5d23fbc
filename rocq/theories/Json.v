(** JSON text: the [serde_json] 1.0.149 reader and writer (default features: no
    [float_roundtrip], no [preserve_order], no [arbitrary_precision]), and the
    crate's conversions between JSON documents and values.  The reader/writer
    are an external crate and are modelled from its documented behaviour; the
    conversions are the repository's code. *)
From Coq Require Import String List ZArith NArith Bool.
From Coq Require Import Floats.SpecFloat.
From Verif Require Import Base F64 Syntax Ext F64Text.
Import ListNotations.
Local Open Scope Z_scope.

(** ** Reader *)

Definition json_ws (c : N) : bool := (c =? 32)%N || (c =? 10)%N || (c =? 9)%N || (c =? 13)%N.
Fixpoint skip_ws (s : str) : str :=
  match s with
  | c :: r => if json_ws c then skip_ws r else s
  | [] => []
  end.

Definition hex_val (c : N) : option N :=
  if is_digit c then Some (c - 48)%N
  else if ((97 <=? c) && (c <=? 102))%N then Some (c - 87)%N
  else if ((65 <=? c) && (c <=? 70))%N then Some (c - 55)%N
  else None.

(** four hex digits *)
Definition read_hex4 (s : str) : option (N * str) :=
  match s with
  | a :: b :: c :: d :: r =>
      match hex_val a, hex_val b, hex_val c, hex_val d with
      | Some a, Some b, Some c, Some d => Some (((a * 16 + b) * 16 + c) * 16 + d, r)%N
      | _, _, _, _ => None
      end
  | _ => None
  end.

(** after "\u": one scalar value, joining a surrogate pair; lone surrogates are errors *)
Definition read_unicode (s : str) : option (N * str) :=
  match read_hex4 s with
  | None => None
  | Some (u, r) =>
      if ((55296 <=? u) && (u <=? 56319))%N then
        match r with
        | 92%N :: 117%N :: r1 =>
            match read_hex4 r1 with
            | Some (v, r2) =>
                if ((56320 <=? v) && (v <=? 57343))%N
                then Some (65536 + (u - 55296) * 1024 + (v - 56320), r2)%N
                else None
            | None => None
            end
        | _ => None
        end
      else if ((56320 <=? u) && (u <=? 57343))%N then None
      else Some (u, r)
  end.

(** one escape, after the backslash *)
Definition read_escape (s : str) : option (N * str) :=
  match s with
  | 34%N :: r => Some (34%N, r)
  | 92%N :: r => Some (92%N, r)
  | 47%N :: r => Some (47%N, r)
  | 98%N :: r => Some (8%N, r)
  | 102%N :: r => Some (12%N, r)
  | 110%N :: r => Some (10%N, r)
  | 114%N :: r => Some (13%N, r)
  | 116%N :: r => Some (9%N, r)
  | 117%N :: r => read_unicode r
  | _ => None
  end.

(** string body, after the opening quote.  [fuel] bounds the number of
    characters; the callers pass the text length, which always suffices. *)
Fixpoint read_string (fuel : nat) (s : str) : option (str * str) :=
  match fuel with
  | O => None
  | S f =>
      match s with
      | [] => None
      | c :: r =>
          if (c =? 34)%N then Some ([], r)
          else if (c =? 92)%N then
            match read_escape r with
            | Some (u, r') =>
                match read_string f r' with Some (t, r2) => Some (u :: t, r2) | None => None end
            | None => None
            end
          else if (c <? 32)%N then None
          else match read_string f r with Some (t, r2) => Some (c :: t, r2) | None => None end
      end
  end.

(** *** Numbers *)
Definition u64_max : N := 18446744073709551615.
Definition u64_overflow (a d : N) : bool :=
  ((u64_max / 10 <=? a) && ((u64_max / 10 <? a) || (u64_max mod 10 <? d)))%N.
Definition i32_max : N := 2147483647.
Definition i32_overflow (a d : N) : bool :=
  ((i32_max / 10 <=? a) && ((i32_max / 10 <? a) || (i32_max mod 10 <? d)))%N.

(** [f64_from_parts]: multiply or divide by a table entry 10^0..10^308.  The
    loop runs at most three times (two divisions by 1e308 bring any u64 to 0). *)
Fixpoint from_parts_loop (fuel : nat) (f : f64) (e : Z) : option f64 :=
  match fuel with
  | O => None
  | S k =>
      if Z.abs e <=? 308 then
        let p := f_of_dec false 1 (Z.abs e) in
        if 0 <=? e then
          let f' := f_mul f p in if is_infinite f' then None else Some f'
        else Some (f_div f p)
      else if f_eqb f f_zero then Some f
      else if 0 <=? e then None
      else from_parts_loop k (f_div f (f_of_dec false 1 308)) (e + 308)
  end.
Definition f64_from_parts (positive : bool) (significand : N) (e : Z) : option f64 :=
  match from_parts_loop 4 (f_of_Z (Z.of_N significand)) e with
  | Some f => Some (if positive then f else f_neg f)
  | None => None
  end.

Fixpoint skip_digits (s : str) : str :=
  match s with
  | c :: r => if is_digit c then skip_digits r else s
  | [] => []
  end.
Definition clamp_i32 (z : Z) : Z := Z.max (- 2 ^ 31) (Z.min (2 ^ 31 - 1) z).

(** exponent digits after the first; [None] inside = i32 overflow *)
Fixpoint exp_digits (exp : N) (s : str) : option N * str :=
  match s with
  | c :: r =>
      if is_digit c then
        let d := (c - 48)%N in
        if i32_overflow exp d then (None, s) else exp_digits (exp * 10 + d)%N r
      else (Some exp, s)
  | [] => (Some exp, [])
  end.

Definition parse_exponent (positive : bool) (sig : N) (starting : Z) (s : str)
  : option (jnum * str) :=
  (* s starts after 'e'|'E' *)
  let '(pexp, r) := match s with
                    | 43%N :: r => (true, r)
                    | 45%N :: r => (false, r)
                    | _ => (true, s)
                    end in
  match r with
  | c :: r1 =>
      if is_digit c then
        match exp_digits (c - 48)%N r1 with
        | (Some e, r2) =>
            let fin := clamp_i32 (if pexp : bool then starting + Z.of_N e else starting - Z.of_N e) in
            match f64_from_parts positive sig fin with
            | Some f => Some (JFlt f, r2)
            | None => None
            end
        | (None, r2) =>
            if negb (sig =? 0)%N && pexp then None
            else Some (JFlt (if positive then f_zero else f_neg f_zero), skip_digits r2)
        end
      else None
  | [] => None
  end.

Definition finish_float (positive : bool) (sig : N) (e : Z) (s : str) : option (jnum * str) :=
  match s with
  | 101%N :: r => parse_exponent positive sig e r
  | 69%N :: r => parse_exponent positive sig e r
  | _ => match f64_from_parts positive sig e with
         | Some f => Some (JFlt f, s)
         | None => None
         end
  end.

(** digits after '.'; returns significand, exponent after the point, rest;
    digits beyond u64 are ignored *)
Fixpoint decimal_digits (sig : N) (after : Z) (s : str) : N * Z * str :=
  match s with
  | c :: r =>
      if is_digit c then
        let d := (c - 48)%N in
        if u64_overflow sig d then (sig, after, skip_digits s)
        else decimal_digits (sig * 10 + d)%N (after - 1) r
      else (sig, after, s)
  | [] => (sig, after, [])
  end.
Definition parse_decimal (positive : bool) (sig : N) (before : Z) (s : str)
  : option (jnum * str) :=
  match s with
  | c :: _ =>
      if is_digit c then
        let '(sig', after, r) := decimal_digits sig 0 s in
        finish_float positive sig' (before + after) r
      else None
  | [] => None
  end.

Definition parse_number_tail (positive : bool) (sig : N) (s : str) : option (jnum * str) :=
  match s with
  | 46%N :: r => parse_decimal positive sig 0 r
  | 101%N :: r => parse_exponent positive sig 0 r
  | 69%N :: r => parse_exponent positive sig 0 r
  | _ =>
      if positive then Some (JPos sig, s)
      else if (sig =? 0)%N || (9223372036854775808 <? sig)%N
           then Some (JFlt (f_neg (f_of_Z (Z.of_N sig))), s)
           else Some (JNeg (- Z.of_N sig), s)
  end.

(** [parse_long_integer]: count the digits that no longer fit *)
Fixpoint long_digits (e : Z) (s : str) : Z * str :=
  match s with
  | c :: r => if is_digit c then long_digits (e + 1) r else (e, s)
  | [] => (e, [])
  end.
Definition parse_long_integer (positive : bool) (sig : N) (s : str) : option (jnum * str) :=
  let '(e, r) := long_digits 0 s in
  match r with
  | 46%N :: r1 => parse_decimal positive sig e r1
  | _ => finish_float positive sig e r
  end.

Fixpoint int_digits (sig : N) (s : str) : (N * str) + (N * str) :=
  match s with
  | c :: r =>
      if is_digit c then
        let d := (c - 48)%N in
        if u64_overflow sig d then inr (sig, s) else int_digits (sig * 10 + d)%N r
      else inl (sig, s)
  | [] => inl (sig, [])
  end.

(** [parse_integer]; [s] starts after an optional '-' *)
Definition parse_integer (positive : bool) (s : str) : option (jnum * str) :=
  match s with
  | 48%N :: r =>
      match r with
      | d :: _ => if is_digit d then None else parse_number_tail positive 0 r
      | [] => parse_number_tail positive 0 r
      end
  | c :: r =>
      if is_digit c then
        match int_digits (c - 48)%N r with
        | inl (sig, r') => parse_number_tail positive sig r'
        | inr (sig, r') => parse_long_integer positive sig r'
        end
      else None
  | [] => None
  end.

(** *** Values *)
Section Loops.
  Context (rec : str -> option (json * str)).
  (** array elements, after '[' *)
  Fixpoint read_elems (fuel : nat) (first : bool) (s : str) : option (list json * str) :=
    match fuel with
    | O => None
    | S f =>
        let elem s1 :=
          match rec s1 with
          | Some (v, r1) =>
              match read_elems f false r1 with
              | Some (vs, r2) => Some (v :: vs, r2)
              | None => None
              end
          | None => None
          end in
        match skip_ws s with
        | 93%N :: r => Some ([], r)
        | 44%N :: r =>
            if first then None
            else match skip_ws r with
                 | 93%N :: _ => None
                 | s1 => elem s1
                 end
        | s1 => if first then elem s1 else None
        end
    end.

  (** object members, after '{'; later keys replace earlier ones *)
  Fixpoint read_members (fuel : nat) (first : bool) (acc : list (str * json)) (s : str)
    : option (list (str * json) * str) :=
    match fuel with
    | O => None
    | S f =>
        let member s1 :=
          match s1 with
          | 34%N :: r =>
              match read_string (S (length r)) r with
              | Some (k, r1) =>
                  match skip_ws r1 with
                  | 58%N :: r2 =>
                      match rec r2 with
                      | Some (v, r3) => read_members f false (binsert k v acc) r3
                      | None => None
                      end
                  | _ => None
                  end
              | None => None
              end
          | _ => None
          end in
        match skip_ws s with
        | 125%N :: r => Some (acc, r)
        | 44%N :: r => if first then None else member (skip_ws r)
        | s1 => if first then member s1 else None
        end
    end.
End Loops.

Definition num_result (o : option (jnum * str)) : option (json * str) :=
  match o with Some (n, r) => Some (JNum n, r) | None => None end.

(** [remaining] is serde's [remaining_depth] (128 at the start): entering an
    array or object decrements it and fails when it reaches 0. *)
Fixpoint read_value (remaining : nat) (s : str) : option (json * str) :=
  match remaining with
  | O => None
  | S d =>
      match skip_ws s with
      | [] => None
      | c :: r =>
          if (c =? 34)%N then
            match read_string (S (length r)) r with
            | Some (t, r') => Some (JStr t, r')
            | None => None
            end
          else if (c =? 91)%N then
            match d with
            | O => None
            | S _ => match read_elems (read_value d) (S (length r)) true r with
                     | Some (vs, r') => Some (JArr vs, r')
                     | None => None
                     end
            end
          else if (c =? 123)%N then
            match d with
            | O => None
            | S _ => match read_members (read_value d) (S (length r)) true [] r with
                     | Some (kvs, r') => Some (JObj kvs, r')
                     | None => None
                     end
            end
          else if (c =? 45)%N then num_result (parse_integer false r)
          else if is_digit c then num_result (parse_integer true (c :: r))
          else match strip_prefix (lit "true") (c :: r) with
          | Some r' => Some (JBool true, r')
          | None =>
          match strip_prefix (lit "false") (c :: r) with
          | Some r' => Some (JBool false, r')
          | None =>
          match strip_prefix (lit "null") (c :: r) with
          | Some r' => Some (JNull, r')
          | None => None
          end end end
      end
  end.

Definition json_depth : nat := 128.

(** [serde_json::from_str::<Value>]; [None] is an error (its text is [x_json_err]) *)
Definition json_parse (s : str) : option json :=
  match read_value json_depth s with
  | Some (v, r) => match skip_ws r with [] => Some v | _ => None end
  | None => None
  end.

(** ** Writer ([serde_json::to_string]) *)

Definition hex_digit (n : N) : N := if (n <? 10)%N then (48 + n)%N else (87 + n)%N.
Definition json_escape_char (c : N) : str :=
  if (c =? 34)%N then [92; 34]%N
  else if (c =? 92)%N then [92; 92]%N
  else if (c =? 8)%N then [92; 98]%N
  else if (c =? 9)%N then [92; 116]%N
  else if (c =? 10)%N then [92; 110]%N
  else if (c =? 12)%N then [92; 102]%N
  else if (c =? 13)%N then [92; 114]%N
  else if (c <? 32)%N then [92; 117; 48; 48; hex_digit (c / 16); hex_digit (c mod 16)]%N
  else [c].
Definition json_quote (s : str) : str :=
  34%N :: concat (map json_escape_char s) ++ [34%N].

(** the float printer of serde_json (shortest digits, plain notation for
    1e-5 <= |x| < 1e16) *)
Definition json_float {X : Ext} (x : f64) : str :=
  match x with
  | S754_finite s m e =>
      let '(ds, k) := digits_of m e in
      with_sign s
        (if (-4 <=? k) && (k <=? 16) then
           let '(ip, fp) := place_point ds k in
           ip ++ 46%N :: (match fp with [] => [48%N] | _ => fp end)
         else sci ds k x_json_exp_plus)
  | S754_zero s => with_sign s (lit "0.0")
  | _ => lit "null"
  end.

Definition json_num {X : Ext} (n : jnum) : str :=
  match n with
  | JPos n => N_to_str n
  | JNeg z => Z_to_str z
  | JFlt f => json_float f
  end.

Fixpoint json_print {X : Ext} (j : json) : str :=
  match j with
  | JNull => lit "null"
  | JBool b => if b then lit "true" else lit "false"
  | JNum n => json_num n
  | JStr s => json_quote s
  | JArr xs => 91%N :: join [44%N] (map json_print xs) ++ [93%N]
  | JObj kvs =>
      123%N :: join [44%N] (map (fun kv => let '(k, v) := kv in json_quote k ++ 58%N :: json_print v) kvs)
      ++ [125%N]
  end.

(** ** The crate's conversions *)

(** [serde_json::Number::from_f64] *)
Definition jnum_of_f64 (f : f64) : option json :=
  if is_finite f then Some (JNum (JFlt f)) else None.
(** [Value::from(f64)], i.e. [json!(n)]: non-finite becomes null *)
Definition json_of_f64 (f : f64) : json :=
  match jnum_of_f64 f with Some j => j | None => JNull end.
(** [Value::from(i64)] *)
Definition json_of_i64 (z : Z) : json :=
  if 0 <=? z then JNum (JPos (Z.to_N z)) else JNum (JNeg z).

(** [n.as_i64()] then [as_f64()] (lib.rs:95-103): an integer becomes the
    nearest f64, whichever branch is taken *)
Definition f_of_jnum (n : jnum) : f64 :=
  match n with
  | JPos n => f_of_Z (Z.of_N n)
  | JNeg z => f_of_Z z
  | JFlt f => f
  end.

(** [lib.rs:91-119] (same code again at [jsonpath.rs:66-94]); never fails *)
Fixpoint json_to_value {X : Ext} (j : json) : value :=
  match j with
  | JNull => VNull
  | JBool b => VBoolean b
  | JNum n => VNumber (f_of_jnum n)
  | JStr s => VString s
  | JArr xs => VArray (map json_to_value xs)
  | JObj _ => VJson (json_print j)
  end.

Definition invalid_json {X : Ext} (s : str) : error :=
  mkErr (lit "Invalid JSON: " ++ x_json_err s) None.

(** [serde_json::from_str(s).map_err(|e| "Invalid JSON: {e}")] *)
Definition parse_json {X : Ext} (s : str) : res json := ok_or (json_parse s) (invalid_json s).

(** [evaluation/core.rs:17-37], the same code at [evaluator.rs:743-763]:
    object-literal values *)
Fixpoint value_to_json {X : Ext} (v : value) : res json :=
  match v with
  | VNumber n => Ok (json_of_f64 n)
  | VString s => Ok (JStr s)
  | VBoolean b => Ok (JBool b)
  | VCurrency c => Ok (json_of_f64 c)
  | VDateTime t => Ok (json_of_i64 t)
  | VNull => Ok JNull
  | VArray xs => js <- mapM value_to_json xs ;; Ok (JArr js)
  | VJson s => parse_json s
  end.

(** [conversion_methods.rs:162-190], used by [.to_json()] on arrays *)
Fixpoint value_to_json_value {X : Ext} (v : value) : res json :=
  match v with
  | VNull => Ok JNull
  | VString s => Ok (JStr s)
  | VNumber n => ok_or (jnum_of_f64 n) (err "Invalid number for JSON")
  | VBoolean b => Ok (JBool b)
  | VCurrency c => ok_or (jnum_of_f64 c) (err "Invalid currency for JSON")
  | VArray xs => js <- mapM value_to_json_value xs ;; Ok (JArr js)
  | VJson s => parse_json s
  | VDateTime t => Ok (JStr (Z_to_str t))
  end.

(** [jsonpath.rs:31-63] *)
Fixpoint value_to_json_path {X : Ext} (v : value) : res json :=
  match v with
  | VNumber n =>
      if f_eqb (f_fract n) f_zero && f_leb (f_of_Z i64_min) n && f_leb n (f_of_Z i64_max)
      then Ok (json_of_i64 (f_to_i64 n))
      else ok_or (jnum_of_f64 n) (err "Invalid number for JSON conversion")
  | VString s => Ok (JStr s)
  | VBoolean b => Ok (JBool b)
  | VNull => Ok JNull
  | VArray xs => js <- mapM value_to_json_path xs ;; Ok (JArr js)
  | VCurrency n => ok_or (jnum_of_f64 n) (err "Invalid currency for JSON conversion")
  | VDateTime t => Ok (json_of_i64 t)
  | VJson s => ok_or (json_parse s) (mkErr (lit "Invalid JSON string: " ++ x_json_err s) None)
  end.

(** [jsonpath.rs:6-28] *)
Definition apply_jsonpath {X : Ext} (data : value) (path : str) : res value :=
  j <- value_to_json_path data ;;
  match x_jsonpath j path with
  | inr e => Err (mkErr (lit "JSONPath error: " ++ e) None)
  | inl [] => Ok (VArray [])
  | inl [r] => Ok (json_to_value r)
  | inl rs => Ok (VArray (map json_to_value rs))
  end.

(** [jsonpath.rs:97-99] *)
Definition is_jsonpath (s : str) : bool := starts_with [36%N] s.

(** [serde_json::Value::get(&str)]: members of objects only *)
Definition jget (k : str) (j : json) : option json :=
  match j with JObj kvs => mget k kvs | _ => None end.

(** ** [Debug] text of values ([{:?}]) *)
(** lower-case hexadecimal, no leading zeros *)
Fixpoint hex_fuel (fuel : nat) (n : N) (acc : str) : str :=
  match fuel with
  | O => acc
  | S k => if (n <? 16)%N then hex_digit n :: acc else hex_fuel k (n / 16)%N (hex_digit (n mod 16)%N :: acc)
  end.
Definition hex_str (n : N) : str := hex_fuel (S (N.to_nat (N.size n))) n [].
(** one character of [str]'s [Debug] (Rust std) *)
Definition esc_debug {X : Ext} (c : N) : str :=
  if (c =? 34)%N then [92; 34]%N
  else if (c =? 92)%N then [92; 92]%N
  else if (c =? 9)%N then [92; 116]%N
  else if (c =? 10)%N then [92; 110]%N
  else if (c =? 13)%N then [92; 114]%N
  else if (c =? 0)%N then [92; 48]%N
  else if (if is_ascii c then (32 <=? c)%N && negb (c =? 127)%N else x_printable c) then [c]
  else lit "\u{" ++ hex_str c ++ [125%N].
Definition str_debug {X : Ext} (s : str) : str := 34%N :: flat_map esc_debug s ++ [34%N].

(** derived [Debug] for [Value] (types.rs:3) *)
Fixpoint value_debug {X : Ext} (v : value) : str :=
  match v with
  | VNumber n => lit "Number(" ++ f_debug n ++ lit ")"
  | VArray xs => lit "Array([" ++ join (lit ", ") (map value_debug xs) ++ lit "])"
  | VBoolean b => if b then lit "Boolean(true)" else lit "Boolean(false)"
  | VString s => lit "String(" ++ str_debug s ++ lit ")"
  | VNull => lit "Null"
  | VCurrency n => lit "Currency(" ++ f_debug n ++ lit ")"
  | VDateTime t => lit "DateTime(" ++ Z_to_str t ++ lit ")"
  | VJson s => lit "Json(" ++ str_debug s ++ lit ")"
  end.
(** [{:?}] of a [Vec<Value>] *)
Definition values_debug {X : Ext} (xs : list value) : str :=
  lit "[" ++ join (lit ", ") (map value_debug xs) ++ lit "]".
