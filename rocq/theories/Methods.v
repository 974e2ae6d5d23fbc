(** [runtime/method_calls/*]: method calls.

    Method handlers receive unevaluated argument expressions and evaluate the
    ones they need.  Here an argument is its expression together with the two
    evaluators a handler may apply to it, so that the handlers themselves are
    not recursive. *)
From Coq Require Import String List ZArith NArith Bool.
From Verif Require Import Base F64 Syntax Ext F64Text Json Utils Arrays Utf8 Strings Dispatch.
Import ListNotations.
Local Open Scope Z_scope.

(** [HashMap<String, Value>] *)
Definition env := smap value.

Record marg := mkMarg {
  (** the expression itself (handlers look for string literals) *)
  m_expr : expr;
  (** [if let Some(vars) = base_vars { eval_with_vars(e, vars) } else { eval(e) }] *)
  m_eval : option env -> res value;
  (** evaluator for lambdas: [eval_with_vars] in [exec_method],
      [eval_with_vars_and_custom] in [exec_method_with_custom] *)
  m_lambda : env -> res value
}.

Section Methods.
  Context {X : Ext}.

  (** [predicates.rs:6-31] *)
  Definition exec_predicate (name : str) (recv : value) : res value :=
    let lname := to_lowercase name in
    let num (p : f64 -> bool) := match as_number recv with Some n => p n | None => false end in
    let ret b := Ok (VBoolean b) in
    if is lname "positive" then ret (num (fun n => f_ltb f_zero n))
    else if is lname "negative" then ret (num (fun n => f_ltb n f_zero))
    else if is lname "zero" then ret (num (fun n => f_eqb n f_zero))
    else if is lname "even" then ret (num (fun n => Z.rem (f_to_i64 n) 2 =? 0))
    else if is lname "odd" then ret (num (fun n => negb (Z.rem (f_to_i64 n) 2 =? 0)))
    else if is lname "numeric" then ret (match recv with VNumber _ => true | _ => false end)
    else if is lname "array" then ret (match recv with VArray _ => true | _ => false end)
    else if is lname "nil" then ret (match recv with VNull => true | _ => false end)
    else if is lname "blank" then ret (is_blank recv)
    else if is lname "present" then ret (negb (is_blank recv))
    else Err (mkErr (lit "Unknown predicate method: " ++ name ++ lit "?") None).

  (** ** Conversions ([conversion_methods.rs]) *)

  (** [conversion_methods.rs:20-47] *)
  Fixpoint to_s (v : value) : str :=
    match v with
    | VNull => []
    | VString s => s
    | VNumber n => if f_eqb (f_fract n) f_zero then f_fixed 0 n else f_display n
    | VBoolean b => if b then lit "true" else lit "false"
    | VCurrency c => f_fixed 2 c
    | VArray xs => lit "[" ++ join (lit ", ") (map to_s xs) ++ lit "]"
    | VJson s => s
    | VDateTime t => Z_to_str t
    end.
  Definition or_default (o : option f64) : f64 := match o with Some x => x | None => f_zero end.
  (** [conversion_methods.rs:67-81] *)
  Definition to_f (v : value) : f64 :=
    match v with
    | VNull => f_zero
    | VNumber n | VCurrency n => n
    | VBoolean b => if b then f_one else f_zero
    | VString s => or_default (f_from_str (trim s))
    | VArray xs => f_of_Z (zlen xs)
    | VJson _ | VDateTime _ => f_one
    end.
  (** [conversion_methods.rs:50-64]; truncating 0, 1 and a length changes nothing *)
  Definition to_i (v : value) : f64 :=
    match v with
    | VNumber _ | VCurrency _ | VString _ => f_trunc (to_f v)
    | _ => to_f v
    end.
  (** [conversion_methods.rs:84-95] *)
  Definition to_a (v : value) : list value :=
    match v with
    | VNull => []
    | VArray xs => xs
    | VString s => map (fun c => VString [c]) s
    | other => [other]
    end.
  (** [conversion_methods.rs:98-144]; [serde_json::to_string] of a [Value] cannot fail *)
  Definition to_json_text (v : value) : res str :=
    match v with
    | VNull => Ok (lit "{}")
    | VJson s => Ok s
    | VString s => Ok (json_print (JStr s))
    | VNumber n => j <- ok_or (jnum_of_f64 n) (err "Invalid number for JSON") ;; Ok (json_print j)
    | VBoolean b => Ok (json_print (JBool b))
    | VArray xs => js <- mapM value_to_json_value xs ;; Ok (json_print (JArr js))
    | VCurrency c => j <- ok_or (jnum_of_f64 c) (err "Invalid currency for JSON") ;; Ok (json_print j)
    | VDateTime t => Ok (json_print (JStr (Z_to_str t)))
    end.
  (** [conversion_methods.rs:147-159] *)
  Definition to_bool (v : value) : bool :=
    match v with
    | VNull => false
    | VBoolean b => b
    | VNumber n | VCurrency n => negb (f_eqb n f_zero)
    | VString s => match s with [] => false | _ => true end
    | VArray xs => match xs with [] => false | _ => true end
    | VJson _ | VDateTime _ => true
    end.
  (** [conversion_methods.rs:5-17] *)
  Definition exec_conversion (name : str) (recv : value) : res value :=
    let lname := to_lowercase name in
    if one_of ["to_s"; "to_string"]%string lname then Ok (VString (to_s recv))
    else if one_of ["to_i"; "to_int"]%string lname then Ok (VNumber (to_i recv))
    else if one_of ["to_f"; "to_float"]%string lname then Ok (VNumber (to_f recv))
    else if one_of ["to_a"; "to_array"]%string lname then Ok (VArray (to_a recv))
    else if is lname "to_json" then s <- to_json_text recv ;; Ok (VJson s)
    else if one_of ["to_bool"; "to_boolean"]%string lname then Ok (VBoolean (to_bool recv))
    else Err (mkErr (lit "Unknown conversion method: " ++ name) None).

  (** ** Argument access *)

  Definition arg0 (args : list marg) (bv : option env) (missing : error) : res value :=
    match args with
    | a :: _ => m_eval a bv
    | [] => Err missing
    end.
  Definition str_of (v : value) (e : error) : res str :=
    match v with VString s => Ok s | _ => Err e end.
  Definition num_of (v : value) (e : error) : res f64 :=
    match v with VNumber n => Ok n | _ => Err e end.

  (** ** Strings ([string_methods.rs:8-161]) *)

  (** [chars.get(a..b)], empty when [a > b] or [b > len] *)
  Definition chars_get (s : str) (a b : Z) : str :=
    if (a <=? b) && (b <=? zlen s)
    then firstn (Z.to_nat (b - a)) (skipn (Z.to_nat a) s) else [].
  (** [string_methods.rs:121-154] *)
  Definition m_substring (s : str) (args : list marg) (bv : option env) : res value :=
    sv <- arg0 args bv (err "substring method expects at least 1 argument") ;;
    sn <- num_of sv (err "substring start must be number") ;;
    let start := f_to_usize sn in
    let n := zlen s in
    match args with
    | _ :: a1 :: _ =>
        lv <- m_eval a1 bv ;;
        ln <- num_of lv (err "substring length must be number") ;;
        let len := f_to_usize ln in
        Ok (VString (chars_get s start (Z.min start n + Z.min len (n - Z.min start n))))
    | _ => Ok (VString (chars_get s start n))
    end.
  Definition exec_string_method (name : str) (s : str) (args : list marg) (bv : option env)
    : res value :=
    let lname := to_lowercase name in
    if one_of ["length"; "len"]%string lname then Ok (VNumber (f_of_Z (Z.of_N (byte_len s))))
    else if one_of ["upper"; "upcase"]%string lname then Ok (VString (to_uppercase s))
    else if one_of ["lower"; "downcase"]%string lname then Ok (VString (to_lowercase s))
    else if is lname "trim" then Ok (VString (trim s))
    else if is lname "reverse" then Ok (VString (rev s))
    else if one_of ["includes"; "contains"]%string lname then
      v <- arg0 args bv (err "includes method expects 1 argument") ;;
      p <- str_of v (err "includes method expects string argument") ;;
      Ok (VBoolean (contains_str p s))
    else if one_of ["startswith"; "starts_with"]%string lname then
      v <- arg0 args bv (err "starts_with method expects 1 argument") ;;
      p <- str_of v (err "starts_with method expects string argument") ;;
      Ok (VBoolean (starts_with p s))
    else if one_of ["endswith"; "ends_with"]%string lname then
      v <- arg0 args bv (err "ends_with method expects 1 argument") ;;
      p <- str_of v (err "ends_with method expects string argument") ;;
      Ok (VBoolean (ends_with p s))
    else if is lname "split" then
      v <- arg0 args bv (err "split method expects 1 argument") ;;
      p <- str_of v (err "split method expects string argument") ;;
      Ok (VArray (map VString (split_str p s)))
    else if is lname "replace" then
      match args with
      | a0 :: a1 :: _ =>
          f <- m_eval a0 bv ;;
          t <- m_eval a1 bv ;;
          match f, t with
          | VString f, VString t => Ok (VString (replace_str f t s))
          | _, _ => Err (err "replace method expects string arguments")
          end
      | _ => Err (err "replace method expects 2 arguments")
      end
    else if one_of ["substring"; "substr"]%string lname then m_substring s args bv
    else Err (mkErr (lit "Unknown string method: " ++ name) None).

  (** ** Arrays ([array_methods.rs:8-228]) *)

  (** [array_methods.rs:38-48]: first element of each [Debug] text *)
  Fixpoint unique_debug (seen : list str) (xs : list value) : list value :=
    match xs with
    | [] => []
    | v :: r =>
        let key := value_debug v in
        if existsb (str_eqb key) seen then unique_debug seen r
        else v :: unique_debug (key :: seen) r
    end.
  (** stable sort by [b.partial_cmp(a)] *)
  Fixpoint insert_desc (x : f64) (xs : list f64) : list f64 :=
    match xs with
    | [] => [x]
    | y :: r => if f_leb y x then x :: xs else y :: insert_desc x r
    end.
  (** [array_methods.rs:73-77]; with a NaN among two or more numbers the
      comparator is not an order and the outcome is an oracle *)
  Definition sort_method (desc : bool) (nums : list f64) : res (list f64) :=
    if (2 <=? length nums)%nat && existsb is_nan nums then x_sort_nan desc nums
    else Ok (if desc then fold_right insert_desc [] nums else insertion_sort nums).
  (** every element as a number, currency included *)
  Definition nums_of (e : error) (xs : list value) : res (list f64) :=
    mapM (fun v => match v with VNumber n | VCurrency n => Ok n | _ => Err e end) xs.
  (** [array_methods.rs:108-156]: [n.min(current)] over the elements *)
  Definition pick_method (pick : f64 -> f64 -> f64) (nums : list f64) : option f64 :=
    fold_left (fun cur n => Some (match cur with None => n | Some c => pick n c end)) nums None.
  (** [array_methods.rs:175-180] *)
  Definition join_text (v : value) : res str :=
    match v with
    | VString s => Ok s
    | VNumber n => Ok (f_display n)
    | VBoolean b => Ok (if b then lit "true" else lit "false")
    | _ => Err (err "join method cannot convert value to string")
    end.
  Definition exec_array_method (name : str) (xs : list value) (args : list marg) (bv : option env)
    : res value :=
    let lname := to_lowercase name in
    if one_of ["length"; "len"; "count"]%string lname then Ok (VNumber (f_of_Z (zlen xs)))
    else if is lname "first" then Ok (match xs with x :: _ => x | [] => VNull end)
    else if is lname "last" then Ok (match last_opt xs with Some x => x | None => VNull end)
    else if is lname "reverse" then Ok (VArray (rev xs))
    else if is lname "unique" then Ok (VArray (unique_debug [] xs))
    else if is lname "sort" then
      desc <- match args with
              | a :: _ => v <- m_eval a bv ;;
                          Ok (match v with VString s => is (to_uppercase s) "DESC" | _ => false end)
              | [] => Ok false
              end ;;
      nums <- mapM (fun v => num_of v (err "sort expects numeric array")) xs ;;
      sorted <- sort_method desc nums ;;
      Ok (VArray (map VNumber sorted))
    else if is lname "sum" then
      nums <- nums_of (err "sum method expects numeric array") xs ;;
      Ok (VNumber (fold_left f_add nums f_zero))
    else if one_of ["avg"; "average"]%string lname then
      match xs with
      | [] => Ok (VNumber f_zero)
      | _ => nums <- nums_of (err "avg method expects numeric array") xs ;;
             Ok (VNumber (f_div (fold_left f_add nums f_zero) (f_of_Z (zlen xs))))
      end
    else if is lname "min" then
      match xs with
      | [] => Ok VNull
      | _ => nums <- nums_of (err "min method expects numeric array") xs ;;
             Ok (VNumber (or_default (pick_method f_min nums)))
      end
    else if is lname "max" then
      match xs with
      | [] => Ok VNull
      | _ => nums <- nums_of (err "max method expects numeric array") xs ;;
             Ok (VNumber (or_default (pick_method f_max nums)))
      end
    else if is lname "join" then
      sep <- match args with
             | a :: _ => v <- m_eval a bv ;; Ok (match v with VString s => s | _ => lit "," end)
             | [] => Ok (lit ",")
             end ;;
      parts <- mapM join_text xs ;;
      Ok (VString (join sep parts))
    else if one_of ["contains"; "includes"]%string lname then
      v <- arg0 args bv (err "contains method expects 1 argument") ;;
      Ok (VBoolean (existsb (fun y => values_equal y v) xs))
    else if is lname "flatten" then Ok (VArray (flat_map flatten xs))
    else if is lname "compact" then
      Ok (VArray (filter (fun v => match v with VNull => false | _ => true end) xs))
    else Err (mkErr (lit "Unknown array method: " ++ name) None).

  (** ** Numbers ([method_calls/mod.rs:116-203]) *)

  Definition bound_of (v : value) (e : error) : res f64 :=
    match v with VNumber n | VCurrency n => Ok n | _ => Err e end.
  Definition exec_number_method (name : str) (num : f64) (args : list marg) (bv : option env)
    : res value :=
    let lname := to_lowercase name in
    if is lname "abs" then Ok (VNumber (f_abs num))
    else if one_of ["ceil"; "ceiling"]%string lname then Ok (VNumber (f_ceil num))
    else if is lname "floor" then Ok (VNumber (f_floor num))
    else if is lname "round" then
      match args with
      | [] => Ok (VNumber (f_round num))
      | a :: _ =>
          pv <- m_eval a bv ;;
          p <- num_of pv (err "round precision must be number") ;;
          let precision := f_to_i32 p in
          if precision =? 0 then Ok (VNumber (f_round num))
          else let m := f_powi (f_of_Z 10) precision in
               Ok (VNumber (f_div (f_round (f_mul num m)) m))
      end
    else if is lname "sqrt" then
      if f_ltb num f_zero then Err (err "Cannot take square root of negative number")
      else Ok (VNumber (f_sqrt num))
    else if is lname "sin" then Ok (VNumber (x_sin num))
    else if is lname "cos" then Ok (VNumber (x_cos num))
    else if is lname "tan" then Ok (VNumber (x_tan num))
    else if is lname "int" then Ok (VNumber (f_trunc num))
    else if is lname "between" then
      match args with
      | [a0; a1] =>
          lov <- m_eval a0 bv ;;
          hiv <- m_eval a1 bv ;;
          lo <- bound_of lov (err "between min must be a number") ;;
          hi <- bound_of hiv (err "between max must be a number") ;;
          Ok (VBoolean (f_leb lo num && f_leb num hi))
      | _ => Err (err "between expects 2 arguments: min, max")
      end
    else Err (mkErr (lit "Unknown number method: " ++ name) None).

  (** ** JSON objects ([method_calls/mod.rs:206-329]) *)

  Definition exec_json_method (name : str) (js : str) (args : list marg) (bv : option env)
    : res value :=
    let lname := to_lowercase name in
    if is lname "keys" then
      j <- parse_json js ;;
      match j with
      | JObj kvs => Ok (VArray (map (fun kv => VString (fst kv)) kvs))
      | _ => Err (err "keys() method requires JSON object")
      end
    else if is lname "values" then
      j <- parse_json js ;;
      match j with
      | JObj kvs => Ok (VArray (map (fun kv => json_to_value (snd kv)) kvs))
      | _ => Err (err "values() method requires JSON object")
      end
    else if one_of ["has_key"; "has"]%string lname then
      v <- arg0 args bv (err "has_key method expects 1 argument") ;;
      key <- str_of v (err "has_key method expects string argument") ;;
      j <- parse_json js ;;
      match j with
      | JObj kvs => Ok (VBoolean (mhas key kvs))
      | _ => Ok (VBoolean false)
      end
    else if is lname "dig" then
      pv <- arg0 args bv (err "dig(path_array, [default]) expects at least 1 argument") ;;
      dv <- match args with
            | _ :: a1 :: _ => v <- m_eval a1 bv ;; Ok (Some v)
            | _ => Ok None
            end ;;
      match pv with
      | VArray path =>
          j <- parse_json js ;;
          Ok (match dig_path j path with
              | Some v => json_to_value v
              | None => match dv with Some d => d | None => VNull end
              end)
      | _ => Err (err "dig expects first argument to be an array path")
      end
    else Err (mkErr (lit "Unknown JSON method: " ++ name) None).

  (** ** Lambdas ([lambda_methods.rs]) *)

  (** The loops.  One map is reused for all the elements; each step inserts the
      element under the parameter name. *)
  Section Loops.
    Variable f : env -> res value.
    Variable param : str.
    Definition is_true (v : value) : bool := match v with VBoolean true => true | _ => false end.
    Fixpoint filter_loop (vars : env) (items : list value) : res (list value) :=
      match items with
      | [] => Ok []
      | it :: r =>
          let vars' := minsert param it vars in
          v <- f vars' ;;
          out <- filter_loop vars' r ;;
          Ok (if is_true v then it :: out else out)
      end.
    Fixpoint map_loop (vars : env) (items : list value) : res (list value) :=
      match items with
      | [] => Ok []
      | it :: r =>
          let vars' := minsert param it vars in
          v <- f vars' ;;
          out <- map_loop vars' r ;;
          Ok (v :: out)
      end.
    Fixpoint find_loop (vars : env) (items : list value) : res value :=
      match items with
      | [] => Ok VNull
      | it :: r =>
          let vars' := minsert param it vars in
          v <- f vars' ;;
          if is_true v then Ok it else find_loop vars' r
      end.
    Variable acc_param : str.
    Fixpoint reduce_loop (vars : env) (acc : value) (items : list value) : res value :=
      match items with
      | [] => Ok acc
      | it :: r =>
          let vars' := minsert acc_param acc (minsert param it vars) in
          acc' <- f vars' ;;
          reduce_loop vars' acc' r
      end.
  End Loops.

  (** [match &args_expr[i] { Expr::StringLit(s) => s, _ => default }] *)
  Definition lit_param (args : list marg) (i : nat) (default : string) : str :=
    match nth_error args i with
    | Some a => match m_expr a with EStringLit s => s | _ => lit default end
    | None => lit default
    end.
  Definition base_of (bv : option env) : env := match bv with Some v => v | None => [] end.
  (** [lambda_methods.rs:10-46] and [49-86] *)
  Definition m_filter (xs : list value) (args : list marg) (bv : option env) : res value :=
    match args with
    | [] => Err (err "filter expects lambda expression")
    | a :: _ => out <- filter_loop (m_lambda a) (lit_param args 1 "x") (base_of bv) xs ;;
                Ok (VArray out)
    end.
  (** [lambda_methods.rs:89-123] and [126-161] *)
  Definition m_map (xs : list value) (args : list marg) (bv : option env) : res value :=
    match args with
    | [] => Err (err "map expects lambda expression")
    | a :: _ => out <- map_loop (m_lambda a) (lit_param args 1 "x") (base_of bv) xs ;;
                Ok (VArray out)
    end.
  (** [lambda_methods.rs:164-199] and [202-238] *)
  Definition m_find (xs : list value) (args : list marg) (bv : option env) : res value :=
    match args with
    | [] => Err (err "find expects lambda expression")
    | a :: _ => find_loop (m_lambda a) (lit_param args 1 "x") (base_of bv) xs
    end.
  (** [lambda_methods.rs:241-284] and [287-331] *)
  Definition m_reduce (xs : list value) (args : list marg) (bv : option env) : res value :=
    match args with
    | a :: a1 :: _ =>
        init <- m_lambda a1 (base_of bv) ;;
        reduce_loop (m_lambda a) (lit_param args 2 "x") (lit_param args 3 "acc") (base_of bv) init xs
    | _ => Err (err "reduce expects lambda expression and initial value")
    end.

  Definition conversion_names : list string :=
    ["to_s"; "to_string"; "to_i"; "to_int"; "to_f"; "to_float"; "to_a"; "to_array"; "to_json";
     "to_bool"; "to_boolean"]%string.

  (** [method_calls/mod.rs:23-66] and [69-113]; the two differ only in the
      evaluator used for lambdas, which is [m_lambda] here *)
  Definition exec_method (name : str) (predicate : bool) (recv : value) (args : list marg)
    (bv : option env) : res value :=
    if predicate then exec_predicate name recv
    else
      let lname := to_lowercase name in
      if one_of conversion_names lname then exec_conversion name recv
      else match recv with
           | VString s => exec_string_method name s args bv
           | VArray xs =>
               if is lname "filter" then m_filter xs args bv
               else if is lname "map" then m_map xs args bv
               else if is lname "find" then m_find xs args bv
               else if is lname "reduce" then m_reduce xs args bv
               else exec_array_method name xs args bv
           | VNumber n => exec_number_method name n args bv
           | VJson s => exec_json_method name s args bv
           | _ => Err (mkErr (lit "No methods available for " ++ value_debug recv ++ lit " type") None)
           end.
End Methods.
