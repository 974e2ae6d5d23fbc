(** [runtime/evaluation/core.rs], [higher_order.rs], [assignments.rs]: the
    evaluators that method-call arguments and method lambdas go through
    ([runtime::evaluation::{eval, eval_with_vars, eval_with_vars_and_custom}]). *)
From Coq Require Import String List ZArith NArith Bool.
From Verif Require Import Base F64 Syntax Ext F64Text Json Utils Cast Dispatch Registry Methods.
Import ListNotations.
Local Open Scope Z_scope.

(** A function-call argument: its evaluator in a context of type [C], and the
    evaluator of the inner expression when the argument is [...inner]. *)
Record arg (C : Type) := mkArg {
  a_eval : C -> res value;
  a_spread : option (C -> res value)
}.
Arguments mkArg {C}.
Arguments a_eval {C}.
Arguments a_spread {C}.

(** [core.rs:606-628] (the same code at [core.rs:659-672], [684-697],
    [evaluator.rs:334-350], [386-402]) *)
Fixpoint collect_args {C} (c : C) (args : list (arg C)) : res (list value) :=
  match args with
  | [] => Ok []
  | a :: r =>
      match a_spread a with
      | Some f =>
          v <- f c ;;
          match v with
          | VArray items => rest <- collect_args c r ;; Ok (items ++ rest)
          | _ => Err (err "Spread expects array")
          end
      | None => v <- a_eval a c ;; rest <- collect_args c r ;; Ok (v :: rest)
      end
  end.

(** ** Operators *)

(** [core.rs:47-53], the same code at [evaluator.rs:221-227] *)
Definition unary (op : unary_op) (v : value) : res value :=
  match op with
  | UPlus => n <- ok_or (as_number v) (err "Unary '+' on non-number") ;; Ok (VNumber n)
  | UMinus => n <- ok_or (as_number v) (err "Unary '-' on non-number") ;; Ok (VNumber (f_neg n))
  | UNot => b <- ok_or (as_bool v) (err "Unary '!' on non-boolean") ;; Ok (VBoolean (negb b))
  end.

Section Core.
  Context {X : Ext}.

  (** [core.rs:299-307] *)
  Definition arith (op : binary_op) (x y : f64) : f64 :=
    match op with
    | BAdd => f_add x y
    | BSub => f_sub x y
    | BMul => f_mul x y
    | BDiv => f_div x y
    | BMod => f_rem x y
    | _ => x_powf x y
    end.
  Definition cmp_numbers (op : binary_op) (x y : f64) : bool :=
    match op with
    | BEq => f_eqb x y
    | BNe => negb (f_eqb x y)
    | BLt => f_ltb x y
    | BLe => f_leb x y
    | BGt => f_ltb y x
    | _ => f_leb y x
    end.
  Definition cmp_strings (op : binary_op) (x y : str) : bool :=
    match op with
    | BEq => str_eqb x y
    | BNe => negb (str_eqb x y)
    | BLt => str_ltb x y
    | BLe => negb (str_ltb y x)
    | BGt => str_ltb y x
    | _ => negb (str_ltb x y)
    end.
  (** [core.rs:312-341] (again at [394-424] and [evaluator.rs:246-276]) *)
  Definition compare_values (op : binary_op) (a b : value) : res value :=
    match a, b with
    | VNumber x, VNumber y => Ok (VBoolean (cmp_numbers op x y))
    | VString x, VString y => Ok (VBoolean (cmp_strings op x y))
    | VBoolean x, VBoolean y =>
        Ok (VBoolean (match op with
                      | BEq => Bool.eqb x y
                      | BNe => negb (Bool.eqb x y)
                      | _ => false
                      end))
    | _, _ => match op with
              | BEq => Ok (VBoolean false)
              | BNe => Ok (VBoolean true)
              | _ => Err (err "Comparison of incompatible types")
              end
    end.
  (** [core.rs:342-355]: without a variable context, numbers only *)
  Definition compare_numeric (op : binary_op) (a b : value) : res value :=
    x <- ok_or (as_number a) (err "Comparison on non-number") ;;
    y <- ok_or (as_number b) (err "Comparison on non-number") ;;
    Ok (VBoolean (cmp_numbers op x y)).
  (** [core.rs:289-367], [369-436], [evaluator.rs:230-288] *)
  Definition binary (cmp : binary_op -> value -> value -> res value) (op : binary_op) (a b : value)
    : res value :=
    match op with
    | BAdd | BSub | BMul | BDiv | BMod | BPow =>
        x <- ok_or (as_number a) (err "Arithmetic op on non-number") ;;
        y <- ok_or (as_number b) (err "Arithmetic op on non-number") ;;
        Ok (VNumber (arith op x y))
    | BGt | BLt | BGe | BLe | BEq | BNe => cmp op a b
    | BAnd | BOr =>
        x <- ok_or (as_bool a) (err "Logical op on non-boolean") ;;
        y <- ok_or (as_bool b) (err "Logical op on non-boolean") ;;
        Ok (VBoolean (match op with BAnd => x && y | _ => x || y end))
    end.

  (** [core.rs:439-457], [evaluator.rs:291-307] (and [core.rs:459-482] with
      another text for the last error) *)
  Definition property (e : value -> error) (v : value) (p : str) (safe : bool) : res value :=
    match v with
    | VJson s =>
        j <- parse_json s ;;
        match jget p j with
        | Some x => Ok (json_to_value x)
        | None => if safe then Ok VNull
                  else Err (mkErr (lit "Property '" ++ p ++ lit "' not found in JSON object") None)
        end
    | VNull => if safe then Ok VNull else Err (e v)
    | _ => Err (e v)
    end.
  Definition needs_object (_ : value) : error := err "Property access requires JSON object".
  Definition needs_object_got (v : value) : error :=
    mkErr (lit "Property access only supported on JSON objects, got " ++ value_debug v) None.

  (** [core.rs:485-499], [501-516], [evaluator.rs:150-161]: each value is
      evaluated and converted before the next; a repeated key keeps the last *)
  Definition build_object (vs : list (str * res value)) : res value :=
    kvs <- foldM (fun acc kv => v <- snd kv ;; j <- value_to_json v ;; Ok (binsert (fst kv) j acc))
                 vs [] ;;
    Ok (VJson (json_print (JObj kvs))).

  (** [core.rs:72-80], [159-167], [evaluator.rs:168-176] *)
  Definition index_value (e : error) (recv : value) (idx : value) : res value :=
    i <- ok_or (as_number idx) (err "Index must be number") ;;
    match recv with
    | VArray items => index_array items (f_to_isize i)
    | _ => Err e
    end.
  (** [core.rs:82-91], [169-178], [evaluator.rs:178-188]; the bounds are
      evaluated only when the receiver is an array *)
  Definition slice_value (e : error) (recv : value) (s t : option (res value)) : res value :=
    match recv with
    | VArray items =>
        sv <- match s with Some r => v <- r ;; Ok (Some v) | None => Ok None end ;;
        tv <- match t with Some r => v <- r ;; Ok (Some v) | None => Ok None end ;;
        slice_array items sv tv
    | _ => Err e
    end.

  (** [core.rs:574-594] (also [641-653], [evaluator.rs:313-324]) *)
  Definition ternary {C} (c : C) (args : list (arg C)) : res value :=
    match args with
    | [a0; a1; a2] =>
        v <- a_eval a0 c ;;
        b <- ok_or (as_bool v) (err "Ternary condition must be boolean") ;;
        if b then a_eval a1 c else a_eval a2 c
    | _ => Err (err "Ternary expects 3 args")
    end.

  (** ** Higher-order functions ([higher_order.rs]) *)

  (** [if let Expr::Spread(_) = lambda { return Err("Invalid lambda") }], which
      is only reached when the array has an element *)
  Definition lambda_of {C} (wrap : env -> C) (a : arg C) : env -> res value :=
    fun vars => match a_spread a with
                | Some _ => Err (err "Invalid lambda")
                | None => a_eval a (wrap vars)
                end.
  Definition plain_lambda {C} (wrap : env -> C) (a : arg C) : env -> res value :=
    fun vars => a_eval a (wrap vars).

  (** number or currency, else nothing *)
  Definition addend (v : value) : option f64 :=
    match v with VNumber n | VCurrency n => Some n | _ => None end.
  Section IfLoops.
    Variable f : env -> res value.
    (** [higher_order.rs:278-290] *)
    Fixpoint sumif_loop (vars : env) (acc : f64) (items : list value) : res f64 :=
      match items with
      | [] => Ok acc
      | it :: r =>
          let vars' := minsert (lit "x") it vars in
          v <- f vars' ;;
          sumif_loop vars' (match is_true v, addend it with
                            | true, Some n => f_add acc n
                            | _, _ => acc
                            end) r
      end.
    (** [higher_order.rs:338-353] *)
    Fixpoint avgif_loop (vars : env) (acc : f64) (count : Z) (items : list value) : res (f64 * Z) :=
      match items with
      | [] => Ok (acc, count)
      | it :: r =>
          let vars' := minsert (lit "x") it vars in
          v <- f vars' ;;
          match is_true v, addend it with
          | true, Some n => avgif_loop vars' (f_add acc n) (count + 1) r
          | _, _ => avgif_loop vars' acc count r
          end
      end.
    (** [higher_order.rs:405-413] *)
    Fixpoint countif_loop (vars : env) (count : Z) (items : list value) : res Z :=
      match items with
      | [] => Ok count
      | it :: r =>
          let vars' := minsert (lit "x") it vars in
          v <- f vars' ;;
          countif_loop vars' (if is_true v then count + 1 else count) r
      end.
  End IfLoops.

  Definition as_array (v : value) (e : string) : res (list value) :=
    match v with VArray items => Ok items | _ => Err (err e) end.
  Arguments as_array v e%string.

  Definition param_of (v : value) (default : string) : str :=
    match v with VString s => s | _ => lit default end.
  (** [higher_order.rs:448-459]; always defaults to "x" *)
  Definition get_param {C} (c : C) (o : option (arg C)) (default : string) : res str :=
    match o with
    | Some a => v <- a_eval a c ;; Ok (param_of v default)
    | None => Ok (lit default)
    end.
  (** [.unwrap_or_else(|_| default)] *)
  Definition unwrap_or {A} (r : res A) (d : A) : res A :=
    match r with Ok a => Ok a | Err _ => Ok d | Panic w => Panic w end.

  (** SUMIF / AVGIF / COUNTIF by lambda, shared by all the evaluators once the
      argument count is known to be 2
      ([higher_order.rs:268-445], [evaluator.rs:544-563], [686-740]) *)
  Definition sumif_with (f : env -> res value) (vars : env) (arr : value) : res value :=
    items <- as_array arr "SUMIF first arg must be array" ;;
    s <- sumif_loop f vars f_zero items ;;
    Ok (VNumber s).
  Definition avgif_with (f : env -> res value) (vars : env) (arr : value) : res value :=
    items <- as_array arr "AVGIF first arg must be array" ;;
    '(acc, count) <- avgif_loop f vars f_zero 0 items ;;
    Ok (VNumber (if count =? 0 then f_zero else f_div acc (f_of_Z count))).
  Definition countif_with (f : env -> res value) (vars : env) (arr : value) : res value :=
    items <- as_array arr "COUNTIF first arg must be array" ;;
    n <- countif_loop f vars 0 items ;;
    Ok (VNumber (f_of_Z n)).

  (** [higher_order.rs:46-72], [103-128], [158-182] *)
  Definition core_filter (vars : env) (args : list (arg (option env))) : res value :=
    match args with
    | a0 :: a1 :: _ =>
        arr <- a_eval a0 (Some vars) ;;
        p <- get_param (Some vars) (nth_error args 2) "x" ;;
        items <- as_array arr "FILTER first arg must be array" ;;
        out <- filter_loop (lambda_of Some a1) p vars items ;;
        Ok (VArray out)
    | _ => Err (err "FILTER expects (array, expr, [param])")
    end.
  Definition core_find (vars : env) (args : list (arg (option env))) : res value :=
    match args with
    | a0 :: a1 :: _ =>
        arr <- a_eval a0 (Some vars) ;;
        p <- get_param (Some vars) (nth_error args 2) "x" ;;
        items <- as_array arr "FIND first arg must be array" ;;
        find_loop (lambda_of Some a1) p vars items
    | _ => Err (err "FIND expects (array, expr, [param])")
    end.
  Definition core_map (vars : env) (args : list (arg (option env))) : res value :=
    match args with
    | a0 :: a1 :: _ =>
        arr <- a_eval a0 (Some vars) ;;
        p <- get_param (Some vars) (nth_error args 2) "x" ;;
        items <- as_array arr "MAP first arg must be array" ;;
        out <- map_loop (lambda_of Some a1) p vars items ;;
        Ok (VArray out)
    | _ => Err (err "MAP expects (array, expr, [param])")
    end.
  (** [higher_order.rs:211-238]: the accumulator parameter too defaults to "x"
      ([get_param_name(None)] succeeds with "x"), so without a fifth argument
      the element is overwritten by the accumulator *)
  Definition core_reduce (vars : env) (args : list (arg (option env))) : res value :=
    match args with
    | a0 :: a1 :: a2 :: _ =>
        arr <- a_eval a0 (Some vars) ;;
        init <- a_eval a2 (Some vars) ;;
        vp <- unwrap_or (get_param (Some vars) (nth_error args 3) "x") (lit "x") ;;
        ap <- unwrap_or (get_param (Some vars) (nth_error args 4) "x") (lit "acc") ;;
        items <- as_array arr "REDUCE first arg must be array" ;;
        reduce_loop (lambda_of Some a1) vp ap vars init items
    | _ => Err (err "REDUCE expects (array, expr, initial, [valParam], [accParam])")
    end.
  (** two arguments exactly, then one of the loops *)
  Definition two_args {C} (c : C) (args : list (arg C)) (msg : string)
    (k : value -> arg C -> res value) : res value :=
    match args with
    | [a0; a1] => arr <- a_eval a0 c ;; k arr a1
    | _ => Err (err msg)
    end.
  Arguments two_args {C} c args msg%string k.
  (** [higher_order.rs:268-294], [328-357], [395-417] *)
  Definition core_sumif (vars : env) (args : list (arg (option env))) : res value :=
    two_args (Some vars) args "SUMIF expects (array, expr)"
             (fun arr a => sumif_with (plain_lambda Some a) vars arr).
  Definition core_avgif (vars : env) (args : list (arg (option env))) : res value :=
    two_args (Some vars) args "AVGIF expects (array, expr)"
             (fun arr a => avgif_with (plain_lambda Some a) vars arr).
  Definition core_countif (vars : env) (args : list (arg (option env))) : res value :=
    two_args (Some vars) args "COUNTIF expects (array, expr)"
             (fun arr a => countif_with (plain_lambda Some a) vars arr).

  Definition higher_order_names : list string :=
    ["FILTER"; "FIND"; "MAP"; "REDUCE"; "SUMIF"; "AVGIF"; "COUNTIF"]%string.
  (** [higher_order.rs:10-25] *)
  Definition core_higher_order (name : str) (vars : env) (args : list (arg (option env))) : res value :=
    if is name "FILTER" then core_filter vars args
    else if is name "FIND" then core_find vars args
    else if is name "MAP" then core_map vars args
    else if is name "REDUCE" then core_reduce vars args
    else if is name "SUMIF" then core_sumif vars args
    else if is name "AVGIF" then core_avgif vars args
    else if is name "COUNTIF" then core_countif vars args
    else Err (mkErr (lit "Unknown higher-order function: " ++ name) None).

  (** [core.rs:572-632] *)
  Definition core_call (c : option env) (name : str) (args : list (arg (option env))) : res value :=
    if is name "__TERNARY__" then ternary c args
    else if one_of higher_order_names name then
      match c with
      | Some vars => core_higher_order name vars args
      | None => Err (mkErr (name ++ lit " requires variable context") None)
      end
    else vs <- collect_args c args ;; exec_builtin name vs.

  (** what [eval] (no variables) says about the forms it does not handle *)
  Definition no_vars (what : string) : error :=
    mkErr (lit "Use eval_with_vars for " ++ lit what) None.
  Arguments no_vars what%string.

  (** [core.rs:40-109] ([eval], context [None]) and [core.rs:111-205]
      ([eval_with_vars], context [Some vars]) *)
  Fixpoint ev (e : expr) (c : option env) {struct e} : res value :=
    match e with
    | ENumber n => Ok (VNumber n)
    | EStringLit s => Ok (VString s)
    | ENull => Ok VNull
    | EUnary op e1 => v <- ev e1 c ;; unary op v
    | EBinary l op r =>
        a <- ev l c ;;
        b <- ev r c ;;
        binary (match c with Some _ => compare_values | None => compare_numeric end) op a b
    | EVariable name =>
        match c with
        | Some vars => ok_or (mget name vars) (mkErr (lit "Missing variable: :" ++ name) None)
        | None => Err (no_vars "variables")
        end
    | EPropertyAccess t p =>
        match c with
        | Some _ => v <- ev t c ;; property needs_object v p false
        | None => Err (no_vars "property access")
        end
    | ESafePropertyAccess t p =>
        match c with
        | Some _ => v <- ev t c ;; property needs_object v p true
        | None => Err (no_vars "safe property access")
        end
    | ESafeMethodCall t name args =>
        match c with
        | Some _ =>
            v <- ev t c ;;
            match v with
            | VNull => Ok VNull
            | _ => exec_method name false v
                     (map (fun a => mkMarg a (ev a) (fun vars => ev a (Some vars))) args) c
            end
        | None => Err (no_vars "safe method calls")
        end
    | EFunctionCall name args =>
        core_call c name
          (map (fun a => mkArg (ev a) (match a with ESpread i => Some (ev i) | _ => None end)) args)
    | ESpread _ => Err (err "Spread not allowed here")
    | EArray items => vs <- mapM (fun a => ev a c) items ;; Ok (VArray vs)
    | EObjectLiteral pairs => build_object (map (fun kv => (fst kv, ev (snd kv) c)) pairs)
    | EMethodCall t name args predicate =>
        v <- ev t c ;;
        exec_method name predicate v
          (map (fun a => mkMarg a (ev a) (fun vars => ev a (Some vars))) args) c
    | EIndex t i =>
        recv <- ev t c ;;
        idx <- ev i c ;;
        index_value (match c with
                     | Some _ => err "Index on non-array"
                     | None => err "Indexing only supported on arrays"
                     end) recv idx
    | ESlice t s stop =>
        recv <- ev t c ;;
        slice_value (match c with
                     | Some _ => err "Slice on non-array"
                     | None => err "Slicing only supported on arrays"
                     end) recv
          (match s with Some x => Some (ev x c) | None => None end)
          (match stop with Some x => Some (ev x c) | None => None end)
    | ETypeCast e1 ty => v <- ev e1 c ;; cast_value v ty
    | EAssignment _ e1 =>
        match c with
        | Some _ => ev e1 c
        | None => Err (no_vars "assignments")
        end
    | ESequence es =>
        match c with
        | Some _ => foldM (fun _ x => ev x c) es VNull
        | None => Err (no_vars "sequences")
        end
    end.

  (** ** With a function registry ([core.rs:207-286]) *)

  (** [core.rs:519-540]: positions as [i32].  Simplification: arrays are
      assumed shorter than 2^31 ([items.len() as i32] does not wrap). *)
  Definition index_custom (recv idx : value) : res value :=
    match recv with
    | VArray items =>
        n <- ok_or (as_number idx) (err "Index must be number") ;;
        let i := f_to_i32 n in
        let len := zlen items in
        let real := if i <? 0 then len + i else i in
        if (real <? 0) || (len <=? real) then Err (err "Index out of bounds")
        else match znth items real with
             | Some v => Ok v
             | None => Panic "index out of bounds"
             end
    | _ => Err (err "Index on non-array")
    end.
  Definition bound_custom (len : Z) (b : option (res value)) (default : Z) (msg : string) : res Z :=
    match b with
    | Some r =>
        v <- r ;;
        n <- ok_or (as_number v) (err msg) ;;
        let i := f_to_i32 n in
        Ok (if i <? 0 then Z.max (len + i) 0 else Z.min i len)
    | None => Ok default
    end.
  Arguments bound_custom len b default msg%string.
  (** [core.rs:542-569] *)
  Definition slice_custom (recv : value) (s t : option (res value)) : res value :=
    match recv with
    | VArray items =>
        let len := zlen items in
        a <- bound_custom len s 0 "Slice start must be number" ;;
        b <- bound_custom len t len "Slice end must be number" ;;
        Ok (VArray (if a <=? b then firstn (Z.to_nat (b - a)) (skipn (Z.to_nat a) items) else []))
    | _ => Err (err "Slice on non-array")
    end.

  (** [higher_order.rs:74-100], [130-155], [184-208]: the parameter is always "x" *)
  Definition custom_filter (vars : env) (args : list (arg env)) : res value :=
    match args with
    | a0 :: a1 :: _ =>
        arr <- a_eval a0 vars ;;
        items <- as_array arr "FILTER first arg must be array" ;;
        out <- filter_loop (a_eval a1) (lit "x") vars items ;;
        Ok (VArray out)
    | _ => Err (err "FILTER expects (array, expr)")
    end.
  Definition custom_find (vars : env) (args : list (arg env)) : res value :=
    match args with
    | a0 :: a1 :: _ =>
        arr <- a_eval a0 vars ;;
        items <- as_array arr "FIND first arg must be array" ;;
        find_loop (a_eval a1) (lit "x") vars items
    | _ => Err (err "FIND expects (array, expr)")
    end.
  Definition custom_map (vars : env) (args : list (arg env)) : res value :=
    match args with
    | a0 :: a1 :: _ =>
        arr <- a_eval a0 vars ;;
        items <- as_array arr "MAP first arg must be array" ;;
        out <- map_loop (a_eval a1) (lit "x") vars items ;;
        Ok (VArray out)
    | _ => Err (err "MAP expects (array, expr)")
    end.
  (** [higher_order.rs:240-265]: "acc" then "x" are inserted; the names differ,
      so the order does not matter *)
  Definition custom_reduce (vars : env) (args : list (arg env)) : res value :=
    match args with
    | a0 :: a1 :: a2 :: _ =>
        arr <- a_eval a0 vars ;;
        init <- a_eval a2 vars ;;
        items <- as_array arr "REDUCE first arg must be array" ;;
        reduce_loop (a_eval a1) (lit "x") (lit "acc") vars init items
    | _ => Err (err "REDUCE expects (array, expr, initial)")
    end.
  (** [higher_order.rs:296-325], [359-392], [419-445] *)
  Definition custom_sumif (vars : env) (args : list (arg env)) : res value :=
    two_args vars args "SUMIF expects (array, expr)" (fun arr a => sumif_with (a_eval a) vars arr).
  Definition custom_avgif (vars : env) (args : list (arg env)) : res value :=
    two_args vars args "AVGIF expects (array, expr)" (fun arr a => avgif_with (a_eval a) vars arr).
  Definition custom_countif (vars : env) (args : list (arg env)) : res value :=
    two_args vars args "COUNTIF expects (array, expr)" (fun arr a => countif_with (a_eval a) vars arr).
  (** [higher_order.rs:27-43] *)
  Definition custom_higher_order (name : str) (vars : env) (args : list (arg env)) : res value :=
    if is name "FILTER" then custom_filter vars args
    else if is name "FIND" then custom_find vars args
    else if is name "MAP" then custom_map vars args
    else if is name "REDUCE" then custom_reduce vars args
    else if is name "SUMIF" then custom_sumif vars args
    else if is name "AVGIF" then custom_avgif vars args
    else if is name "COUNTIF" then custom_countif vars args
    else Err (mkErr (lit "Unknown higher-order function: " ++ name) None).

  (** [core.rs:634-702].  The registry lock is held for reading while the
      arguments of a custom function are evaluated; poisoning and blocking are
      not modelled here. *)
  Definition custom_call (reg : registry) (vars : env) (name : str) (args : list (arg env)) : res value :=
    if is name "__TERNARY__" then ternary vars args
    else if reg_has reg name then vs <- collect_args vars args ;; reg_execute reg name vs
    else if one_of higher_order_names name then custom_higher_order name vars args
    else vs <- collect_args vars args ;; exec_builtin name vs.

  (** [core.rs:207-286] *)
  Fixpoint ev_custom (reg : registry) (e : expr) (vars : env) {struct e} : res value :=
    match e with
    | ENumber n => Ok (VNumber n)
    | EStringLit s => Ok (VString s)
    | ENull => Ok VNull
    | EUnary op e1 => v <- ev_custom reg e1 vars ;; unary op v
    | EBinary l op r =>
        a <- ev_custom reg l vars ;;
        b <- ev_custom reg r vars ;;
        binary compare_values op a b
    | EVariable name => ok_or (mget name vars) (mkErr (lit "Undefined variable: " ++ name) None)
    | EPropertyAccess t p => v <- ev_custom reg t vars ;; property needs_object_got v p false
    | ESafePropertyAccess t p => v <- ev_custom reg t vars ;; property needs_object_got v p true
    | ESafeMethodCall t name args =>
        v <- ev_custom reg t vars ;;
        match v with
        | VNull => Ok VNull
        | _ => exec_method name false v (map (fun a => mkMarg a (ev a) (ev_custom reg a)) args) (Some vars)
        end
    | EFunctionCall name args =>
        custom_call reg vars name
          (map (fun a => mkArg (ev_custom reg a)
                               (match a with ESpread i => Some (ev_custom reg i) | _ => None end)) args)
    | ESpread _ => Err (err "Spread not allowed here")
    | EArray items => vs <- mapM (fun a => ev_custom reg a vars) items ;; Ok (VArray vs)
    | EObjectLiteral pairs => build_object (map (fun kv => (fst kv, ev_custom reg (snd kv) vars)) pairs)
    | EMethodCall t name args predicate =>
        v <- ev_custom reg t vars ;;
        exec_method name predicate v (map (fun a => mkMarg a (ev a) (ev_custom reg a)) args) (Some vars)
    | EIndex t i => recv <- ev_custom reg t vars ;; idx <- ev_custom reg i vars ;; index_custom recv idx
    | ESlice t s stop =>
        recv <- ev_custom reg t vars ;;
        slice_custom recv
          (match s with Some x => Some (ev_custom reg x vars) | None => None end)
          (match stop with Some x => Some (ev_custom reg x vars) | None => None end)
    | ETypeCast e1 ty => v <- ev_custom reg e1 vars ;; cast_value v ty
    | EAssignment _ e1 => ev_custom reg e1 vars
    | ESequence es => foldM (fun _ x => ev_custom reg x vars) es VNull
    end.

  (** ** [assignments.rs:23-40] (not used by lib.rs, public in [runtime]) *)
  Fixpoint ev_assign (e : expr) (ctx : env) {struct e} : res (value * env) :=
    match e with
    | EAssignment x e1 =>
        '(v, ctx') <- ev_assign e1 ctx ;;
        Ok (v, minsert x v ctx')
    | ESequence es => foldM (fun acc x => ev_assign x (snd acc)) es (VNull, ctx)
    | _ => v <- ev e (Some ctx) ;; Ok (v, ctx)
    end.
End Core.
