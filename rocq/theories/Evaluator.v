(** [runtime/evaluator.rs]: the evaluator behind the public API. *)
From Coq Require Import String List ZArith NArith Bool.
From Verif Require Import Base F64 Syntax Ext F64Text Json Utils Cast Dispatch Registry Methods Core.
Import ListNotations.
Local Open Scope Z_scope.

(** [evaluator.rs:16-90]: the contexts.  [EmptyContext] is a context without
    variables and registry; [Cow] is modelled separately (Cow.v). *)
Record ctx := mkCtx { c_vars : env; c_reg : option registry }.
Definition empty_ctx : ctx := mkCtx [] None.
Definition vars_ctx (vars : env) : ctx := mkCtx vars None.
Definition custom_ctx (vars : env) (reg : registry) : ctx := mkCtx vars (Some reg).

Section Evaluator.
  Context {X : Ext}.

  (** [evaluator.rs:567-650] *)
  Definition cmp_addend (v : value) (p : f64 -> bool) (other : bool) : bool :=
    match v with VNumber n | VCurrency n => p n | _ => other end.
  Definition same_text (v : value) (s : str) : bool :=
    match v with VString t => str_eqb t s | _ => false end.
  Definition meets_criteria (v : value) (criteria : value) : bool :=
    match criteria with
    | VString crit =>
        match strip_prefix (lit ">=") crit with
        | Some r => match f_from_str r with
                    | Some t => cmp_addend v (fun n => f_leb t n) false
                    | None => false
                    end
        | None =>
        match strip_prefix (lit "<=") crit with
        | Some r => match f_from_str r with
                    | Some t => cmp_addend v (fun n => f_leb n t) false
                    | None => false
                    end
        | None =>
        match strip_prefix (lit "<>") crit with
        | Some r => match f_from_str r with
                    | Some t => cmp_addend v (fun n => negb (f_eqb n t)) true
                    | None => negb (same_text v r)
                    end
        | None =>
        match strip_prefix (lit ">") crit with
        | Some r => match f_from_str r with
                    | Some t => cmp_addend v (fun n => f_ltb t n) false
                    | None => false
                    end
        | None =>
        match strip_prefix (lit "<") crit with
        | Some r => match f_from_str r with
                    | Some t => cmp_addend v (fun n => f_ltb n t) false
                    | None => false
                    end
        | None =>
        match strip_prefix (lit "=") crit with
        | Some r => match f_from_str r with
                    | Some t => cmp_addend v (fun n => f_eqb n t) false
                    | None => same_text v r
                    end
        | None => match f_from_str crit with
                  | Some t => cmp_addend v (fun n => f_eqb n t) false
                  | None => same_text v crit
                  end
        end end end end end end
    | VNumber t => cmp_addend v (fun n => f_eqb n t) false
    | _ => false
    end.
  (** [evaluator.rs:652-680] *)
  Fixpoint sum_pairs (acc : f64) (criteria : value) (range sums : list value) : f64 :=
    match range, sums with
    | x :: range', s :: sums' =>
        sum_pairs (if meets_criteria x criteria
                   then match addend s with Some n => f_add acc n | None => acc end
                   else acc) criteria range' sums'
    | _, _ => acc
    end.
  Definition sum_if (range sums criteria : value) : f64 :=
    match range, sums with
    | VArray rs, VArray ss => sum_pairs f_zero criteria rs ss
    | _, _ => if meets_criteria range criteria
              then match addend sums with Some n => n | None => f_zero end
              else f_zero
    end.

  (** the variable context a lambda is evaluated in: [VariableContext::with_owned],
      which has no registry *)
  Definition lambda_ctx (a : arg ctx) : env -> res value := fun vars => a_eval a (vars_ctx vars).

  (** [evaluator.rs:409-436], [438-464], [466-491] *)
  Definition top_filter (c : ctx) (args : list (arg ctx)) : res value :=
    match args with
    | a0 :: a1 :: _ =>
        arr <- a_eval a0 c ;;
        p <- get_param c (nth_error args 2) "x" ;;
        items <- as_array arr "FILTER first arg must be array" ;;
        out <- filter_loop (lambda_ctx a1) p (c_vars c) items ;;
        Ok (VArray out)
    | _ => Err (err "FILTER expects (array, expr)")
    end.
  Definition top_find (c : ctx) (args : list (arg ctx)) : res value :=
    match args with
    | a0 :: a1 :: _ =>
        arr <- a_eval a0 c ;;
        p <- get_param c (nth_error args 2) "x" ;;
        items <- as_array arr "FIND first arg must be array" ;;
        find_loop (lambda_ctx a1) p (c_vars c) items
    | _ => Err (err "FIND expects (array, expr)")
    end.
  Definition top_map (c : ctx) (args : list (arg ctx)) : res value :=
    match args with
    | a0 :: a1 :: _ =>
        arr <- a_eval a0 c ;;
        p <- get_param c (nth_error args 2) "x" ;;
        items <- as_array arr "MAP first arg must be array" ;;
        out <- map_loop (lambda_ctx a1) p (c_vars c) items ;;
        Ok (VArray out)
    | _ => Err (err "MAP expects (array, expr)")
    end.
  (** [evaluator.rs:493-521] *)
  Definition top_reduce (c : ctx) (args : list (arg ctx)) : res value :=
    match args with
    | a0 :: a1 :: a2 :: _ =>
        arr <- a_eval a0 c ;;
        init <- a_eval a2 c ;;
        vp <- get_param c (nth_error args 3) "x" ;;
        ap <- get_param c (nth_error args 4) "acc" ;;
        items <- as_array arr "REDUCE first arg must be array" ;;
        reduce_loop (lambda_ctx a1) vp ap (c_vars c) init items
    | _ => Err (err "REDUCE expects (array, expr, initial)")
    end.

  (** [evaluator.rs:523-564] *)
  Definition sumif_tail (c : ctx) (arr : value) (a1 : arg ctx) (sums : option value) : res value :=
    let by_lambda :=
      match sums with
      | None => sumif_with (lambda_ctx a1) (c_vars c) arr
      | Some _ => Err (err "Lambda-style SUMIF expects exactly (array, expr)")
      end in
    match a_eval a1 c with
    | Ok crit =>
        match crit with
        | VString _ | VNumber _ =>
            Ok (VNumber (sum_if arr (match sums with Some s => s | None => arr end) crit))
        | _ => by_lambda
        end
    | Err _ => by_lambda
    | Panic w => Panic w
    end.
  Definition top_sumif (c : ctx) (args : list (arg ctx)) : res value :=
    match args with
    | [a0; a1] => arr <- a_eval a0 c ;; sumif_tail c arr a1 None
    | [a0; a1; a2] =>
        arr <- a_eval a0 c ;;
        sums <- a_eval a2 c ;;
        sumif_tail c arr a1 (Some sums)
    | _ => Err (err "SUMIF expects (array, criteria) or (array, criteria, sum_array)")
    end.
  (** [evaluator.rs:686-714], [716-740] *)
  Definition top_avgif (c : ctx) (args : list (arg ctx)) : res value :=
    two_args c args "AVGIF expects (array, expr)"
             (fun arr a => avgif_with (lambda_ctx a) (c_vars c) arr).
  Definition top_countif (c : ctx) (args : list (arg ctx)) : res value :=
    two_args c args "COUNTIF expects (array, expr)"
             (fun arr a => countif_with (lambda_ctx a) (c_vars c) arr).
  (** [evaluator.rs:365-383] *)
  Definition top_jq (c : ctx) (args : list (arg ctx)) : res value :=
    match args with
    | [a0; a1] =>
        data <- a_eval a0 c ;;
        pv <- a_eval a1 c ;;
        match pv with
        | VString path =>
            if is_jsonpath path then apply_jsonpath data path
            else Err (err "JQ second argument must be a valid JSONPath expression starting with $")
        | _ => Err (err "JQ second argument must be a string")
        end
    | _ => Err (err "JQ expects exactly 2 arguments: json_data, jsonpath_expression")
    end.

  (** [evaluator.rs:331-354] *)
  Definition custom_hit (c : ctx) (name : str) : option registry :=
    match c_reg c with
    | Some reg => if reg_has reg name then Some reg else None
    | None => None
    end.
  (** [evaluator.rs:310-406] *)
  Definition top_call (c : ctx) (name : str) (args : list (arg ctx)) : res value :=
    if is name "__TERNARY__" then ternary c args
    else if is name "__CONST_TRUE__" then Ok (VBoolean true)
    else if is name "__CONST_FALSE__" then Ok (VBoolean false)
    else match custom_hit c name with
    | Some reg => vs <- collect_args c args ;; reg_execute reg name vs
    | None =>
        if is name "FILTER" then top_filter c args
        else if is name "FIND" then top_find c args
        else if is name "MAP" then top_map c args
        else if is name "REDUCE" then top_reduce c args
        else if is name "SUMIF" then top_sumif c args
        else if is name "AVGIF" then top_avgif c args
        else if is name "COUNTIF" then top_countif c args
        else if is name "JQ" then top_jq c args
        else vs <- collect_args c args ;; exec_builtin_fast name vs
    end.

  (** [evaluator.rs:130-140], [194-201]: method arguments go to the evaluators
      of [Core.v] with a copy of the variables *)
  Definition margs_of (c : ctx) (args : list expr) : list marg :=
    map (fun a => mkMarg a (ev a)
                    (match c_reg c with
                     | Some reg => ev_custom reg a
                     | None => fun vars => ev a (Some vars)
                     end)) args.

  (** [evaluator.rs:97-218] *)
  Fixpoint eval (e : expr) (c : ctx) {struct e} : res value :=
    match e with
    | ENumber n => Ok (VNumber n)
    | EStringLit s => Ok (VString s)
    | ENull => Ok VNull
    | EUnary op e1 => v <- eval e1 c ;; unary op v
    | EBinary l op r => a <- eval l c ;; b <- eval r c ;; binary compare_values op a b
    | EVariable name =>
        ok_or (mget name (c_vars c)) (mkErr (lit "Missing variable: :" ++ name) None)
    | EPropertyAccess t p => v <- eval t c ;; property needs_object v p false
    | ESafePropertyAccess t p => v <- eval t c ;; property needs_object v p true
    | ESafeMethodCall t name args =>
        v <- eval t c ;;
        match v with
        | VNull => Ok VNull
        | _ => exec_method name false v (margs_of c args) (Some (c_vars c))
        end
    | EFunctionCall name args =>
        top_call c name
          (map (fun a => mkArg (eval a) (match a with ESpread i => Some (eval i) | _ => None end)) args)
    | ESpread _ => Err (err "Spread not allowed here")
    | EArray items => vs <- mapM (fun a => eval a c) items ;; Ok (VArray vs)
    | EObjectLiteral pairs => build_object (map (fun kv => (fst kv, eval (snd kv) c)) pairs)
    | EMethodCall t name args predicate =>
        v <- eval t c ;;
        exec_method name predicate v (margs_of c args) (Some (c_vars c))
    | EIndex t i =>
        recv <- eval t c ;;
        idx <- eval i c ;;
        index_value (err "Index on non-array") recv idx
    | ESlice t s stop =>
        recv <- eval t c ;;
        slice_value (err "Slice on non-array") recv
          (match s with Some x => Some (eval x c) | None => None end)
          (match stop with Some x => Some (eval x c) | None => None end)
    | ETypeCast e1 ty => v <- eval e1 c ;; cast_value v ty
    | EAssignment _ e1 => eval e1 c
    | ESequence es => foldM (fun _ x => eval x c) es VNull
    end.

  (** [evaluator.rs:796-813]: the value and the final variables *)
  Fixpoint eval_assign (e : expr) (vars : env) {struct e} : res (value * env) :=
    match e with
    | EAssignment x e1 =>
        v <- eval e1 (vars_ctx vars) ;;
        Ok (v, minsert x v vars)
    | ESequence es => foldM (fun acc x => eval_assign x (snd acc)) es (VNull, vars)
    | _ => v <- eval e (vars_ctx vars) ;; Ok (v, vars)
    end.
End Evaluator.
