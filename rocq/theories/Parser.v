(** Model of [parser.rs]: recursive descent over the token stream.
    The Rust functions are general recursive; here every call decreases a
    fuel counter and running out is the explicit outcome [OutOfFuel], which
    [Parser_proofs] shows never happens with the fuel [parse] supplies. *)
From Coq Require Import String List ZArith NArith Bool.
From Verif Require Import Base F64 Utf8 Syntax Lexer.
Import ListNotations.

(** [parser.rs:6-11].  [lookahead2] is never set by any function, so it is
    omitted; [lexer] is represented by the stream of its remaining tokens. *)
Record pstate := mkP { look : token; look_pos : N; toks : tstream }.

Inductive pres (A : Type) : Type :=
| POk (a : A) (st : pstate)
| PErr (e : error)
| PPanic (why : string)
| OutOfFuel.
Arguments POk {A} a st.
Arguments PErr {A} e.
Arguments PPanic {A} why.
Arguments OutOfFuel {A}.

Definition pbind {A B} (r : pres A) (k : A -> pstate -> pres B) : pres B :=
  match r with
  | POk a st => k a st
  | PErr e => PErr e
  | PPanic w => PPanic w
  | OutOfFuel => OutOfFuel
  end.
Notation "'let*' a ; st := r 'in' k" := (pbind r (fun a st => k))
  (at level 200, a name, st name, r at level 100, k at level 200, right associativity).

(** [parser.rs:21-29] *)
Definition bump (st : pstate) : pres unit :=
  match toks st with
  | TSEnd p => POk tt (mkP TEof p (TSEnd p))
  | TSCons t p r => POk tt (mkP t p r)
  | TSErr e => PErr e
  | TSPanic w => PPanic w
  end.

(** [parser.rs:31-37,84]: are the next two tokens [Identifier], [:=] ?
    Lexer errors count as [Eof]. *)
Definition is_assign_ahead (st : pstate) : bool :=
  match toks st with
  | TSCons (TIdentifier _) _ (TSCons TColonEquals _ _) => true
  | _ => false
  end.

(** [parser.rs:48] *)
Definition err_here {A} (st : pstate) (m : string) : pres A :=
  PErr (mkErr (lit m) (Some (look_pos st))).

(** [{:?}] of the tokens that can reach [parser.rs:386] (those with a payload
    are all handled before). *)
Definition token_debug (t : token) : string :=
  match t with
  | TNumber _ => "Number" | TIdentifier _ => "Identifier" | TString _ => "String"
  | TTrue => "True" | TFalse => "False" | TNull => "Null"
  | TPlus => "Plus" | TMinus => "Minus" | TStar => "Star" | TSlash => "Slash"
  | TPercent => "Percent" | TCaret => "Caret" | TBang => "Bang" | TDot => "Dot"
  | TSafeNavigation => "SafeNavigation" | TEllipsis => "Ellipsis" | TLParen => "LParen"
  | TRParen => "RParen" | TComma => "Comma" | TColon => "Colon" | TDoubleColon => "DoubleColon"
  | TLBracket => "LBracket" | TRBracket => "RBracket" | TLBrace => "LBrace" | TRBrace => "RBrace"
  | TGreater => "Greater" | TLess => "Less" | TGe => "Ge" | TLe => "Le" | TEqEq => "EqEq"
  | TNotEq => "NotEq" | TAnd => "And" | TOr => "Or" | TAndAnd => "AndAnd" | TOrOr => "OrOr"
  | TQMark => "QMark" | TSemicolon => "Semicolon" | TColonEquals => "ColonEquals" | TEof => "Eof"
  end%string.

(** The six left-associative binary levels, tightest first:
    0 [parser.rs:200-223] multiplicative, 1 [180-198] additive,
    2 [166-178] relational, 3 [154-164] equality, 4 [139-152] and,
    5 [124-137] or. *)
Definition n_levels : nat := 6.
Definition binop_at (lvl : nat) (t : token) : option binary_op :=
  match lvl, t with
  | 0, TStar => Some BMul
  | 0, TSlash => Some BDiv
  | 0, TPercent => Some BMod
  | 1, TPlus => Some BAdd
  | 1, TMinus => Some BSub
  | 2, TGreater => Some BGt
  | 2, TLess => Some BLt
  | 2, TGe => Some BGe
  | 2, TLe => Some BLe
  | 3, TEqEq => Some BEq
  | 3, TNotEq => Some BNe
  | 4, TAnd | 4, TAndAnd => Some BAnd
  | 5, TOr | 5, TOrOr => Some BOr
  | _, _ => None
  end%nat.

(** [parser.rs:238-254] *)
Definition unop_of (t : token) : option unary_op :=
  match t with TPlus => Some UPlus | TMinus => Some UMinus | TBang => Some UNot | _ => None end.

(** [parser.rs:397-407].  [to_lowercase] on identifier text, which is ASCII. *)
Definition type_of_name (s : str) : option type_name :=
  let l := map lower_ascii s in
  if str_eqb l (lit "integer") || str_eqb l (lit "int") then Some TyInteger
  else if str_eqb l (lit "float") || str_eqb l (lit "number") then Some TyFloat
  else if str_eqb l (lit "string") then Some TyString
  else if str_eqb l (lit "boolean") || str_eqb l (lit "bool") then Some TyBoolean
  else if str_eqb l (lit "array") then Some TyArray
  else if str_eqb l (lit "currency") then Some TyCurrency
  else if str_eqb l (lit "datetime") || str_eqb l (lit "date") then Some TyDateTime
  else if str_eqb l (lit "json") then Some TyJson
  else None.

(** [matches!(t, Token::X)] for a token [X] without payload. *)
Definition tk_is (t x : token) : bool :=
  match t, x with
  | TRBracket, TRBracket | TColon, TColon | TRBrace, TRBrace | TRParen, TRParen
  | TEllipsis, TEllipsis | TEof, TEof => true
  | _, _ => false
  end.

Definition true_call : expr := EFunctionCall (lit "__CONST_TRUE__") [].
Definition false_call : expr := EFunctionCall (lit "__CONST_FALSE__") [].
Definition ternary_call (c t e : expr) : expr := EFunctionCall (lit "__TERNARY__") [c; t; e].

(** The grammar below [parse_expr].  [rec] is [parse_expr] itself (every
    recursive use goes through it); [n] bounds the iterations of each loop. *)
Section Grammar.
  Variable rec : pstate -> pres expr.

  (** One argument: [parser.rs:302], [441], [475-480]. *)
  Definition p_arg (st : pstate) : pres expr :=
    if tk_is (look st) TEllipsis then
      let* _ ; st1 := bump st in let* e ; st2 := rec st1 in POk (ESpread e) st2
    else rec st.

  (** [parser.rs:301-311], [440-450], [474-489]: arguments up to and including ')'. *)
  Fixpoint p_args (n : nat) (msg : string) (st : pstate) : pres (list expr) :=
    match n with
    | O => OutOfFuel
    | S n =>
        let* arg ; st2 := p_arg st in
        match look st2 with
        | TComma =>
            let* _ ; st3 := bump st2 in
            let* rest ; st4 := p_args n msg st3 in POk (arg :: rest) st4
        | TRParen => let* _ ; st3 := bump st2 in POk [arg] st3
        | _ => err_here st2 msg
        end
    end.

  (** [parser.rs:297-311], [436-450], [470-489]: after '('. *)
  Definition p_args0 (n : nat) (msg : string) (st : pstate) : pres (list expr) :=
    if tk_is (look st) TRParen then let* _ ; st1 := bump st in POk [] st1
    else p_args n msg st.

  (** [parser.rs:325-335] *)
  Fixpoint p_items (n : nat) (st : pstate) : pres (list expr) :=
    match n with
    | O => OutOfFuel
    | S n =>
        let* item ; st2 := rec st in
        match look st2 with
        | TComma =>
            let* _ ; st3 := bump st2 in
            let* rest ; st4 := p_items n st3 in POk (item :: rest) st4
        | TRBracket => let* _ ; st3 := bump st2 in POk [item] st3
        | _ => err_here st2 "Expected ',' or ']' in array"
        end
    end.

  (** [parser.rs:347-357] *)
  Definition p_key (st : pstate) : pres str :=
    match look st with
    | TIdentifier s | TString s => let* _ ; st1 := bump st in POk s st1
    | _ => err_here st "Expected identifier or string key in object literal"
    end.

  (** [parser.rs:345-383] *)
  Fixpoint p_pairs (n : nat) (st : pstate) : pres (list (str * expr)) :=
    match n with
    | O => OutOfFuel
    | S n =>
        let* key ; st1 := p_key st in
        match look st1 with
        | TColon =>
            let* _ ; st2 := bump st1 in
            let* v ; st3 := rec st2 in
            match look st3 with
            | TComma =>
                let* _ ; st4 := bump st3 in
                if tk_is (look st4) TRBrace then
                  let* _ ; st5 := bump st4 in POk [(key, v)] st5
                else let* rest ; st5 := p_pairs n st4 in POk ((key, v) :: rest) st5
            | TRBrace => let* _ ; st4 := bump st3 in POk [(key, v)] st4
            | _ => err_here st3 "Expected ',' or '}' in object literal"
            end
        | _ => err_here st1 "Expected ':' after object key"
        end
    end.

  (** [parser.rs:258-388] *)
  Definition p_atom (n : nat) (st : pstate) : pres expr :=
    match look st with
    | TNumber x => let* _ ; st1 := bump st in POk (ENumber x) st1
    | TLParen =>
        let* _ ; st1 := bump st in
        let* e ; st2 := rec st1 in
        match look st2 with
        | TRParen => let* _ ; st3 := bump st2 in POk e st3
        | _ => err_here st2 "Expected ')'"
        end
    | TString s => let* _ ; st1 := bump st in POk (EStringLit s) st1
    | TNull => let* _ ; st1 := bump st in POk ENull st1
    | TColon =>
        let* _ ; st1 := bump st in
        match look st1 with
        | TIdentifier name => let* _ ; st2 := bump st1 in POk (EVariable name) st2
        | _ => err_here st1 "Expected variable name after ':'"
        end
    | TTrue => let* _ ; st1 := bump st in POk true_call st1
    | TFalse => let* _ ; st1 := bump st in POk false_call st1
    | TIdentifier name =>
        let* _ ; st1 := bump st in
        match look st1 with
        | TLParen =>
            let* _ ; st2 := bump st1 in
            let* args ; st3 := p_args0 n "Expected ',' or ')' in argument list" st2 in
            POk (EFunctionCall (map upper_ascii name) args) st3
        | _ => err_here st1 "Unexpected identifier (expected function call)"
        end
    | TLBracket =>
        let* _ ; st1 := bump st in
        if tk_is (look st1) TRBracket then let* _ ; st2 := bump st1 in POk (EArray []) st2
        else let* items ; st2 := p_items n st1 in POk (EArray items) st2
    | TLBrace =>
        let* _ ; st1 := bump st in
        if tk_is (look st1) TRBrace then let* _ ; st2 := bump st1 in POk (EObjectLiteral []) st2
        else let* pairs ; st2 := p_pairs n st1 in POk (EObjectLiteral pairs) st2
    | other => PErr (mkErr (lit ("Unexpected token: " ++ token_debug other)) (Some (look_pos st)))
    end.

  (** [parser.rs:420-458], after the '.': property, predicate or method. *)
  Definition p_dot (n : nat) (node : expr) (st1 : pstate) : pres expr :=
    match look st1 with
    | TIdentifier name =>
        let* _ ; st2 := bump st1 in
        match look st2 with
        | TQMark =>
            let* _ ; st3 := bump st2 in
            POk (EMethodCall node (map lower_ascii name) [] true) st3
        | TLParen =>
            let* _ ; st3 := bump st2 in
            let* args ; st4 := p_args0 n "Expected ',' or ')' in method args" st3 in
            POk (EMethodCall node (map lower_ascii name) args false) st4
        | _ => POk (EPropertyAccess node name) st2
        end
    | _ => err_here st1 "Expected property or method name after '.'"
    end.

  (** [parser.rs:459-497], after the [&.] *)
  Definition p_safe (n : nat) (node : expr) (st1 : pstate) : pres expr :=
    match look st1 with
    | TIdentifier name =>
        let* _ ; st2 := bump st1 in
        match look st2 with
        | TLParen =>
            let* _ ; st3 := bump st2 in
            let* args ; st4 := p_args0 n "Expected ',' or ')' in safe method args" st3 in
            POk (ESafeMethodCall node (map lower_ascii name) args) st4
        | _ => POk (ESafePropertyAccess node name) st2
        end
    | _ => err_here st1 "Expected property name after '&.'"
    end.

  (** [parser.rs:521-533]; [look st] is ':' at both call sites. *)
  Definition p_slice_end (node : expr) (start : option expr) (st : pstate) : pres expr :=
    let* _ ; st1 := bump st in
    let* stop ; st2 :=
      (if tk_is (look st1) TRBracket then POk None st1
       else let* e ; st2 := rec st1 in POk (Some e) st2) in
    match look st2 with
    | TRBracket => let* _ ; st3 := bump st2 in POk (ESlice node start stop) st3
    | _ => err_here st2 "Expected ']' to close slice"
    end.

  (** [parser.rs:498-534], after the '['. *)
  Definition p_index (node : expr) (st1 : pstate) : pres expr :=
    if tk_is (look st1) TRBracket then
      let* _ ; st2 := bump st1 in err_here st2 "Empty index '[]' not allowed"
    else if tk_is (look st1) TColon then p_slice_end node None st1
    else
      let* first ; st2 := rec st1 in
      match look st2 with
      | TColon => p_slice_end node (Some first) st2
      | TRBracket => let* _ ; st3 := bump st2 in POk (EIndex node first) st3
      | _ => err_here st2 "Expected ':' or ']' in indexing"
      end.

  (** [parser.rs:416-539]: the postfix loop, [node] already parsed. *)
  Fixpoint p_postfix (n : nat) (node : expr) (st : pstate) : pres expr :=
    match n with
    | O => OutOfFuel
    | S n =>
        match look st with
        | TDot =>
            let* _ ; st1 := bump st in
            let* node' ; st2 := p_dot n node st1 in p_postfix n node' st2
        | TSafeNavigation =>
            let* _ ; st1 := bump st in
            let* node' ; st2 := p_safe n node st1 in p_postfix n node' st2
        | TLBracket =>
            let* _ ; st1 := bump st in
            let* node' ; st2 := p_index node st1 in p_postfix n node' st2
        | _ => POk node st
        end
    end.

  (** [parser.rs:390-414], with [parse_postfix] = [p_atom] then [p_postfix] *)
  Definition p_cast (n : nat) (st : pstate) : pres expr :=
    let* a ; st0 := p_atom n st in
    let* node ; st1 := p_postfix n a st0 in
    match look st1 with
    | TDoubleColon =>
        let* _ ; st2 := bump st1 in
        match look st2 with
        | TIdentifier s =>
            let* _ ; st3 := bump st2 in
            match type_of_name s with
            | Some ty => POk (ETypeCast node ty) st3
            | None => PErr (err "Unknown cast type")
            end
        | _ => PErr (err "Expected type name after '::'")
        end
    | _ => POk node st1
    end.

  (** [parser.rs:237-256] parse_unary and [225-235] parse_power *)
  Fixpoint p_unary (n : nat) (st : pstate) : pres expr :=
    match n with
    | O => OutOfFuel
    | S n =>
        match unop_of (look st) with
        | Some op =>
            let* _ ; st1 := bump st in
            let* e ; st2 := p_unary n st1 in
            POk (EUnary op e) st2
        | None =>
            let* left ; st1 := p_cast n st in
            match look st1 with
            | TCaret =>
                let* _ ; st2 := bump st1 in
                let* right ; st3 := p_unary n st2 in
                POk (EBinary left BPow right) st3
            | _ => POk left st1
            end
        end
    end.

  (** The [loop] of each left-associative level, [sub] being the next
      tighter level. *)
  Fixpoint p_bin_loop (sub : pstate -> pres expr) (lvl : nat) (n : nat) (node : expr)
    (st : pstate) : pres expr :=
    match n with
    | O => OutOfFuel
    | S n =>
        match binop_at lvl (look st) with
        | Some op =>
            let* _ ; st1 := bump st in
            let* rhs ; st2 := sub st1 in
            p_bin_loop sub lvl n (EBinary node op rhs) st2
        | None => POk node st
        end
    end.

  (** [parser.rs:124-223]: [p_bin n (S l)] is the function of level [l];
      [p_bin n 0] is [parse_unary]. *)
  Fixpoint p_bin (n : nat) (k : nat) (st : pstate) : pres expr :=
    match k with
    | O => p_unary n st
    | S l =>
        let* node ; st1 := p_bin n l st in
        p_bin_loop (p_bin n l) l n node st1
    end.

  (** [parser.rs:103-122] *)
  Definition p_ternary (n : nat) (st : pstate) : pres expr :=
    let* c ; st1 := p_bin n n_levels st in
    match look st1 with
    | TQMark =>
        let* _ ; st2 := bump st1 in
        let* t ; st3 := rec st2 in
        match look st3 with
        | TColon =>
            let* _ ; st4 := bump st3 in
            let* e ; st5 := rec st4 in
            POk (ternary_call c t e) st5
        | _ => err_here st3 "Expected ':' in ternary"
        end
    | _ => POk c st1
    end.

  (** [parser.rs:78-101] *)
  Definition p_assignment (n : nat) (st : pstate) : pres expr :=
    if tk_is (look st) TColon && is_assign_ahead st then
      let* _ ; st1 := bump st in
      match look st1 with
      | TIdentifier v =>
          let* _ ; st2 := bump st1 in
          match look st2 with
          | TColonEquals =>
              let* _ ; st3 := bump st2 in
              let* e ; st4 := p_ternary n st3 in
              POk (EAssignment v e) st4
          | _ => err_here st2 "Invalid assignment syntax"
          end
      | _ => err_here st1 "Invalid assignment syntax"
      end
    else p_ternary n st.
End Grammar.

(** [parser.rs:74-76] parse_expr *)
Fixpoint p_expr (fuel : nat) (st : pstate) : pres expr :=
  match fuel with
  | O => OutOfFuel
  | S f => p_assignment (p_expr f) (S f) st
  end.

(** [parser.rs:57-63]: the statements after the first one. *)
Fixpoint p_stmts (fuel : nat) (st : pstate) : pres (list expr) :=
  match fuel with
  | O => OutOfFuel
  | S f =>
      match look st with
      | TSemicolon =>
          let* _ ; st1 := bump st in
          if tk_is (look st1) TEof then POk [] st1
          else
            let* e ; st2 := p_expr f st1 in
            let* rest ; st3 := p_stmts f st2 in POk (e :: rest) st3
      | _ => POk [] st
      end
  end.

(** [parser.rs:50-72] *)
Definition p_program (fuel : nat) (st : pstate) : pres expr :=
  let* e ; st1 := p_expr fuel st in
  let* es ; st2 := p_stmts fuel st1 in
  match es with
  | [] => POk e st2
  | _ => POk (ESequence (e :: es)) st2
  end.

(** [parser.rs:14-19]: [Parser::new]; a lexical error in the first token is
    replaced by [Eof] with [last_start = 0]. *)
Definition parser_new (ts : tstream) : pres unit :=
  match ts with
  | TSCons t p r => POk tt (mkP t p r)
  | TSEnd p => POk tt (mkP TEof p (TSEnd p))
  | TSErr _ => POk tt (mkP TEof 0 (TSEnd 0))
  | TSPanic w => PPanic w
  end.

Fixpoint ts_len (ts : tstream) : nat :=
  match ts with TSCons _ _ r => S (ts_len r) | _ => O end.

(** Enough for any stream of that length ([Parser_proofs.p_program_total]). *)
Definition parse_fuel (ts : tstream) : nat := ts_len ts + 2.

(** [lib.rs:42-48] (before parsing): which text is handed to the parser. *)
Definition strip_eq (input : str) : str :=
  match trim_start input with
  | c :: rest => if N.eqb c 61 then rest else input
  | [] => input
  end.

Inductive outcome (A : Type) : Type :=
| Done (r : res A)
| NoFuel.
Arguments Done {A} r.
Arguments NoFuel {A}.

Definition parse_stream (ts : tstream) : outcome expr :=
  match parser_new ts with
  | POk _ st =>
      match p_program (parse_fuel ts) st with
      | POk e _ => Done (Ok e)
      | PErr e => Done (Err e)
      | PPanic w => Done (Panic w)
      | OutOfFuel => NoFuel
      end
  | PErr e => Done (Err e)
  | PPanic w => Done (Panic w)
  | OutOfFuel => NoFuel
  end.

(** [lib.rs:42-48] *)
Definition parse_out (input : str) : outcome expr :=
  parse_stream (tokenize (lexer_new (strip_eq input))).

(** The public function [skillet::parse].  [NoFuel] never occurs
    ([Parser_proofs.parse_out_total]). *)
Definition parse (input : str) : res expr :=
  match parse_out input with
  | Done r => r
  | NoFuel => Panic "fuel"
  end.
