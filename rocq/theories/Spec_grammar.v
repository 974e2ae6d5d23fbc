(** Specification of the grammar of expressions, as the documentation gives
    it: which token sequences denote which trees.  Precedence is expressed by
    levels, associativity by the shape of the rules. *)
From Coq Require Import String List ZArith NArith Bool.
From Verif Require Import Base F64 Utf8 Syntax Spec_syntax.
Import ListNotations.

(** binary operators except '^', with their precedence: 1 binds tightest *)
Definition infix_operators : list (token * binary_op * nat) :=
  [(TStar, BMul, 1); (TSlash, BDiv, 1); (TPercent, BMod, 1);
   (TPlus, BAdd, 2); (TMinus, BSub, 2);
   (TGreater, BGt, 3); (TLess, BLt, 3); (TGe, BGe, 3); (TLe, BLe, 3);
   (TEqEq, BEq, 4); (TNotEq, BNe, 4);
   (TAndAnd, BAnd, 5); (TAnd, BAnd, 5);
   (TOrOr, BOr, 6); (TOr, BOr, 6)]%nat.
Definition prefix_operators : list (token * unary_op) := [(TPlus, UPlus); (TMinus, UMinus); (TBang, UNot)].
Definition type_names : list (string * type_name) :=
  [("integer", TyInteger); ("int", TyInteger); ("float", TyFloat); ("number", TyFloat);
   ("string", TyString); ("boolean", TyBoolean); ("bool", TyBoolean); ("array", TyArray);
   ("currency", TyCurrency); ("datetime", TyDateTime); ("date", TyDateTime); ("json", TyJson)]%string.

(** from the tightest to the loosest; [Binary 0] holds prefix operators and '^' *)
Inductive level := Atom | Postfix | Cast | Binary (k : nat) | Ternary | Whole.

(** [.name] at the end of a token sequence: a '?' after it would make it a predicate *)
Definition ends_in_property (ts : list token) : bool :=
  match rev ts with TIdentifier _ :: TDot :: _ => true | _ => false end.
Definition starts_with_colon (ts : list token) : bool := match ts with TColon :: _ => true | _ => false end.

(** an object key is written as a name or as a string *)
Inductive reads_key : token -> str -> Prop :=
| reads_name_key : forall s, reads_key (TIdentifier s) s
| reads_string_key : forall s, reads_key (TString s) s.

Inductive reads : level -> list token -> expr -> Prop :=
(* atoms *)
| reads_number : forall n, reads Atom [TNumber n] (ENumber n)
| reads_string : forall s, reads Atom [TString s] (EStringLit s)
| reads_null : reads Atom [TNull] ENull
| reads_true : reads Atom [TTrue] (EFunctionCall (lit "__CONST_TRUE__") [])
| reads_false : reads Atom [TFalse] (EFunctionCall (lit "__CONST_FALSE__") [])
| reads_variable : forall x, reads Atom [TColon; TIdentifier x] (EVariable x)
| reads_parens : forall ts e, reads Whole ts e -> reads Atom (TLParen :: ts ++ [TRParen]) e
| reads_call : forall f ts args, reads_args ts args ->
    reads Atom (TIdentifier f :: TLParen :: ts ++ [TRParen]) (EFunctionCall (map upper_ascii f) args)
| reads_empty_array : reads Atom [TLBracket; TRBracket] (EArray [])
| reads_array : forall ts es, reads_items ts es -> reads Atom (TLBracket :: ts ++ [TRBracket]) (EArray es)
| reads_empty_object : reads Atom [TLBrace; TRBrace] (EObjectLiteral [])
| reads_object : forall ts kvs, reads_pairs ts kvs -> reads Atom (TLBrace :: ts ++ [TRBrace]) (EObjectLiteral kvs)
(* postfix: left-associative *)
| reads_property : forall ts e p, reads Postfix ts e ->
    reads Postfix (ts ++ [TDot; TIdentifier p]) (EPropertyAccess e p)
| reads_predicate : forall ts e p, reads Postfix ts e ->
    reads Postfix (ts ++ [TDot; TIdentifier p; TQMark]) (EMethodCall e (map lower_ascii p) [] true)
| reads_method : forall ts e m us args, reads Postfix ts e -> reads_args us args ->
    reads Postfix (ts ++ TDot :: TIdentifier m :: TLParen :: us ++ [TRParen])
      (EMethodCall e (map lower_ascii m) args false)
| reads_safe_property : forall ts e p, reads Postfix ts e ->
    reads Postfix (ts ++ [TSafeNavigation; TIdentifier p]) (ESafePropertyAccess e p)
| reads_safe_method : forall ts e m us args, reads Postfix ts e -> reads_args us args ->
    reads Postfix (ts ++ TSafeNavigation :: TIdentifier m :: TLParen :: us ++ [TRParen])
      (ESafeMethodCall e (map lower_ascii m) args)
| reads_index : forall ts e us i, reads Postfix ts e -> reads Whole us i -> starts_with_colon us = false ->
    reads Postfix (ts ++ TLBracket :: us ++ [TRBracket]) (EIndex e i)
| reads_slice : forall ts e us a vs b, reads Postfix ts e -> reads_bound us a -> reads_bound vs b ->
    starts_with_colon us = false ->
    reads Postfix (ts ++ TLBracket :: us ++ TColon :: vs ++ [TRBracket]) (ESlice e a b)
| reads_cast : forall ts e s k ty, reads Postfix ts e -> In (k, ty) type_names -> same_word s (lit k) ->
    reads Cast (ts ++ [TDoubleColon; TIdentifier s]) (ETypeCast e ty)
(* '^' is right-associative and binds tighter than a prefix operator on its left *)
| reads_prefix : forall t op ts e, In (t, op) prefix_operators -> reads (Binary 0) ts e ->
    reads (Binary 0) (t :: ts) (EUnary op e)
| reads_power : forall ts a us b, reads Cast ts a -> reads (Binary 0) us b ->
    reads (Binary 0) (ts ++ TCaret :: us) (EBinary a BPow b)
(* the other binary operators are left-associative *)
| reads_infix : forall t op k ts a us b, In (t, op, S k) infix_operators -> reads (Binary (S k)) ts a -> reads (Binary k) us b ->
    reads (Binary (S k)) (ts ++ t :: us) (EBinary a op b)
| reads_ternary : forall ts c us a vs b, reads (Binary 6) ts c -> ends_in_property ts = false ->
    reads Whole us a -> reads Whole vs b ->
    reads Ternary (ts ++ TQMark :: us ++ TColon :: vs) (EFunctionCall (lit "__TERNARY__") [c; a; b])
| reads_assignment : forall x ts e, reads Ternary ts e ->
    reads Whole (TColon :: TIdentifier x :: TColonEquals :: ts) (EAssignment x e)
(* a tighter phrase is also a looser one *)
| reads_atom : forall ts e, reads Atom ts e -> reads Postfix ts e
| reads_postfix : forall ts e, reads Postfix ts e -> reads Cast ts e
| reads_casted : forall ts e, reads Cast ts e -> reads (Binary 0) ts e
| reads_binary : forall k ts e, reads (Binary k) ts e -> reads (Binary (S k)) ts e
| reads_condition : forall ts e, reads (Binary 6) ts e -> reads Ternary ts e
| reads_whole : forall ts e, reads Ternary ts e -> reads Whole ts e
(* arguments, possibly none; '...' spreads *)
with reads_args : list token -> list expr -> Prop :=
| reads_no_args : reads_args [] []
| reads_some_args : forall ts es, reads_args1 ts es -> reads_args ts es
with reads_args1 : list token -> list expr -> Prop :=
| reads_last_arg : forall ts e, reads_arg ts e -> reads_args1 ts [e]
| reads_next_arg : forall ts e us es, reads_arg ts e -> reads_args1 us es -> reads_args1 (ts ++ TComma :: us) (e :: es)
with reads_arg : list token -> expr -> Prop :=
| reads_plain_arg : forall ts e, reads Whole ts e -> reads_arg ts e
| reads_spread : forall ts e, reads Whole ts e -> reads_arg (TEllipsis :: ts) (ESpread e)
(* array elements *)
with reads_items : list token -> list expr -> Prop :=
| reads_last_item : forall ts e, reads Whole ts e -> reads_items ts [e]
| reads_next_item : forall ts e us es, reads Whole ts e -> reads_items us es -> reads_items (ts ++ TComma :: us) (e :: es)
(* object entries; a comma may end the list *)
with reads_pairs : list token -> list (str * expr) -> Prop :=
| reads_last_pair : forall t k ts e, reads_key t k -> reads Whole ts e -> reads_pairs (t :: TColon :: ts) [(k, e)]
| reads_last_comma : forall t k ts e, reads_key t k -> reads Whole ts e -> reads_pairs (t :: TColon :: ts ++ [TComma]) [(k, e)]
| reads_next_pair : forall t k ts e us kvs, reads_key t k -> reads Whole ts e -> reads_pairs us kvs ->
    reads_pairs (t :: TColon :: ts ++ TComma :: us) ((k, e) :: kvs)
(* either bound of a slice may be missing *)
with reads_bound : list token -> option expr -> Prop :=
| reads_no_bound : reads_bound [] None
| reads_some_bound : forall ts e, reads Whole ts e -> reads_bound ts (Some e).

(** what comes after the first statement: further statements, each after a
    ';', and possibly a last ';' *)
Inductive reads_more : list token -> list expr -> Prop :=
| reads_end : reads_more [] []
| reads_final_semicolon : reads_more [TSemicolon] []
| reads_statement : forall ts e us es, reads Whole ts e -> reads_more us es ->
    reads_more (TSemicolon :: ts ++ us) (e :: es).
Inductive reads_program : list token -> expr -> Prop :=
| reads_one : forall ts e us, reads Whole ts e -> reads_more us [] -> reads_program (ts ++ us) e
| reads_many : forall ts e us es, reads Whole ts e -> reads_more us es -> es <> [] ->
    reads_program (ts ++ us) (ESequence (e :: es)).

(** ** Writing a tree down *)

(** trees that have a written form *)
Inductive expressible : expr -> Prop :=
| ok_number : forall n s, number s n -> expressible (ENumber n)
| ok_string : forall s, valid_str s -> expressible (EStringLit s)
| ok_null : expressible ENull
| ok_unary : forall op a, expressible a -> expressible (EUnary op a)
| ok_binary : forall a op b, expressible a -> expressible b -> expressible (EBinary a op b)
| ok_variable : forall x, name x -> expressible (EVariable x)
| ok_property : forall a p, expressible a -> name p -> expressible (EPropertyAccess a p)
| ok_safe_property : forall a p, expressible a -> name p -> expressible (ESafePropertyAccess a p)
| ok_safe_method : forall a m args, expressible a -> name m -> map lower_ascii m = m -> Forall argument args ->
    expressible (ESafeMethodCall a m args)
| ok_call : forall f args, name f -> map upper_ascii f = f -> Forall argument args -> expressible (EFunctionCall f args)
| ok_array : forall es, Forall expressible es -> expressible (EArray es)
| ok_object : forall kvs, Forall (fun kv => valid_str (fst kv)) kvs -> Forall expressible (map snd kvs) -> expressible (EObjectLiteral kvs)
| ok_method : forall a m args p, expressible a -> name m -> map lower_ascii m = m -> Forall argument args ->
    (p = true -> args = []) -> expressible (EMethodCall a m args p)
| ok_index : forall a i, expressible a -> expressible i -> expressible (EIndex a i)
| ok_slice : forall a s t, expressible a -> (forall b, s = Some b -> expressible b) -> (forall b, t = Some b -> expressible b) ->
    expressible (ESlice a s t)
| ok_cast : forall a ty, expressible a -> expressible (ETypeCast a ty)
| ok_assignment : forall x a, name x -> expressible a -> expressible (EAssignment x a)
with argument : expr -> Prop :=
| ok_plain : forall a, expressible a -> argument a
| ok_spread : forall a, expressible a -> argument (ESpread a).

Definition rank (L : level) : nat :=
  match L with Atom => 0 | Postfix => 1 | Cast => 2 | Binary k => 3 + k | Ternary => 10 | Whole => 11 end.
Definition parens (ts : list token) : list token := TLParen :: ts ++ [TRParen].
(** parentheses only if the phrase is looser than its place allows *)
Definition fit (L : level) (p : level * list token) : list token :=
  if Nat.leb (rank (fst p)) (rank L) then snd p else parens (snd p).
Fixpoint separate (sep : token) (l : list (list token)) : list token :=
  match l with [] => [] | [ts] => ts | ts :: r => ts ++ sep :: separate sep r end.
Definition prefix_token (op : unary_op) : token := match op with UPlus => TPlus | UMinus => TMinus | UNot => TBang end.
Definition infix_token (op : binary_op) : token * nat :=
  match op with
  | BMul => (TStar, 1) | BDiv => (TSlash, 1) | BMod => (TPercent, 1)
  | BAdd => (TPlus, 2) | BSub => (TMinus, 2)
  | BGt => (TGreater, 3) | BLt => (TLess, 3) | BGe => (TGe, 3) | BLe => (TLe, 3)
  | BEq => (TEqEq, 4) | BNe => (TNotEq, 4) | BAnd => (TAndAnd, 5) | BOr => (TOrOr, 6)
  | BPow => (TCaret, 0)
  end.
Definition type_word (ty : type_name) : str :=
  lit match ty with
      | TyInteger => "Integer" | TyFloat => "Float" | TyString => "String" | TyBoolean => "Boolean"
      | TyArray => "Array" | TyCurrency => "Currency" | TyDateTime => "DateTime" | TyJson => "Json"
      end.
(** a condition that ends in a property needs parentheses before '?' *)
Definition condition_tokens (ts : list token) : list token := if ends_in_property ts then parens ts else ts.
(** an index that starts with a variable needs parentheses *)
Definition index_tokens (ts : list token) : list token := if starts_with_colon ts then parens ts else ts.
Definition call_tokens (f : str) (args : list (level * list token)) : level * list token :=
  match args with
  | [] => if str_eqb f (lit "__CONST_TRUE__") then (Atom, [TTrue])
          else if str_eqb f (lit "__CONST_FALSE__") then (Atom, [TFalse])
          else (Atom, [TIdentifier f; TLParen; TRParen])
  | _ => (Atom, TIdentifier f :: TLParen :: separate TComma (map snd args) ++ [TRParen])
  end.
Definition ternary_tokens (c a b : level * list token) : level * list token :=
  (Ternary, condition_tokens (fit (Binary 6) c) ++ TQMark :: snd a ++ TColon :: snd b).
Definition is_spread (e : expr) : bool := match e with ESpread _ => true | _ => false end.

(** the tokens of a tree, with its level *)
Fixpoint print (e : expr) : level * list token :=
  match e with
  | ENumber n => (Atom, [TNumber n])
  | EStringLit s => (Atom, [TString s])
  | ENull => (Atom, [TNull])
  | EUnary op a => (Binary 0, prefix_token op :: fit (Binary 0) (print a))
  | EBinary a op b =>
      match infix_token op with
      | (t, S k) => (Binary (S k), fit (Binary (S k)) (print a) ++ t :: fit (Binary k) (print b))
      | (t, O) => (Binary 0, fit Cast (print a) ++ t :: fit (Binary 0) (print b))
      end
  | EVariable x => (Atom, [TColon; TIdentifier x])
  | EPropertyAccess a p => (Postfix, fit Postfix (print a) ++ [TDot; TIdentifier p])
  | ESafePropertyAccess a p => (Postfix, fit Postfix (print a) ++ [TSafeNavigation; TIdentifier p])
  | ESafeMethodCall a m args =>
      (Postfix, fit Postfix (print a) ++ TSafeNavigation :: TIdentifier m :: TLParen ::
                separate TComma (map snd (map print args)) ++ [TRParen])
  | EFunctionCall f args =>
      if str_eqb f (lit "__TERNARY__") && negb (existsb is_spread args) then
        match map print args with
        | [c; a; b] => ternary_tokens c a b
        | l => call_tokens f l
        end
      else call_tokens f (map print args)
  | ESpread a => (Whole, TEllipsis :: snd (print a))
  | EArray es => (Atom, TLBracket :: separate TComma (map snd (map print es)) ++ [TRBracket])
  | EObjectLiteral kvs =>
      (Atom, TLBrace :: separate TComma (map (fun kv => TString (fst kv) :: TColon :: snd (print (snd kv))) kvs) ++ [TRBrace])
  | EMethodCall a m args true => (Postfix, fit Postfix (print a) ++ [TDot; TIdentifier m; TQMark])
  | EMethodCall a m args false =>
      (Postfix, fit Postfix (print a) ++ TDot :: TIdentifier m :: TLParen
                :: separate TComma (map snd (map print args)) ++ [TRParen])
  | EIndex a i => (Postfix, fit Postfix (print a) ++ TLBracket :: index_tokens (snd (print i)) ++ [TRBracket])
  | ESlice a s t =>
      (Postfix, fit Postfix (print a)
                ++ TLBracket :: match s with Some b => index_tokens (snd (print b)) | None => [] end
                ++ TColon :: match t with Some b => snd (print b) | None => [] end ++ [TRBracket])
  | ETypeCast a ty => (Cast, fit Postfix (print a) ++ [TDoubleColon; TIdentifier (type_word ty)])
  | EAssignment x a => (Whole, TColon :: TIdentifier x :: TColonEquals :: fit Ternary (print a))
  | ESequence es => (Whole, separate TSemicolon (map snd (map print es)))
  end.

(** a program: an expression, or several separated by ';' *)
Definition program (e : expr) : Prop :=
  expressible e \/ exists a b es, e = ESequence (a :: b :: es) /\ Forall expressible (a :: b :: es).
