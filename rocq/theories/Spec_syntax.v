(** Specification vocabulary for the surface syntax: how tokens are written,
    independently of how the lexer reads them. *)
From Coq Require Import String List ZArith NArith Bool.
From Verif Require Import Base F64 Utf8 Syntax Spec_numbers.
Import ListNotations.
Local Open Scope N_scope.

(** the four characters allowed in gaps: space, tab, newline, carriage return *)
Definition blank (c : N) : Prop := In c [32; 9; 10; 13].

(** fixed spellings *)
Definition symbols : list (token * string) :=
  [(TPlus, "+"); (TMinus, "-"); (TStar, "*"); (TSlash, "/"); (TPercent, "%"); (TCaret, "^");
   (TBang, "!"); (TDot, "."); (TSafeNavigation, "&."); (TEllipsis, "..."); (TLParen, "(");
   (TRParen, ")"); (TComma, ","); (TColon, ":"); (TDoubleColon, "::"); (TLBracket, "[");
   (TRBracket, "]"); (TLBrace, "{"); (TRBrace, "}"); (TGreater, ">"); (TLess, "<"); (TGe, ">=");
   (TLe, "<="); (TEqEq, "=="); (TEqEq, "="); (TNotEq, "!="); (TAndAnd, "&&"); (TOrOr, "||");
   (TQMark, "?"); (TSemicolon, ";"); (TColonEquals, ":=")]%string.

Definition letter (c : N) : bool := (65 <=? c) && (c <=? 90) || (97 <=? c) && (c <=? 122) || (c =? 95).
Definition word_char (c : N) : bool := letter c || is_digit c.
(** a word: a letter or '_', then letters, digits and '_' *)
Definition word (s : str) : Prop :=
  exists c r, s = c :: r /\ letter c = true /\ forallb word_char r = true.
Definition same_word (a b : str) : Prop := map lower_ascii a = map lower_ascii b.
Definition keyword (s : str) : Prop :=
  same_word s (lit "true") \/ same_word s (lit "false") \/ same_word s (lit "null").
(** words that can name something *)
Definition name (s : str) : Prop := word s /\ ~ keyword s.

(** the value of a row of decimal digits *)
Definition digits_value (ds : str) : N := fold_left (fun a d => a * 10 + (d - 48)) ds 0.
Definition digits (ds : str) : Prop := ds <> [] /\ forallb is_digit ds = true.
(** [123], [12.5] and [.5] stand for the double nearest to the decimal value *)
Inductive number : str -> f64 -> Prop :=
| whole_number : forall ds x, digits ds -> denotes false (digits_value ds) 0 x -> number ds x
| point_number : forall ds fs x, forallb is_digit ds = true -> digits fs ->
    denotes false (digits_value (ds ++ fs)) (- Z.of_nat (length fs)) x -> number (ds ++ lit "." ++ fs) x.

(** what is between the quotes: a character standing for itself, or one after a backslash *)
Inductive quoted (q : N) : str -> str -> Prop :=
| quoted_end : quoted q [] []
| quoted_char : forall c text value, is_scalar c = true -> c <> q -> c <> 92 ->
    quoted q text value -> quoted q (c :: text) (c :: value)
| quoted_newline : forall text value, quoted q text value -> quoted q (92 :: 110 :: text) (10 :: value)
| quoted_tab : forall text value, quoted q text value -> quoted q (92 :: 116 :: text) (9 :: value)
| quoted_other : forall c text value, is_scalar c = true -> c <> 110 -> c <> 116 ->
    quoted q text value -> quoted q (92 :: c :: text) (c :: value).

Inductive spelled : token -> str -> Prop :=
| spelled_symbol : forall t s, In (t, s) symbols -> spelled t (lit s)
| spelled_name : forall s, name s -> spelled (TIdentifier s) s
| spelled_true : forall s, same_word s (lit "true") -> spelled TTrue s
| spelled_false : forall s, same_word s (lit "false") -> spelled TFalse s
| spelled_null : forall s, same_word s (lit "null") -> spelled TNull s
| spelled_number : forall s n, number s n -> spelled (TNumber n) s
| spelled_string : forall q text value, q = 34 \/ q = 39 -> quoted q text value ->
    spelled (TString value) (q :: text ++ [q]).

(** could the characters [a] and [b], written next to each other, belong to
    one token? *)
Definition op_char (c : N) : bool := existsb (N.eqb c) (lit "!=<>&|:.").
Definition glues (a b : N) : bool :=
  word_char a && word_char b || op_char a && op_char b
  || is_digit a && (b =? 46) || (a =? 46) && is_digit b.
Definition separated (s rest : str) : Prop := rest = [] \/ glues (last s 0) (hd 0 rest) = false.

(** [written ts src]: [src] is made of a spelling of each of the tokens [ts],
    in order, with any gaps that keep them apart *)
Inductive written : list token -> str -> Prop :=
| written_end : forall gap, Forall blank gap -> written [] gap
| written_token : forall gap t s ts rest, Forall blank gap -> spelled t s -> written ts rest ->
    separated s rest -> written (t :: ts) (gap ++ s ++ rest).

(** the source does not begin, after white space, with '=' *)
Definition no_leading_eq (src : str) : Prop := hd 0 (trim_start src) <> 61.

(** tokens that can follow a complete expression without continuing it *)
Definition cannot_continue (t : token) : bool :=
  match t with
  | TNumber _ | TIdentifier _ | TString _ | TTrue | TFalse | TNull | TBang | TEllipsis
  | TRParen | TComma | TColon | TRBracket | TLBrace | TRBrace => true
  | _ => false
  end.

(** the tree with every variable, property and key name passed through [f] *)
Fixpoint rename (f : str -> str) (e : expr) : expr :=
  match e with
  | ENumber _ | EStringLit _ | ENull => e
  | EUnary op a => EUnary op (rename f a)
  | EBinary a op b => EBinary (rename f a) op (rename f b)
  | EVariable x => EVariable (f x)
  | EPropertyAccess a p => EPropertyAccess (rename f a) (f p)
  | ESafePropertyAccess a p => ESafePropertyAccess (rename f a) (f p)
  | ESafeMethodCall a m args => ESafeMethodCall (rename f a) m (map (rename f) args)
  | EFunctionCall m args => EFunctionCall m (map (rename f) args)
  | ESpread a => ESpread (rename f a)
  | EArray xs => EArray (map (rename f) xs)
  | EObjectLiteral kvs => EObjectLiteral (map (fun kv => (f (fst kv), rename f (snd kv))) kvs)
  | EMethodCall a m args p => EMethodCall (rename f a) m (map (rename f) args) p
  | EIndex a i => EIndex (rename f a) (rename f i)
  | ESlice a s t => ESlice (rename f a) (option_map (rename f) s) (option_map (rename f) t)
  | ETypeCast a ty => ETypeCast (rename f a) ty
  | EAssignment x a => EAssignment (f x) (rename f a)
  | ESequence es => ESequence (map (rename f) es)
  end.
(** the variable, property and key names of a tree, from left to right *)
Fixpoint names_of (e : expr) : list str :=
  match e with
  | ENumber _ | EStringLit _ | ENull => []
  | EUnary _ a | ESpread a | ETypeCast a _ => names_of a
  | EBinary a _ b | EIndex a b => names_of a ++ names_of b
  | EVariable x => [x]
  | EPropertyAccess a p | ESafePropertyAccess a p => names_of a ++ [p]
  | ESafeMethodCall a _ args | EMethodCall a _ args _ => names_of a ++ flat_map names_of args
  | EFunctionCall _ args => flat_map names_of args
  | EArray xs => flat_map names_of xs
  | EObjectLiteral kvs => flat_map (fun kv => fst kv :: names_of (snd kv)) kvs
  | ESlice a s t => names_of a ++ match s with Some b => names_of b | None => [] end
                    ++ match t with Some b => names_of b | None => [] end
  | EAssignment x a => x :: names_of a
  | ESequence es => flat_map names_of es
  end.
(** [t'] is [t], possibly with other letter case *)
Definition same_but_case (t t' : token) : Prop :=
  t = t' \/ exists a b, t = TIdentifier a /\ t' = TIdentifier b /\ same_word a b.

(** the usual way of quoting a text: backslash, the quote character, newline
    and tab are escaped *)
Definition escape (q : N) (s : str) : str :=
  flat_map (fun c => if c =? 92 then [92; 92] else if c =? q then [92; q]
                     else if c =? 10 then [92; 110] else if c =? 9 then [92; 116] else [c]) s.
