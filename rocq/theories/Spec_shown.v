(** Vocabulary for the text the command [sk] prints for a result. *)
From Coq Require Import Floats.SpecFloat QArith.
From Coq Require Import String List ZArith NArith Bool.
From Verif Require Import Base F64 Syntax Ext Spec Spec_syntax Spec_numbers Spec_text.
Import ListNotations.
Local Open Scope N_scope.

(** ** Numbers: the shortest digits; a point with digits on both sides, or a power of ten for numbers below 1/10000 or from 10^16 *)
Definition minus (negative : bool) : str := if negative then lit "-" else [].
Definition plain_range (q : Q) : Prop := (1 # 10000 <= q)%Q /\ (q < inject_Z (10 ^ 16))%Q.
Inductive number_shown : f64 -> str -> Prop :=
| nan_shown : number_shown S754_nan (lit "NaN")
| infinity_shown : forall b, number_shown (S754_infinity b) (minus b ++ lit "inf")
| zero_shown : forall b, number_shown (S754_zero b) (minus b ++ lit "0.0")
| plain_shown : forall x d k a b, shortest_decimal (sign_bit x) d k x -> plain_range (decimal d k) ->
    digits a -> digits b -> (decimal (digits_value (a ++ b)) (- Z.of_nat (length b)) == decimal d k)%Q -> (a = lit "0" \/ hd 48 a <> 48) -> (b = lit "0" \/ last b 48 <> 48) ->
    number_shown x (minus (sign_bit x) ++ a ++ lit "." ++ b)
| power_shown : forall x d k c b z power, shortest_decimal (sign_bit x) d k x -> ~ plain_range (decimal d k) ->
    digits [c] -> c <> 48 -> all_digits b -> (b = [] \/ last b 48 <> 48) -> (decimal (digits_value (c :: b)) (z - Z.of_nat (length b)) == decimal d k)%Q -> integer_written z power ->
    number_shown x (minus (sign_bit x) ++ [c] ++ (match b with [] => [] | _ => lit "." ++ b end) ++ lit "e" ++ power).

(** ** Texts, in double quotes *)
Definition hex_figures : str := lit "0123456789abcdef".
(** the number written in hexadecimal *)
Inductive hexadecimal : str -> N -> Prop :=
| one_figure : forall i c, nth_error hex_figures (N.to_nat i) = Some c -> hexadecimal [c] i
| more_figures : forall t n i c, hexadecimal t n -> nth_error hex_figures (N.to_nat i) = Some c -> hexadecimal (t ++ [c]) (n * 16 + i).
Definition escapes : list (N * string) := [(34, "\"""); (92, "\\"); (9, "\t"); (10, "\n"); (13, "\r"); (0, "\0")]%string.
Section Shown.
  Context {X : Ext}.
  (** characters that can be seen; Unicode says which, outside ASCII *)
  Definition seen (c : N) : Prop := (32 <= c < 127) \/ (128 <= c /\ x_printable c = true).
  Inductive char_shown : N -> str -> Prop :=
  | escape_shown : forall c t, In (c, t) escapes -> char_shown c (lit t)
  | itself_shown : forall c, ~ In c (map fst escapes) -> seen c -> char_shown c [c]
  | code_shown : forall c t, ~ In c (map fst escapes) -> ~ seen c -> hexadecimal t c -> hd 48 t <> 48 -> char_shown c (lit "\u{" ++ t ++ lit "}").
  Definition text_shown (s t : str) : Prop := exists ts, Forall2 char_shown s ts /\ t = lit """" ++ concat ts ++ lit """".

  (** ** Values *)
  Inductive shown : value -> str -> Prop :=
  | shown_number : forall x t, number_shown x t -> shown (VNumber x) (lit "Number(" ++ t ++ lit ")")
  | shown_currency : forall x t, number_shown x t -> shown (VCurrency x) (lit "Currency(" ++ t ++ lit ")")
  | shown_truth : forall b, shown (VBoolean b) (lit (if b then "Boolean(true)" else "Boolean(false)"))
  | shown_null : shown VNull (lit "Null")
  | shown_date : forall z t, integer_written z t -> shown (VDateTime z) (lit "DateTime(" ++ t ++ lit ")")
  | shown_text : forall s t, text_shown s t -> shown (VString s) (lit "String(" ++ t ++ lit ")")
  | shown_json : forall s t, text_shown s t -> shown (VJson s) (lit "Json(" ++ t ++ lit ")")
  | shown_array : forall vs ts, Forall2 shown vs ts -> shown (VArray vs) (lit "Array([" ++ join (lit ", ") ts ++ lit "])").
End Shown.
