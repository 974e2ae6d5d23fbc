(** Vocabulary for JSON documents. *)
From Coq Require Import String List ZArith NArith Bool Sorted Permutation.
From Verif Require Import Base F64 Syntax Ext Json Core Evaluator Spec Spec_syntax Spec_text.
Import ListNotations.
Local Open Scope N_scope.

(** how many arrays and objects surround the innermost value *)
Fixpoint nesting (j : json) : nat :=
  match j with
  | JArr xs => S (list_max (map nesting xs))
  | JObj kvs => S (list_max (map (fun kv => nesting (snd kv)) kvs))
  | _ => 0
  end.
(** [short_text s]: a sign, digits, a point and digits; without the point the
    digits are below 2^53, and at most 22 of them follow the point *)
Definition short_text (s : str) : Prop :=
  exists sg neg a b, (sg = [] /\ neg = false \/ sg = lit "-" /\ neg = true) /\ decimal_text_of (digits_value a) a /\ digits b /\
    digits_value (a ++ b) < 2 ^ 53 /\ (length b <= 22)%nat /\ s = sg ++ a ++ lit "." ++ b.
(** keys in strictly increasing order, as in every parsed or built object *)
Definition in_key_order (ks : list str) : Prop := StronglySorted (fun a b => str_cmp a b = Lt) ks.

Section Documents.
  Context {X : Ext}.
  (** numbers that JSON text carries without loss *)
  Inductive plain_number : jnum -> Prop :=
  | plain_natural : forall n, n < 2 ^ 64 -> plain_number (JPos n)
  | plain_negative : forall z, (- 2 ^ 63 <= z < 0)%Z -> plain_number (JNeg z)
  | plain_float : forall x, is_finite x = true -> representable x -> short_text (json_print (JNum (JFlt x))) -> plain_number (JFlt x).
  Inductive document : json -> Prop :=
  | null_document : document JNull
  | bool_document : forall b, document (JBool b)
  | number_document : forall n, plain_number n -> document (JNum n)
  | text_document : forall s, document (JStr s)
  | array_document : forall xs, Forall document xs -> document (JArr xs)
  | object_document : forall kvs, in_key_order (map fst kvs) -> Forall (fun kv => document (snd kv)) kvs -> document (JObj kvs).

  (** ** Layouts *)

  (** a text between quotation marks: each of its characters as itself, by a short
      escape or by the four hexadecimal digits of its UTF-16 units *)
  Definition hex_figure (c v : N) : Prop := 48 <= c <= 57 /\ v = c - 48 \/ 65 <= c <= 70 /\ v = c - 55 \/ 97 <= c <= 102 /\ v = c - 87.
  Definition hex_unit (t : str) (u : N) : Prop :=
    exists a b c d va vb vc vd, t = [a; b; c; d] /\ hex_figure a va /\ hex_figure b vb /\ hex_figure c vc /\ hex_figure d vd /\ u = 4096 * va + 256 * vb + 16 * vc + vd.
  Inductive spelled_char (c : N) : str -> Prop :=
  | as_itself : 32 <= c -> c <> 34 -> c <> 92 -> spelled_char c [c]
  | by_letter : forall e, In (c, e) [(34, 34); (92, 92); (47, 47); (8, 98); (12, 102); (10, 110); (13, 114); (9, 116)] -> spelled_char c [92; e]
  | by_unit : forall t, hex_unit t c -> ~ (55296 <= c <= 57343) -> spelled_char c (92 :: 117 :: t)
  | by_pair : forall t1 t2 hi lo, hex_unit t1 hi -> hex_unit t2 lo -> 55296 <= hi <= 56319 -> 56320 <= lo <= 57343 -> c = 65536 + 1024 * (hi - 55296) + (lo - 56320) ->
      spelled_char c (92 :: 117 :: t1 ++ 92 :: 117 :: t2).
  Definition quoted_as (s t : str) : Prop := exists ps, Forall2 spelled_char s ps /\ t = [34] ++ concat ps ++ [34].
  (** white space between the parts of a JSON text *)
  Definition blank (w : str) : Prop := Forall (fun c => In c [32; 10; 9; 13]) w.
  Definition composite (j : json) : Prop := match j with JArr _ | JObj _ => True | _ => False end.
  (** [json_text j s]: [s] is [j], laid out in any way, the members of its objects in any order *)
  Inductive json_text : json -> str -> Prop :=
  | atom_text : forall j, ~ composite j -> json_text j (json_print j)
  | string_text : forall s t, quoted_as s t -> json_text (JStr s) t
  | no_elements_text : forall w, blank w -> json_text (JArr []) (lit "[" ++ w ++ lit "]")
  | array_text : forall xs ts, xs <> [] -> Forall2 (fun x t => exists w1 s w2, t = w1 ++ s ++ w2 /\ blank w1 /\ blank w2 /\ json_text x s) xs ts ->
      json_text (JArr xs) (lit "[" ++ join (lit ",") ts ++ lit "]")
  | no_members_text : forall w, blank w -> json_text (JObj []) (lit "{" ++ w ++ lit "}")
  | object_text : forall kvs ms ts, kvs <> [] -> Permutation ms kvs ->
      Forall2 (fun m t => exists w1 k w2 w3 s w4, t = w1 ++ k ++ w2 ++ lit ":" ++ w3 ++ s ++ w4
        /\ quoted_as (fst m) k /\ blank w1 /\ blank w2 /\ blank w3 /\ blank w4 /\ json_text (snd m) s) ms ts ->
      json_text (JObj kvs) (lit "{" ++ join (lit ",") ts ++ lit "}").

  (** ** Values in documents *)

  (** how a value is stored in a document *)
  Inductive stored_as : value -> json -> Prop :=
  | stored_number : forall x, is_finite x = true -> stored_as (VNumber x) (JNum (JFlt x))
  | stored_infinite : forall x, is_finite x = false -> stored_as (VNumber x) JNull
  | stored_currency : forall x, is_finite x = true -> stored_as (VCurrency x) (JNum (JFlt x))
  | stored_infinite_currency : forall x, is_finite x = false -> stored_as (VCurrency x) JNull
  | stored_text : forall s, stored_as (VString s) (JStr s)
  | stored_truth : forall b, stored_as (VBoolean b) (JBool b)
  | stored_null : stored_as VNull JNull
  | stored_time : forall t, (0 <= t)%Z -> stored_as (VDateTime t) (JNum (JPos (Z.to_N t)))
  | stored_early : forall t, (t < 0)%Z -> stored_as (VDateTime t) (JNum (JNeg t))
  | stored_array : forall vs js, Forall2 stored_as vs js -> stored_as (VArray vs) (JArr js)
  | stored_object : forall s j, json_parse s = Some j -> stored_as (VJson s) j.

  (** the value a document stands for *)
  Inductive stands_for : json -> value -> Prop :=
  | null_value : stands_for JNull VNull
  | truth_value : forall b, stands_for (JBool b) (VBoolean b)
  | float_value : forall x, stands_for (JNum (JFlt x)) (VNumber x)
  | natural_value : forall n, stands_for (JNum (JPos n)) (num (Z.of_N n))
  | negative_value : forall z, stands_for (JNum (JNeg z)) (num z)
  | text_value : forall s, stands_for (JStr s) (VString s)
  | array_value : forall js vs, Forall2 stands_for js vs -> stands_for (JArr js) (VArray vs)
  | object_value : forall kvs, stands_for (JObj kvs) (VJson (json_print (JObj kvs))).

  (** values that come back unchanged *)
  Inductive storable : value -> Prop :=
  | storable_null : storable VNull
  | storable_truth : forall b, storable (VBoolean b)
  | storable_text : forall s, storable (VString s)
  | storable_whole : forall z, (Z.abs z <= 900719925474099)%Z -> storable (num z)
  | storable_array : forall vs, Forall storable vs -> storable (VArray vs).

  (** the pair with key [k] nearest the end of the list *)
  Definition last_value {A : Type} (kvs : list (str * A)) (k : str) (v : A) : Prop :=
    exists before after, kvs = before ++ (k, v) :: after /\ ~ In k (map fst after).

  (** the pairs of an object literal, evaluated and stored *)
  Definition stored_pairs (c : ctx) (pairs : list (str * expr)) (js : list (str * json)) : Prop :=
    Forall2 (fun p q => fst q = fst p /\ exists v, eval (snd p) c = Ok v /\ stored_as v (snd q)) pairs js.

  (** [path_to j path j']: keys (text) and positions (whole numbers, from 0, below 2^53) lead from [j] to [j'] *)
  Inductive path_to : json -> list value -> json -> Prop :=
  | path_end : forall j, path_to j [] j
  | path_key : forall kvs k j path j', last_value kvs k j -> path_to j path j' -> path_to (JObj kvs) (VString k :: path) j'
  | path_index : forall xs i j path j', (Z.of_nat i < 2 ^ 53)%Z -> nth_error xs i = Some j -> path_to j path j' -> path_to (JArr xs) (num (Z.of_nat i) :: path) j'.

  (** path elements: any value, but numbers are whole and below 2^53 *)
  Definition good_segment (v : value) : Prop := forall x, v = VNumber x -> exists z, (Z.abs z < 2 ^ 53)%Z /\ x = f_of_Z z.

  (** a key with everything but letters, digits and underscores replaced by '_' *)
  Definition sanitised (key name : str) : Prop :=
    Forall2 (fun c d => if is_alphanumeric c then d = c else d = 95) key name.
End Documents.
Fixpoint depth (v : value) : nat :=
  match v with VArray vs => S (list_max (map depth vs)) | _ => 0 end.

(** [n] arrays around a null *)
Fixpoint nested_array (n : nat) : json := match n with O => JNull | S k => JArr [nested_array k] end.
