(** Common vocabulary of the model: texts, outcomes, finite maps.

    Rust values modelled here:
    - [String]/[&str]  -> [str], a list of Unicode scalar values (as [N]);
      byte views are obtained with [Utf8.encode].
    - [Result<T, Error>] -> [res T]; a Rust panic is the explicit [Panic]. *)
From Coq Require Import String Ascii Lia List ZArith NArith Bool.
Import ListNotations.

Definition str := list N.

(** ASCII literal -> [str]; notation only, used to write Rust string literals. *)
Fixpoint lit (s : string) : str :=
  match s with
  | EmptyString => []
  | String c r => N_of_ascii c :: lit r
  end.
Arguments lit s%string.

Fixpoint str_eqb (a b : str) : bool :=
  match a, b with
  | [], [] => true
  | x :: a', y :: b' => N.eqb x y && str_eqb a' b'
  | _, _ => false
  end.

(** Lexicographic order on scalar values.  Rust compares [str] by bytes; UTF-8
    preserves the order of scalar values, so this is the same order
    (proved in [Utf8_proofs.encode_compare]). *)
Fixpoint str_cmp (a b : str) : comparison :=
  match a, b with
  | [], [] => Eq
  | [], _ :: _ => Lt
  | _ :: _, [] => Gt
  | x :: a', y :: b' =>
      match N.compare x y with
      | Eq => str_cmp a' b'
      | c => c
      end
  end.

Definition str_ltb (a b : str) : bool := match str_cmp a b with Lt => true | _ => false end.

(** [error.rs:3-27] *)
Record error := mkErr { e_msg : str; e_pos : option N }.
Definition err (m : string) : error := mkErr (lit m) None.

Inductive res (A : Type) : Type :=
| Ok (a : A)
| Err (e : error)
| Panic (why : string).
Arguments Ok {A} a.
Arguments Err {A} e.
Arguments Panic {A} why.

Definition bind {A B} (r : res A) (k : A -> res B) : res B :=
  match r with
  | Ok a => k a
  | Err e => Err e
  | Panic w => Panic w
  end.
Notation "x <- r ;; k" := (bind r (fun x => k)) (at level 100, r at next level, right associativity).
Notation "' p <- r ;; k" := (bind r (fun p => k)) (at level 100, p pattern, r at next level, right associativity).

(** Rust's [Option::ok_or_else(..)?]. *)
Definition ok_or {A} (o : option A) (e : error) : res A :=
  match o with Some a => Ok a | None => Err e end.

(** [for x in xs { out.push(f(x)?) }] *)
Section MapM.
  Context {A B : Type} (f : A -> res B).
  Fixpoint mapM (xs : list A) : res (list B) :=
    match xs with
    | [] => Ok []
    | x :: r => y <- f x ;; ys <- mapM r ;; Ok (y :: ys)
    end.
End MapM.

(** [for x in xs { acc = f(acc, x)? }] *)
Section FoldM.
  Context {A B : Type} (f : B -> A -> res B).
  Fixpoint foldM (xs : list A) (acc : B) : res B :=
    match xs with
    | [] => Ok acc
    | x :: r => acc' <- f acc x ;; foldM r acc'
    end.
End FoldM.

(** Finite maps ([HashMap<String, V>]), as association lists with unique keys. *)
Section Maps.
  Context {V : Type}.
  Definition smap := list (str * V).
  Fixpoint mget (k : str) (m : smap) : option V :=
    match m with
    | [] => None
    | (k', v) :: r => if str_eqb k k' then Some v else mget k r
    end.
  Fixpoint mremove (k : str) (m : smap) : smap :=
    match m with
    | [] => []
    | (k', v) :: r => if str_eqb k k' then mremove k r else (k', v) :: mremove k r
    end.
  Definition minsert (k : str) (v : V) (m : smap) : smap := (k, v) :: mremove k m.
  Definition mhas (k : str) (m : smap) : bool :=
    match mget k m with Some _ => true | None => false end.
  Definition mkeys (m : smap) : list str := map fst m.
End Maps.
Arguments smap : clear implicits.

(** Ordered maps ([BTreeMap<String, V>], the map behind [serde_json::Map]
    without the [preserve_order] feature, see Cargo.lock: serde_json has no
    indexmap dependency): association lists sorted by key. *)
Section BTree.
  Context {V : Type}.
  Fixpoint binsert (k : str) (v : V) (m : list (str * V)) : list (str * V) :=
    match m with
    | [] => [(k, v)]
    | (k', v') :: r =>
        match str_cmp k k' with
        | Lt => (k, v) :: m
        | Eq => (k, v) :: r
        | Gt => (k', v') :: binsert k v r
        end
    end.
End BTree.

(** ** ASCII classification *)
Definition is_digit (c : N) : bool := (48 <=? c)%N && (c <=? 57)%N.
Definition is_upper_ascii (c : N) : bool := (65 <=? c)%N && (c <=? 90)%N.
Definition is_lower_ascii (c : N) : bool := (97 <=? c)%N && (c <=? 122)%N.
Definition is_alpha_ascii (c : N) : bool := is_upper_ascii c || is_lower_ascii c.
Definition is_ascii (c : N) : bool := (c <? 128)%N.
Definition upper_ascii (c : N) : N := if is_lower_ascii c then (c - 32)%N else c.
Definition lower_ascii (c : N) : N := if is_upper_ascii c then (c + 32)%N else c.
(** [u8::eq_ignore_ascii_case] on slices / [str::eq_ignore_ascii_case]. *)
Definition eq_ignore_ascii_case (a b : str) : bool :=
  str_eqb (map lower_ascii a) (map lower_ascii b).

(** [char::is_whitespace] (Unicode White_Space, a fixed 25-character set). *)
Definition is_whitespace (c : N) : bool :=
  ((9 <=? c) && (c <=? 13))%N || (c =? 32)%N || (c =? 133)%N || (c =? 160)%N || (c =? 5760)%N
  || ((8192 <=? c) && (c <=? 8202))%N || (c =? 8232)%N || (c =? 8233)%N || (c =? 8239)%N
  || (c =? 8287)%N || (c =? 12288)%N.

(** ** Text helpers (the [str] methods the crate uses) *)
Fixpoint trim_start (s : str) : str :=
  match s with
  | c :: r => if is_whitespace c then trim_start r else s
  | [] => []
  end.
Definition trim_end (s : str) : str := rev (trim_start (rev s)).
Definition trim (s : str) : str := trim_end (trim_start s).

Fixpoint strip_prefix (p s : str) : option str :=
  match p, s with
  | [], _ => Some s
  | a :: p', b :: s' => if N.eqb a b then strip_prefix p' s' else None
  | _ :: _, [] => None
  end.
Definition starts_with (p s : str) : bool :=
  match strip_prefix p s with Some _ => true | None => false end.
Definition ends_with (p s : str) : bool := starts_with (rev p) (rev s).
Definition strip_suffix (p s : str) : option str :=
  match strip_prefix (rev p) (rev s) with Some r => Some (rev r) | None => None end.

(** [str::find(pat)], first position (in scalar values) where [p] occurs. *)
Fixpoint find_str (p s : str) : option nat :=
  if starts_with p s then Some O
  else match s with
       | [] => None
       | _ :: r => match find_str p r with Some i => Some (S i) | None => None end
       end.
Definition contains_str (p s : str) : bool :=
  match find_str p s with Some _ => true | None => false end.

(** [slice::join] on strings. *)
Fixpoint join (sep : str) (parts : list str) : str :=
  match parts with
  | [] => []
  | [x] => x
  | x :: r => x ++ sep ++ join sep r
  end.

(** [str::split(c: char)] *)
Fixpoint split_char (c : N) (s : str) : list str :=
  match s with
  | [] => [[]]
  | x :: r =>
      if N.eqb x c then [] :: split_char c r
      else match split_char c r with
           | h :: t => (x :: h) :: t
           | [] => [[x]]
           end
  end.

(** Decimal rendering of integers ([to_string] on i64/usize). *)
Fixpoint digits_fuel (fuel : nat) (n : N) (acc : str) : str :=
  match fuel with
  | O => acc
  | S f =>
      let acc' := (48 + N.modulo n 10)%N :: acc in
      if (n <? 10)%N then acc' else digits_fuel f (N.div n 10) acc'
  end.
Definition N_to_str (n : N) : str := digits_fuel (S (N.to_nat (N.size n))) n [].
Definition Z_to_str (z : Z) : str :=
  match z with
  | Zneg p => 45%N :: N_to_str (Npos p)
  | Z0 => N_to_str 0
  | Zpos p => N_to_str (Npos p)
  end.

Definition all_ascii (s : str) : bool := forallb is_ascii s.
