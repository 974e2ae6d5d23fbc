(** [runtime/string.rs] *)
From Coq Require Import String List ZArith NArith Bool.
From Verif Require Import Base F64 Syntax Ext F64Text Utf8 Utils.
Import ListNotations.
Local Open Scope N_scope.

(** ** Byte offsets and slices of [str] *)

(** [char::len_utf8] *)
Definition char_len (c : N) : N :=
  if c <? 128 then 1 else if c <? 2048 then 2 else if c <? 65536 then 3 else 4.
(** [string.rs:7-12]: byte offset of a character index, or the byte length *)
Fixpoint char_byte_offset (s : str) (idx : N) : N :=
  match s with
  | [] => 0
  | c :: r => if idx =? 0 then 0 else char_len c + char_byte_offset r (idx - 1)
  end.
(** [string.rs:16-18] *)
Definition char_count (s : str) : N := N.of_nat (length s).

(** split at a byte offset; [None] when it is out of range or inside a character *)
Fixpoint split_bytes (s : str) (n : N) : option (str * str) :=
  if n =? 0 then Some ([], s)
  else match s with
       | [] => None
       | c :: r =>
           if n <? char_len c then None
           else match split_bytes r (n - char_len c) with
                | Some (a, b) => Some (c :: a, b)
                | None => None
                end
       end.
(** [&s[..n]], [&s[n..]], [&s[a..b]]: panic off a boundary or if a > b *)
Definition slice_to (s : str) (n : N) : res str :=
  match split_bytes s n with Some (a, _) => Ok a | None => Panic "byte index is not a char boundary" end.
Definition slice_from (s : str) (n : N) : res str :=
  match split_bytes s n with Some (_, b) => Ok b | None => Panic "byte index is not a char boundary" end.
Definition slice_range (s : str) (a b : N) : res str :=
  if b <? a then Panic "slice index starts after its end"
  else t <- slice_from s a ;; slice_to t (b - a).

Definition usize_max : N := 18446744073709551615.
Definition sat_add (a b : N) : N := N.min usize_max (a + b).
(** [n as usize] *)
Definition as_usize (n : f64) : N := Z.to_N (f_to_usize n).
(** [if n.is_finite() && n > 0.0 { n as usize } else { 0 }] *)
Definition take_count (n : f64) : N := if is_finite n && f_ltb f_zero n then as_usize n else 0.

(** ** Searching *)

(** [str::split(pat)] for a non-empty pattern: leftmost non-overlapping
    matches; [skip] counts the characters of a match still to be dropped. *)
Definition cons_head (c : N) (parts : list str) : list str :=
  match parts with
  | h :: t => (c :: h) :: t
  | [] => [[c]]
  end.
Fixpoint split_aux (pat : str) (skip : nat) (s : str) : list str :=
  match s with
  | [] => [[]]
  | c :: r =>
      match skip with
      | S k => split_aux pat k r
      | O => if starts_with pat s then [] :: split_aux pat (pred (length pat)) r
             else cons_head c (split_aux pat O r)
      end
  end.
(** [str::split]; an empty pattern matches at every character boundary *)
Definition split_str (pat s : str) : list str :=
  match pat with
  | [] => [] :: map (fun c => [c]) s ++ [[]]
  | _ => split_aux pat O s
  end.

(** [str::replace] *)
Fixpoint replace_aux (pat repl : str) (skip : nat) (s : str) : str :=
  match s with
  | [] => []
  | c :: r =>
      match skip with
      | S k => replace_aux pat repl k r
      | O => if starts_with pat s then repl ++ replace_aux pat repl (pred (length pat)) r
             else c :: replace_aux pat repl O r
      end
  end.
Definition replace_str (pat repl s : str) : str :=
  match pat with
  | [] => repl ++ flat_map (fun c => c :: repl) s
  | _ => replace_aux pat repl O s
  end.

(** ** Functions *)

(** [string.rs:22-45]; [who] is the function name in the message *)
Definition fn_substitute (who : string) (args : list value) : res value :=
  match args with
  | VString text :: VString sub :: VString repl :: _ => Ok (VString (replace_str sub repl text))
  | _ => Err (mkErr (lit who ++ lit " expects (text: string, substr: string, replacement: string)") None)
  end.

(** the optional count argument of LEFT and RIGHT *)
Definition count_arg (who : string) (args : list value) : res f64 :=
  match nth_error args 1 with
  | Some (VNumber n) => Ok n
  | Some _ => Err (mkErr (lit who ++ lit " expects number as second argument") None)
  | None => Ok f_one
  end.
(** [string.rs:46-63] *)
Definition fn_left (args : list value) : res value :=
  match args with
  | [] => Err (err "LEFT expects string, [num_chars]")
  | VString s :: _ =>
      n <- count_arg "LEFT" args ;;
      t <- slice_to s (char_byte_offset s (take_count n)) ;;
      Ok (VString t)
  | _ => Err (err "LEFT expects string as first argument")
  end.
(** [string.rs:64-83] *)
Definition fn_right (args : list value) : res value :=
  match args with
  | [] => Err (err "RIGHT expects string, [num_chars]")
  | VString s :: _ =>
      n <- count_arg "RIGHT" args ;;
      let start := char_count s - take_count n in
      t <- slice_from s (char_byte_offset s start) ;;
      Ok (VString t)
  | _ => Err (err "RIGHT expects string as first argument")
  end.

(** [string.rs:84-128] *)
Definition fn_mid (args : list value) : res value :=
  match args with
  | VString s :: VNumber start :: r =>
      len_opt <- match r with
                 | VNumber n :: _ => Ok (Some n)
                 | _ :: _ => Err (err "MID expects number as third argument")
                 | [] => Ok None
                 end ;;
      let total := char_count s in
      let start_index :=
        if is_finite start then
          N.min (as_usize (if f_ltb start f_one then f_one else f_floor start) - 1) total
        else 0 in
      let end_index :=
        match len_opt with
        | Some n => N.min (sat_add start_index (take_count n)) total
        | None => total
        end in
      if (total <=? start_index) || (end_index <=? start_index) then Ok (VString [])
      else
        t <- slice_range s (char_byte_offset s start_index) (char_byte_offset s end_index) ;;
        Ok (VString t)
  | VString _ :: _ :: _ => Err (err "MID expects number as second argument")
  | _ :: _ :: _ => Err (err "MID expects string as first argument")
  | _ => Err (err "MID expects string, start, [num_chars]")
  end.

(** [string.rs:129-134] *)
Definition fn_length (args : list value) : res value :=
  match args with
  | VArray xs :: _ => Ok (VNumber (f_of_Z (zlen xs)))
  | VString s :: _ => Ok (VNumber (f_of_Z (Z.of_N (char_count s))))
  | VNull :: _ => Ok (VNumber f_zero)
  | _ => Err (err "LENGTH expects array or string")
  end.

(** [string.rs:137-162]; currency, dates and JSON are skipped *)
Fixpoint concat_text (v : value) : str :=
  match v with
  | VString s => s
  | VNumber n => f_display n
  | VArray xs => flat_map concat_text xs
  | VBoolean b => if b then lit "TRUE" else lit "FALSE"
  | _ => []
  end.
(** [string.rs:135-170] *)
Definition fn_concat (args : list value) : res value := Ok (VString (flat_map concat_text args)).

(** [string.rs:171-182] *)
Definition str1 (who : string) (f : str -> str) (args : list value) : res value :=
  match args with
  | VString s :: _ => Ok (VString (f s))
  | _ => Err (mkErr (lit who ++ lit " expects string") None)
  end.

(** [string.rs:183-228] *)
Definition fn_substring (args : list value) : res value :=
  match args with
  | VString s :: VNumber st :: r =>
      let start0 := as_usize st in
      let n := char_count s in
      let end0 := match r with
                  | VNumber len :: _ => N.min (sat_add start0 (as_usize len)) n
                  | _ => n
                  end in
      let start := N.min start0 n in
      let stop := N.max end0 start in
      if n <=? start then Ok (VString [])
      else
        t <- slice_range s (char_byte_offset s start) (char_byte_offset s stop) ;;
        Ok (VString t)
  | VString _ :: _ :: _ => Err (err "SUBSTRING expects number as second argument")
  | _ :: _ :: _ => Err (err "SUBSTRING expects string as first argument")
  | _ => Err (err "SUBSTRING expects string, start, [length]")
  end.

(** [string.rs:229-239] *)
Definition fn_split (args : list value) : res value :=
  match args with
  | VString s :: VString sep :: _ => Ok (VArray (map VString (split_str sep s)))
  | [VString s] => Ok (VArray (map (fun p => VString (trim p)) (split_char 44 s)))
  | _ => Err (err "SPLIT expects string, [separator]")
  end.

(** [string.rs:240-271] *)
Definition fn_replace (args : list value) : res value :=
  match args with
  | [a0; a1; a2; a3] =>
      match a0 with
      | VString old =>
      match a1 with
      | VNumber start_num =>
      match a2 with
      | VNumber num_chars =>
      match a3 with
      | VString new =>
          let len := char_count old in
          let start_1b := if is_finite start_num then as_usize (f_max (f_floor start_num) f_one) else 1 in
          let start := N.min (start_1b - 1) len in
          let take := if is_finite num_chars && f_ltb f_zero num_chars
                      then as_usize (f_floor num_chars) else 0 in
          let stop := N.min (sat_add start take) len in
          pre <- slice_to old (char_byte_offset old start) ;;
          post <- slice_from old (char_byte_offset old stop) ;;
          Ok (VString (pre ++ new ++ post))
      | _ => Err (err "REPLACE expects string as fourth argument")
      end
      | _ => Err (err "REPLACE expects number as third argument")
      end
      | _ => Err (err "REPLACE expects number as second argument")
      end
      | _ => Err (err "REPLACE expects string as first argument")
      end
  | _ => Err (err "REPLACE expects (old_text: string, start_num: number, num_chars: number, new_text: string)")
  end.

(** [string.rs:272-275] *)
Definition fn_reverse_string (args : list value) : res value := str1 "REVERSE" (@rev N) args.

(** [string.rs:276-281] *)
Definition fn_isblank (args : list value) : res value :=
  Ok (VBoolean (match args with v :: _ => is_blank v | [] => true end)).
(** [string.rs:282-287] *)
Definition fn_isnumber (args : list value) : res value :=
  Ok (VBoolean (match args with VNumber _ :: _ | VCurrency _ :: _ => true | _ => false end)).
(** [string.rs:288-290] *)
Definition fn_istext (args : list value) : res value :=
  Ok (VBoolean (match args with VString _ :: _ => true | _ => false end)).
(** [string.rs:291-308] *)
Definition fn_includes (args : list value) : res value :=
  match args with
  | [VString s; VString sub] => Ok (VBoolean (contains_str sub s))
  | [VString _; _] => Err (err "INCLUDES expects string as second argument")
  | [_; _] => Err (err "INCLUDES expects string as first argument")
  | _ => Err (err "INCLUDES expects string, substring")
  end.

(** [string.rs:20-314] *)
Definition exec_string {X : Ext} (name : str) (args : list value) : res value :=
  if is name "SUBSTITUTE" then fn_substitute "SUBSTITUTE" args
  else if is name "SUBSTITUTEM" then fn_substitute "SUBSTITUTEM" args
  else if is name "LEFT" then fn_left args
  else if is name "RIGHT" then fn_right args
  else if is name "MID" then fn_mid args
  else if is name "LENGTH" then fn_length args
  else if is name "CONCAT" then fn_concat args
  else if is name "UPPER" then str1 "UPPER" to_uppercase args
  else if is name "LOWER" then str1 "LOWER" to_lowercase args
  else if is name "TRIM" then str1 "TRIM" trim args
  else if is name "SUBSTRING" then fn_substring args
  else if is name "SPLIT" then fn_split args
  else if is name "REPLACE" then fn_replace args
  else if is name "REVERSE" then fn_reverse_string args
  else if is name "ISBLANK" then fn_isblank args
  else if is name "ISNUMBER" then fn_isnumber args
  else if is name "ISTEXT" then fn_istext args
  else if is name "INCLUDES" then fn_includes args
  else Err (mkErr (lit "Unknown string function: " ++ name) None).
