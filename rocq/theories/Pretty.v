(** [serde_json::to_string_pretty] (an external crate, modelled from its
    documented behaviour): two spaces for each level. *)
From Coq Require Import String List NArith Bool.
From Verif Require Import Base Syntax Ext Json.
Import ListNotations.
Local Open Scope N_scope.

Definition new_line (level : nat) : str := 10 :: repeat 32 (2 * level).
Fixpoint json_pretty {X : Ext} (level : nat) (j : json) : str :=
  match j with
  | JArr [] => lit "[]"
  | JArr xs => 91 :: join [44] (map (fun x => new_line (S level) ++ json_pretty (S level) x) xs) ++ new_line level ++ [93]
  | JObj [] => lit "{}"
  | JObj kvs =>
      123 :: join [44] (map (fun kv => let '(k, v) := kv in new_line (S level) ++ json_quote k ++ 58 :: 32 :: json_pretty (S level) v) kvs)
      ++ new_line level ++ [125]
  | _ => json_print j
  end.
