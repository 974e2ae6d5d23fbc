(** What the statistics of the result cache are meant to count. *)
From Coq Require Import String List NArith.
From Verif Require Import Base F64 Ext Lines HttpRead HttpAuth HttpCache HttpServer Spec Spec_text Spec_http.
Import ListNotations.

(** the lookups among some operations *)
Definition lookups (ops : list cache_op) : nat := length (filter (fun op => match op with Get _ => true | _ => false end) ops).
(** what lies under a key after some operations *)
Definition held (ops : list cache_op) (k : str) : list entry := match fst (cache_get k (cache_after ops)) with Some e => [e] | None => [] end.
(** the results that the lookups in [after] find, if the operations [before] were first *)
Fixpoint found (before after : list cache_op) : list entry :=
  match after with
  | [] => []
  | op :: r => match op with Get k => held before k | _ => [] end ++ found (before ++ [op]) r
  end.
(** the results in whose place those in [after] put another under the same key *)
Fixpoint replaced (before after : list cache_op) : list entry :=
  match after with
  | [] => []
  | op :: r => match op with Put k _ => held before k | _ => [] end ++ replaced (before ++ [op]) r
  end.
(** the cache was empty when [after] began, and was not cleared since *)
Definition since_empty (before after : list cache_op) : Prop := (before = [] \/ exists b, before = b ++ [Clear]) /\ ~ In Clear after.
(** a request to clear the cache: by the first three words of its first line *)
Definition is_clear (text : str) : Prop :=
  exists l ls q v more, lines text = l :: ls /\ split_whitespace l = lit "DELETE" :: (lit "/cache" ++ q) :: v :: more /\ (q = [] \/ hd 0%N q = 63%N).
