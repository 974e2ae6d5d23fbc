(** [memory_pool.rs:132-185]: variables shared until they are changed. *)
From Coq Require Import List.
From Verif Require Import Base Syntax Methods.

(** [memory_pool.rs:134-137]; the base is behind an [Arc] and never written *)
Record cow := mkCow { cow_base : env; cow_overlay : option env }.
(** [memory_pool.rs:140-152] *)
Definition cow_new (base : env) : cow := mkCow base None.
(** [memory_pool.rs:154-162] *)
Definition cow_get (c : cow) (k : str) : option value :=
  match cow_overlay c with
  | Some o => match mget k o with Some v => Some v | None => mget k (cow_base c) end
  | None => mget k (cow_base c)
  end.
(** [memory_pool.rs:164-169] *)
Definition cow_insert (c : cow) (k : str) (v : value) : cow :=
  mkCow (cow_base c) (Some (minsert k v (match cow_overlay c with Some o => o | None => nil end))).
(** [HashMap::extend]: the pairs one after the other, a later one replacing an earlier *)
Definition extend (m : env) (kvs : list (str * value)) : env :=
  fold_left (fun m kv => minsert (fst kv) (snd kv) m) kvs m.
(** [memory_pool.rs:172-178]; the overlay is iterated in no particular order *)
Definition cow_combined (c : cow) : env :=
  match cow_overlay c with Some o => extend (cow_base c) o | None => cow_base c end.
(** [memory_pool.rs:181-183] *)
Definition cow_modified (c : cow) : bool := match cow_overlay c with Some _ => true | None => false end.
