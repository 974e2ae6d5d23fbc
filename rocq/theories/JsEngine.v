(** What passes between the crate and QuickJS ([rquickjs]): the values of
    JavaScript as [js_plugin.rs] sees them, and how a call may end. *)
From Coq Require Import String List ZArith NArith Bool.
From Verif Require Import Base F64 Syntax.
Import ListNotations.
Local Open Scope N_scope.

(** what [JSON.stringify] makes of an object: a text, nothing (a function), or it throws *)
Inductive stringified :=
| ShownAs (units : list N)
| NotShown
| NotShowable (msg : str).
(** Texts are sequences of 16-bit units.  Simplified: an array is read without
    running code of its own (getters), and one that contains itself is [JsLoop].
    [JsOther]: a symbol or a big integer. *)
Inductive js :=
| JsUndefined
| JsNull
| JsBool (b : bool)
| JsNumber (n : f64)
| JsText (units : list N)
| JsArray (xs : list js)
| JsObject (shown : stringified)
| JsLoop
| JsOther.
(** a source is loaded, its function [execute] is looked up and called: the
    message of what fails first, or what is returned.  Running for ever is not represented. *)
Inductive js_outcome :=
| JsNotLoaded (msg : str)
| JsNoExecute (msg : str)
| JsThrown (msg : str)
| JsReturned (v : js).

(** [JS_NewStringLen]: UTF-8 to 16-bit units *)
Definition char_to_units (c : N) : list N :=
  if c <? 65536 then [c] else [55296 + (c - 65536) / 1024; 56320 + (c - 65536) mod 1024].
Definition to_units (s : str) : list N := concat (map char_to_units s).
(** [JS_ToCStringLen] and [str::from_utf8]: a unit of a pair without the other is an error
    (no unit is beyond 65535) *)
Fixpoint from_units (us : list N) : option str :=
  match us with
  | [] => Some []
  | u :: r =>
      if (55296 <=? u) && (u <=? 56319) then
        match r with
        | v :: r' => if (56320 <=? v) && (v <=? 57343)
                     then match from_units r' with Some s => Some (65536 + (u - 55296) * 1024 + (v - 56320) :: s) | None => None end
                     else None
        | [] => None
        end
      else if (56320 <=? u) && (u <=? 57343) || (65535 <? u) then None
      else match from_units r with Some s => Some (u :: s) | None => None end
  end.
