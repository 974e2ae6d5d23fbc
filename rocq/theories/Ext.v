(** Oracles: behaviour of things that are not in this repository.
    They are fields of a record passed as an argument; no law is assumed about
    any of them, so every theorem holds for every possible oracle. *)
From Coq Require Import String List ZArith NArith Bool.
From Verif Require Import Base F64 Syntax.
Import ListNotations.

Class Ext := {
  (** [char::to_uppercase]/[to_lowercase] of non-ASCII characters (Unicode tables) *)
  x_upper_char : N -> str;
  x_lower_char : N -> str;
  (** does a capital sigma between these texts end a word? ([str::to_lowercase]) *)
  x_final_sigma : str -> str -> bool;
  (** [char::is_alphanumeric] on non-ASCII characters *)
  x_alnum : N -> bool;
  (** [f64::powf], [sin], [cos], [tan]: libm *)
  x_powf : f64 -> f64 -> f64;
  x_sin : f64 -> f64;
  x_cos : f64 -> f64;
  x_tan : f64 -> f64;
  (** does [{:?}] of a text print this non-ASCII character as it is? (Unicode tables) *)
  x_printable : N -> bool;
  (** [Utc::now().timestamp()]; midnight of [Local::now().date_naive()] as a
      UTC timestamp; the seconds since midnight that [TIME()] computes from
      [Local::now().time()].  One evaluation sees one instant: the model does
      not let the clock advance during an evaluation. *)
  x_now : Z;
  x_today : Z;
  x_time : Z;
  (** display text of serde_json's error for a text that is not JSON *)
  x_json_err : str -> str;
  (** does the float printer used by serde_json write "e+30" rather than "e30"? *)
  x_json_exp_plus : bool;
  (** the [jsonpath_rust] query engine: document, path -> matches or error text *)
  x_jsonpath : json -> str -> list json + str;
  (** [slice::sort_by] with a comparator that is not a total order (NaN taken
      as equal to everything): std leaves the order unspecified and may panic.
      First argument: descending? *)
  x_sort_nan : bool -> list f64 -> res (list f64);
}.

(** [str::to_uppercase]: character by character *)
Definition upper_char {X : Ext} (c : N) : str := if is_ascii c then [upper_ascii c] else x_upper_char c.
Definition to_uppercase {X : Ext} (s : str) : str := flat_map upper_char s.
(** [str::to_lowercase]: character by character, except that a capital sigma at
    the end of a word becomes a final sigma; [before] is what precedes *)
Definition lower_char {X : Ext} (c : N) : str := if is_ascii c then [lower_ascii c] else x_lower_char c.
Fixpoint lower_from {X : Ext} (before s : str) : str :=
  match s with
  | [] => []
  | c :: r => (if (c =? 931)%N then [if x_final_sigma before r then 962%N else 963%N] else lower_char c)
              ++ lower_from (before ++ [c]) r
  end.
Definition to_lowercase {X : Ext} (s : str) : str := lower_from [] s.
(** [char::is_alphanumeric] *)
Definition is_alphanumeric {X : Ext} (c : N) : bool :=
  if is_ascii c then is_digit c || is_alpha_ascii c else x_alnum c.
