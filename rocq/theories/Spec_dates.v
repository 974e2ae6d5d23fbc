(** Vocabulary for the calendar properties: the Gregorian calendar as a
    succession of days, independent of the arithmetic used by the model. *)
From Coq Require Import String List ZArith Bool.
Import ListNotations.
Local Open Scope Z_scope.

(** year, month, day *)
Definition date : Type := Z * Z * Z.
Definition leap_year (y : Z) : Prop := (4 | y) /\ (~ (100 | y) \/ (400 | y)).
(** [length_of y m n]: month [m] of year [y] has [n] days *)
Inductive length_of (y : Z) : Z -> Z -> Prop :=
| thirty_days : forall m, In m [4; 6; 9; 11] -> length_of y m 30
| thirty_one_days : forall m, In m [1; 3; 5; 7; 8; 10; 12] -> length_of y m 31
| short_february : ~ leap_year y -> length_of y 2 28
| long_february : leap_year y -> length_of y 2 29.
Definition calendar_date (x : date) : Prop :=
  let '(y, m, d) := x in exists n, length_of y m n /\ 1 <= d <= n.

(** the day after *)
Inductive tomorrow : date -> date -> Prop :=
| within_month : forall y m d n, length_of y m n -> 1 <= d < n -> tomorrow (y, m, d) (y, m, d + 1)
| next_month : forall y m n, length_of y m n -> m < 12 -> tomorrow (y, m, n) (y, m + 1, 1)
| new_year : forall y, tomorrow (y, 12, 31) (y + 1, 1, 1).

(** [day_number x n]: [x] is [n] days after 1970-01-01 (before it if [n] is
    negative) *)
Inductive day_number : date -> Z -> Prop :=
| epoch : day_number (1970, 1, 1) 0
| later : forall x x' n, day_number x n -> tomorrow x x' -> day_number x' (n + 1)
| earlier : forall x x' n, day_number x n -> tomorrow x' x -> day_number x' (n - 1).

(** the years that the library can represent *)
Definition year_in_range (y : Z) : Prop := -262143 <= y <= 262142.
(** the timestamps (seconds since the epoch) of those years, with their date
    and second of the day *)
Definition instant (t : Z) (x : date) (s : Z) : Prop :=
  let '(y, m, d) := x in
  year_in_range y /\ 0 <= s < 86400 /\ exists n, day_number x n /\ t = 86400 * n + s.

(** the units of a fixed length, in seconds *)
Definition fixed_units : list (string * Z) :=
  [("days", 86400); ("day", 86400); ("d", 86400); ("hours", 3600); ("hour", 3600); ("h", 3600);
   ("minutes", 60); ("minute", 60); ("m", 60); ("seconds", 1); ("second", 1); ("s", 1);
   ("weeks", 604800); ("week", 604800); ("w", 604800)]%string.
(** the units that count months *)
Definition month_units : list (string * Z) :=
  [("months", 1); ("month", 1); ("years", 12); ("year", 12); ("y", 12)]%string.
(** the same day [k] months later; the 28th when that month has no such day *)
Definition months_later (x x' : date) (k : Z) : Prop :=
  let '(y, m, d) := x in let '(y', m', d') := x' in
  12 * y' + m' = 12 * y + m + k /\ 1 <= m' <= 12
  /\ exists n, length_of y' m' n /\ d' = (if d <=? n then d else 28).
(** the second can be represented *)
Definition on_calendar (t : Z) : Prop := exists x s, instant t x s.
