(** [runtime/datetime.rs], with the part of chrono 0.4.43 it uses. *)
From Coq Require Import String List ZArith NArith Bool.
From Verif Require Import Base F64 Syntax Ext Utils.
Import ListNotations.
Local Open Scope Z_scope.

(** ** Proleptic Gregorian calendar (chrono [NaiveDate]) *)
Definition is_leap (y : Z) : bool :=
  (y mod 4 =? 0) && (negb (y mod 100 =? 0) || (y mod 400 =? 0)).
Definition days_in_month (y m : Z) : Z :=
  if m =? 2 then (if is_leap y then 29 else 28)
  else if (m =? 4) || (m =? 6) || (m =? 9) || (m =? 11) then 30 else 31.

(** days since 1970-01-01; the year is counted from March so that the leap day
    comes last *)
Definition days_of_civil (y m d : Z) : Z :=
  let y' := if m <=? 2 then y - 1 else y in
  let era := y' / 400 in
  let yoe := y' mod 400 in
  let mp := (m + 9) mod 12 in
  let doy := (153 * mp + 2) / 5 + d - 1 in
  let doe := yoe * 365 + yoe / 4 - yoe / 100 + doy in
  era * 146097 + doe - 719468.
Definition civil_of_days (z : Z) : Z * Z * Z :=
  let z' := z + 719468 in
  let era := z' / 146097 in
  let doe := z' mod 146097 in
  let yoe := (doe - doe / 1460 + doe / 36524 - doe / 146096) / 365 in
  let doy := doe - (365 * yoe + yoe / 4 - yoe / 100) in
  let mp := (5 * doy + 2) / 153 in
  let d := doy - (153 * mp + 2) / 5 + 1 in
  let m := if mp <? 10 then mp + 3 else mp - 9 in
  let y := yoe + era * 400 in
  ((if m <=? 2 then y + 1 else y), m, d).

Definition min_year : Z := -262143.
Definition max_year : Z := 262142.
Definition valid_date (y m d : Z) : bool :=
  (min_year <=? y) && (y <=? max_year) && (1 <=? m) && (m <=? 12)
  && (1 <=? d) && (d <=? days_in_month y m).
(** [NaiveDate::from_ymd_opt], as days since the epoch *)
Definition from_ymd_opt (y m d : Z) : option Z :=
  if valid_date y m d then Some (days_of_civil y m d) else None.

Definition min_day : Z := days_of_civil min_year 1 1.
Definition max_day : Z := days_of_civil max_year 12 31.
(** [DateTime::from_timestamp(t, 0)]: (days since epoch, second of the day) *)
Definition from_timestamp (t : Z) : option (Z * Z) :=
  let day := t / 86400 in
  if (min_day <=? day) && (day <=? max_day) then Some (day, t mod 86400) else None.
Definition timestamp (dt : Z * Z) : Z := fst dt * 86400 + snd dt.
Definition dt_year (dt : Z * Z) : Z := fst (fst (civil_of_days (fst dt))).
Definition dt_month (dt : Z * Z) : Z := snd (fst (civil_of_days (fst dt))).
Definition dt_day (dt : Z * Z) : Z := snd (civil_of_days (fst dt)).

(** [chrono::Duration::{days,hours,..}(n)], as seconds: panics out of bounds *)
Definition duration_limit : Z := 9223372036854775.
Definition duration (unit n : Z) : res Z :=
  let s := unit * n in
  if (- duration_limit <=? s) && (s <=? duration_limit) then Ok s
  else Panic "TimeDelta out of bounds".
(** [dt + duration] *)
Definition dt_add (dt : Z * Z) (secs : Z) : res Z :=
  let t := timestamp dt + secs in
  match from_timestamp t with
  | Some _ => Ok t
  | None => Panic "`DateTime + TimeDelta` overflowed"
  end.

(** [i64 as i32] *)
Definition wrap_i32 (z : Z) : Z := (z + 2 ^ 31) mod 2 ^ 32 - 2 ^ 31.
(** [i32 + i32] *)
Definition add_i32 (a b : Z) : res Z :=
  let s := a + b in
  if (- 2 ^ 31 <=? s) && (s <? 2 ^ 31) then Ok s else Panic "attempt to add with overflow".

(** [from_ymd_opt(y, m, d).unwrap_or_else(|| from_ymd_opt(y, m, 28).unwrap())] *)
Definition ymd_or_28 (y m d : Z) : res Z :=
  match from_ymd_opt y m d with
  | Some day => Ok day
  | None => match from_ymd_opt y m 28 with
            | Some day => Ok day
            | None => Panic "called `Option::unwrap()` on a `None` value"
            end
  end.

(** [datetime.rs:103-118]; the two [while] loops (lines 107-114) bring the
    month into 1..12 and are written here as one division *)
Definition add_months (dt : Z * Z) (interval : Z) : res Z :=
  m0 <- add_i32 (dt_month dt) (wrap_i32 interval) ;;
  let y := dt_year dt + (m0 - 1) / 12 in
  let m := (m0 - 1) mod 12 + 1 in
  day <- ymd_or_28 y m (dt_day dt) ;;
  Ok (timestamp (day, snd dt)).
(** [datetime.rs:119-124] *)
Definition add_years (dt : Z * Z) (interval : Z) : res Z :=
  y <- add_i32 (dt_year dt) (wrap_i32 interval) ;;
  day <- ymd_or_28 y (dt_month dt) (dt_day dt) ;;
  Ok (timestamp (day, snd dt)).

Inductive unit_name := UDays | UHours | UMinutes | USeconds | UWeeks | UMonths | UYears.
(** the unit names of [datetime.rs:97-125] and [154-167] *)
Definition unit_of (s : str) : option unit_name :=
  if is s "days" || is s "day" || is s "d" then Some UDays
  else if is s "hours" || is s "hour" || is s "h" then Some UHours
  else if is s "minutes" || is s "minute" || is s "m" then Some UMinutes
  else if is s "seconds" || is s "second" || is s "s" then Some USeconds
  else if is s "weeks" || is s "week" || is s "w" then Some UWeeks
  else if is s "months" || is s "month" then Some UMonths
  else if is s "years" || is s "year" || is s "y" then Some UYears
  else None.

(** [datetime.rs:15-44] *)
Definition fn_date {X : Ext} (args : list value) : res value :=
  match args with
  | [] => Ok (VDateTime x_today)
  | [a; b; c] =>
      match a with
      | VNumber y =>
      match b with
      | VNumber m =>
      match c with
      | VNumber d =>
          day <- ok_or (from_ymd_opt (f_to_i32 y) (f_to_u32 m) (f_to_u32 d)) (err "Invalid date") ;;
          Ok (VDateTime (timestamp (day, 0)))
      | _ => Err (err "DATE expects day as number")
      end
      | _ => Err (err "DATE expects month as number")
      end
      | _ => Err (err "DATE expects year as number")
      end
  | _ => Err (err "DATE expects either no arguments or three arguments (year, month, day)")
  end.

(** [datetime.rs:50-76] *)
Definition date_part (who : string) (f : Z * Z -> Z) (args : list value) : res value :=
  match args with
  | VDateTime t :: _ =>
      dt <- ok_or (from_timestamp t) (err "Invalid timestamp") ;;
      Ok (VNumber (f_of_Z (f dt)))
  | _ => Err (mkErr (lit who ++ lit " expects datetime") None)
  end.

(** [datetime.rs:97-126] *)
Definition date_add (dt : Z * Z) (interval : Z) (unit : str) : res Z :=
  match unit_of unit with
  | Some UDays => s <- duration 86400 interval ;; dt_add dt s
  | Some UHours => s <- duration 3600 interval ;; dt_add dt s
  | Some UMinutes => s <- duration 60 interval ;; dt_add dt s
  | Some USeconds => s <- duration 1 interval ;; dt_add dt s
  | Some UWeeks => s <- duration 604800 interval ;; dt_add dt s
  | Some UMonths => add_months dt interval
  | Some UYears => add_years dt interval
  | None => Err (err "DATEADD unit must be one of: days, hours, minutes, seconds, weeks, months, years")
  end.
(** [datetime.rs:77-129] *)
Definition fn_dateadd {X : Ext} (args : list value) : res value :=
  match args with
  | a :: b :: c :: _ =>
      match a with
      | VDateTime t =>
      match b with
      | VNumber n =>
      match c with
      | VString u =>
          dt <- ok_or (from_timestamp t) (err "Invalid timestamp") ;;
          r <- date_add dt (f_to_i64 n) (to_lowercase u) ;;
          Ok (VDateTime r)
      | _ => Err (err "DATEADD expects string unit as third argument")
      end
      | _ => Err (err "DATEADD expects number as second argument")
      end
      | _ => Err (err "DATEADD expects datetime as first argument")
      end
  | _ => Err (err "DATEADD expects date, interval, unit")
  end.

(** [datetime.rs:152-167] *)
Definition date_diff (dt1 dt2 : Z * Z) (unit : str) : res Z :=
  let secs := timestamp dt2 - timestamp dt1 in
  match unit_of unit with
  | Some UDays => Ok (Z.quot secs 86400)
  | Some UHours => Ok (Z.quot secs 3600)
  | Some UMinutes => Ok (Z.quot secs 60)
  | Some USeconds => Ok secs
  | Some UWeeks => Ok (Z.quot (Z.quot secs 86400) 7)
  | Some UMonths =>
      Ok ((dt_year dt2 - dt_year dt1) * 12 + (dt_month dt2 - dt_month dt1))
  | Some UYears => Ok (dt_year dt2 - dt_year dt1)
  | None => Err (err "DATEDIFF unit must be one of: days, hours, minutes, seconds, weeks, months, years")
  end.
(** [datetime.rs:130-170] *)
Definition fn_datediff {X : Ext} (args : list value) : res value :=
  match args with
  | a :: b :: c :: _ =>
      match a with
      | VDateTime t1 =>
      match b with
      | VDateTime t2 =>
      match c with
      | VString u =>
          dt1 <- ok_or (from_timestamp t1) (err "Invalid timestamp1") ;;
          dt2 <- ok_or (from_timestamp t2) (err "Invalid timestamp2") ;;
          d <- date_diff dt1 dt2 (to_lowercase u) ;;
          Ok (VNumber (f_of_Z d))
      | _ => Err (err "DATEDIFF expects string unit as third argument")
      end
      | _ => Err (err "DATEDIFF expects datetime as second argument")
      end
      | _ => Err (err "DATEDIFF expects datetime as first argument")
      end
  | _ => Err (err "DATEDIFF expects date1, date2, unit")
  end.

(** [datetime.rs:5-7] *)
Definition is_datetime_function (name : str) : bool :=
  is name "NOW" || is name "DATE" || is name "TIME" || is name "YEAR" || is name "MONTH"
  || is name "DAY" || is name "DATEADD" || is name "DATEDIFF".

(** [datetime.rs:9-173] *)
Definition exec_datetime {X : Ext} (name : str) (args : list value) : res value :=
  if is name "NOW" then Ok (VDateTime x_now)
  else if is name "DATE" then fn_date args
  else if is name "TIME" then Ok (VNumber (f_of_Z x_time))
  else if is name "YEAR" then date_part "YEAR" dt_year args
  else if is name "MONTH" then date_part "MONTH" dt_month args
  else if is name "DAY" then date_part "DAY" dt_day args
  else if is name "DATEADD" then fn_dateadd args
  else if is name "DATEDIFF" then fn_datediff args
  else Err (mkErr (lit "Unknown datetime function: " ++ name) None).
