(** [runtime/json.rs], [runtime/builtin_functions.rs], [runtime/function_dispatch.rs] *)
From Coq Require Import String List ZArith NArith Bool.
From Verif Require Import Base F64 Syntax Ext Json Utils Arith Logic Arrays Strings Dates Financial Stats.
Import ListNotations.
Local Open Scope Z_scope.

(** ** DIG ([json.rs:4-82]) *)

(** [n.floor() as isize], or -1 when not finite *)
Definition dig_index (n : f64) : Z := if is_finite n then f_to_isize (f_floor n) else -1.
(** [json.rs:29-63]: one step along the path; [None] = not found *)
Definition dig_step (cur : json) (seg : value) : option json :=
  match seg with
  | VString key => match cur with JObj kvs => mget key kvs | _ => None end
  | VNumber n =>
      match cur with
      | JArr xs => let i := dig_index n in
                   if (0 <=? i) && (i <? zlen xs) then znth xs i else None
      | _ => None
      end
  | _ => None
  end.
Fixpoint dig_path (cur : json) (path : list value) : option json :=
  match path with
  | [] => Some cur
  | seg :: r => match dig_step cur seg with Some next => dig_path next r | None => None end
  end.
Definition fn_dig {X : Ext} (args : list value) : res value :=
  match args with
  | a0 :: a1 :: r =>
      match a0 with
      | VJson s =>
      match a1 with
      | VArray path =>
          j <- parse_json s ;;
          Ok (match dig_path j path with
              | Some v => json_to_value v
              | None => match r with d :: _ => d | [] => VNull end
              end)
      | _ => Err (err "DIG second argument must be an array path")
      end
      | _ => Err (err "DIG first argument must be JSON object")
      end
  | _ => Err (err "DIG expects (json_obj, path_array, [default_value])")
  end.
(** [json.rs:4-82] *)
Definition exec_json {X : Ext} (name : str) (args : list value) : res value :=
  if is name "DIG" then fn_dig args
  else Err (mkErr (lit "Unknown JSON function: " ++ name) None).

(** ** Sequential dispatch ([builtin_functions.rs:11-52]) *)

Definition unknown_function (name : str) : error := mkErr (lit "Unknown function: " ++ name) None.

(** [if let Ok(result) = r { return Ok(result) } else continue]; a panic propagates *)
Definition try_else (r k : res value) : res value :=
  match r with
  | Ok v => Ok v
  | Err _ => k
  | Panic w => Panic w
  end.

Definition exec_builtin {X : Ext} (name : str) (args : list value) : res value :=
  try_else (exec_arithmetic name args) (
  try_else (exec_logical name args) (
  try_else (exec_string name args) (
  try_else (exec_array name args) (
  if is_datetime_function name then exec_datetime name args
  else
  try_else (exec_financial name args) (
  try_else (exec_statistical name args) (
  Err (unknown_function name))))))).

(** ** Category dispatch ([function_dispatch.rs:18-167]) *)

Definition one_of (names : list string) (name : str) : bool := existsb (is name) names.
(** [function_dispatch.rs:21-38] *)
Definition arithmetic_functions : list string :=
  ["SUM"; "AVG"; "AVERAGE"; "MIN"; "MAX"; "ROUND"; "CEIL"; "CEILING"; "FLOOR"; "ABS"; "SQRT";
   "POW"; "POWER"; "MOD"; "INT"; "PRODUCT"; "MULTIPLY"]%string.
(** [function_dispatch.rs:40-46] *)
Definition logical_functions : list string := ["AND"; "OR"; "NOT"; "XOR"; "IF"; "IFS"]%string.
(** [function_dispatch.rs:48-66] *)
Definition string_functions : list string :=
  ["LENGTH"; "CONCAT"; "UPPER"; "LOWER"; "TRIM"; "SUBSTRING"; "SPLIT"; "REPLACE"; "SUBSTITUTE";
   "SUBSTITUTEM"; "ISBLANK"; "ISNUMBER"; "ISTEXT"; "INCLUDES"; "LEFT"; "RIGHT"; "MID"]%string.
(** [function_dispatch.rs:68-79] *)
Definition array_functions : list string :=
  ["ARRAY"; "FLATTEN"; "FIRST"; "LAST"; "CONTAINS"; "IN"; "COUNT"; "UNIQUE"; "SORT"; "REVERSE";
   "JOIN"]%string.
(** [function_dispatch.rs:81-89] *)
Definition datetime_functions : list string :=
  ["NOW"; "DATE"; "TIME"; "YEAR"; "MONTH"; "DAY"; "DATEADD"; "DATEDIFF"]%string.
(** [function_dispatch.rs:91-95] *)
Definition financial_functions : list string := ["PMT"; "DB"; "FV"; "IPMT"]%string.
(** [function_dispatch.rs:97-113] *)
Definition statistical_functions : list string :=
  ["MEDIAN"; "MODE.SNGL"; "MODESNGL"; "MODE_SNGL"; "STDEV.P"; "STDEVP"; "STDEV_P"; "VAR.P"; "VARP";
   "VAR_P"; "PERCENTILE.INC"; "PERCENTILEINC"; "PERCENTILE_INC"; "QUARTILE.INC"; "QUARTILEINC";
   "QUARTILE_INC"]%string.
(** [function_dispatch.rs:115-116] *)
Definition json_functions : list string := ["DIG"]%string.

(** [function_dispatch.rs:131-167], reached through [exec_builtin_fast] *)
Definition exec_builtin_fast {X : Ext} (name : str) (args : list value) : res value :=
  if one_of array_functions name then exec_array name args
  else if one_of arithmetic_functions name then exec_arithmetic name args
  else if one_of logical_functions name then exec_logical name args
  else if one_of string_functions name then exec_string name args
  else if one_of datetime_functions name then exec_datetime name args
  else if one_of financial_functions name then exec_financial name args
  else if one_of statistical_functions name then exec_statistical name args
  else if one_of json_functions name then exec_json name args
  else Err (unknown_function name).
