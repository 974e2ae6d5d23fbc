(** [js_plugin.rs]: functions written in JavaScript.  Running JavaScript is
    the oracle [h_js]. *)
From Coq Require Import String List ZArith NArith Bool.
From Verif Require Import Base F64 Syntax Ext Registry Lines JsEngine Host.
Import ListNotations.
Local Open Scope N_scope.

(** js_plugin.rs:9-16 *)
Record js_function := mkJs { js_name : str; js_min : N; js_max : option N; js_description : option str; js_example : option str; js_code : str }.

(** js_plugin.rs:64-69: the annotations seen so far *)
Record meta := mkMeta { m_name : option str; m_min : N; m_max : option N; m_description : option str; m_example : option str }.
(** js_plugin.rs:72-92, one line *)
Definition meta_line (m : meta) (l : str) : res meta :=
  let l := trim l in
  match strip_prefix (lit "// @name:") l with
  | Some r => Ok (mkMeta (Some (trim r)) (m_min m) (m_max m) (m_description m) (m_example m))
  | None =>
  match strip_prefix (lit "// @min_args:") l with
  | Some r => n <- ok_or (usize_from_str (trim r)) (err "Invalid min_args value") ;;
              Ok (mkMeta (m_name m) n (m_max m) (m_description m) (m_example m))
  | None =>
  match strip_prefix (lit "// @max_args:") l with
  | Some r => if str_eqb (trim r) (lit "unlimited")
              then Ok (mkMeta (m_name m) (m_min m) None (m_description m) (m_example m))
              else n <- ok_or (usize_from_str (trim r)) (err "Invalid max_args value") ;;
                   Ok (mkMeta (m_name m) (m_min m) (Some n) (m_description m) (m_example m))
  | None =>
  match strip_prefix (lit "// @description:") l with
  | Some r => Ok (mkMeta (m_name m) (m_min m) (m_max m) (Some (trim r)) (m_example m))
  | None =>
  match strip_prefix (lit "// @example:") l with
  | Some r => Ok (mkMeta (m_name m) (m_min m) (m_max m) (m_description m) (Some (trim r)))
  | None => Ok m
  end end end end end.
Fixpoint meta_lines (m : meta) (ls : list str) : res meta :=
  match ls with
  | [] => Ok m
  | l :: r => m' <- meta_line m l ;; meta_lines m' r
  end.
(** js_plugin.rs:63-97 *)
Definition parse_js_function (code : str) : res js_function :=
  m <- meta_lines (mkMeta None 1 None None None) (lines code) ;;
  name <- ok_or (m_name m) (err "JavaScript function must have @name annotation") ;;
  Ok (mkJs name (m_min m) (m_max m) (m_description m) (m_example m) code).

Section Js.
  Context {X : Ext} {H : Host}.
  (** js_plugin.rs:100-127.  Creating values does not fail: memory is unbounded. *)
  Fixpoint value_to_js (v : value) : js :=
    match v with
    | VNumber n => JsNumber n
    | VString s => JsText (to_units s)
    | VBoolean b => JsBool b
    | VNull => JsUndefined
    | VArray xs => JsArray (map value_to_js xs)
    | VCurrency n => JsNumber n
    | VDateTime t => JsNumber (f_of_Z t)
    | VJson s => JsText (to_units s)
    end.
  (** js_plugin.rs:158-210.  An array that contains itself exhausts the stack. *)
  Fixpoint js_to_value (v : js) : res value :=
    match v with
    | JsNull | JsUndefined => Ok VNull
    | JsBool b => Ok (VBoolean b)
    | JsNumber n => Ok (VNumber n)
    | JsText us => match from_units us with
                   | Some s => Ok (VString s)
                   | None => Err (mkErr (lit "JS conversion error: " ++ h_js_text_err us) None)
                   end
    | JsArray xs => vs <- mapM js_to_value xs ;; Ok (VArray vs)
    | JsLoop => Panic "stack overflow"
    | JsObject (NotShowable msg) => Err (mkErr (lit "JSON.stringify failed: " ++ msg) None)
    | JsObject (ShownAs us) => match from_units us with
                               | Some s => Ok (VJson s)
                               | None => Err (mkErr (lit "Failed to convert JSON string: " ++ h_js_text_err us) None)
                               end
    | JsObject NotShown => Ok (VString (lit "[object Object]"))
    | JsOther => Ok (VString (lit "[unknown type]"))
    end.
  (** js_plugin.rs:226-267 *)
  Definition js_execute (code : str) (args : list value) : res value :=
    match h_js code (map value_to_js args) with
    | JsNotLoaded msg => Err (mkErr (lit "JS execution error: " ++ msg) None)
    | JsNoExecute msg => Err (mkErr (lit "Function 'execute' not found in JS code: " ++ msg) None)
    | JsThrown msg => Err (mkErr (lit "JS function execution failed: " ++ msg) None)
    | JsReturned v => js_to_value v
    end.
  (** js_plugin.rs:213-276: the [CustomFunction] it is *)
  Definition js_custom (f : js_function) : custom_fn := mkFn (js_name f) (js_min f) (js_max f) (fun args => js_execute (js_code f) args).

  (** ** Paths.  A file system without links: a path text is resolved
      lexically, and a file is known by its absolute path. *)
  (** [Path::join] *)
  Definition path_join (a b : str) : str :=
    match b with
    | 47 :: _ => b
    | _ => match rev a with [] => b | 47 :: _ => a ++ b | _ => a ++ 47 :: b end
    end.
  Definition step_component (stack : list str) (c : str) : list str :=
    if match c with [] => true | _ => str_eqb c (lit ".") end then stack
    else if str_eqb c (lit "..") then tl stack
    else c :: stack.
  (** the absolute path a path text leads to *)
  Definition resolve (p : str) : str :=
    let start := match p with 47 :: _ => [] | _ => rev h_cwd end in
    let stack := fold_left step_component (split_char 47 p) start in
    flat_map (fun c => 47 :: c) (rev stack).
  (** [file_path.extension() == Some("js")]: ".js" alone is a name without extension *)
  Definition is_js_file (p : str) : bool :=
    let name := last (split_char 47 p) [] in
    match strip_suffix (lit ".js") name with Some (_ :: _) => true | _ => false end.

  (** files: absolute path and contents.  Simplifications: contents are UTF-8;
      the hooks directory exists exactly when a file is below it or it has
      been created, which no result depends on. *)
  Definition files := smap str.
  (** the JavaScript files below the hooks directory, with their paths
      relative to it, in the order of the directory listing *)
  Definition hook_files (fs : files) : list (str * str) :=
    h_dir_order (flat_map (fun pc => match strip_prefix (resolve h_hooks ++ [47]) (fst pc) with
                                     | Some rel => if is_js_file rel then [(rel, snd pc)] else []
                                     | None => []
                                     end) fs).
  (** js_plugin.rs:293-336: files that do not parse are skipped *)
  Definition load_functions (fs : files) : res (list js_function) :=
    match h_mkdir_fails, h_list_fails with
    | Some e, _ => Err (mkErr (lit "Failed to create hooks directory: " ++ e) None)
    | None, Some e => Err (mkErr (lit "Failed to read directory: " ++ e) None)
    | None, None => Ok (flat_map (fun pc => match parse_js_function (snd pc) with Ok f => [f] | _ => [] end) (hook_files fs))
    end.
End Js.
