(** Oracles for the servers: things outside the repository that only they use.
    As for [Ext], no law is assumed. *)
From Coq Require Import List NArith ZArith Bool.
From Verif Require Import Base F64 Syntax JsEngine.

Class Host := {
  (** [String::from_utf8_lossy] of bytes that are not UTF-8 *)
  h_lossy : list N -> str;
  (** iteration order of a [HashMap<String, serde_json::Value>] while serving
      the request with this number: every map has its own *)
  h_order : N -> list (str * json) -> list (str * json);
  (** times measured while serving the request with this number: the whole
      request in milliseconds and in whole microseconds, its evaluation alone *)
  h_ms : N -> f64;
  h_micros : N -> N;
  h_eval_ms : N -> f64;
  (** serde_json's message for a body that is not the expected request *)
  h_serde_err : str -> str;
  (** running a JavaScript source with these arguments (QuickJS), and the
      message for a text that is not Unicode *)
  h_js : str -> list js -> js_outcome;
  h_js_text_err : list N -> str;
  (** the pages served at "/", "/docs" and "/openapi.yml" *)
  h_root : str;
  h_docs : str;
  h_openapi : str;
  (** the working directory (its path's components), the hooks directory ([SKILLET_HOOKS_DIR]) *)
  h_cwd : list str;
  h_hooks : str;
  (** order in which a directory is listed *)
  h_dir_order : list (str * str) -> list (str * str);
  (** file operations on a path: the error text if one fails *)
  h_write_fails : str -> option str;
  h_remove_fails : str -> option str;
  h_list_fails : option str;
  (** creating the hooks directory *)
  h_mkdir_fails : option str;
  (** "last modified" text of a file *)
  h_modified : str -> str;
}.
