(** [http_server/auth.rs] *)
From Coq Require Import String List ZArith NArith Bool.
From Verif Require Import Base F64 Syntax Utf8 Ext Json Lines.
Import ListNotations.
Local Open Scope N_scope.

Section Auth.
  Context {X : Ext}.

  (** a byte slice [&s[n..]] *)
  Definition slice (n : N) (s : str) : res str :=
    match slice_from n s with Some r => Ok r | None => Panic "byte index out of bounds or not a char boundary" end.

  (** auth.rs:3-18 *)
  Fixpoint auth_in (ls : list str) : res (option str) :=
    match ls with
    | [] => Ok None
    | l :: r =>
        let l := trim l in
        if starts_with (lit "authorization:") (to_lowercase l)
        then v <- slice 14 l ;;
             let v := trim v in
             if starts_with (lit "bearer ") (to_lowercase v)
             then t <- slice 7 v ;; Ok (Some (trim t))
             else Ok (Some v)
        else auth_in r
    end.
  Definition extract_auth_header (request : str) : res (option str) := auth_in (lines request).

  Definition unauthorized (m : string) : str :=
    json_print (JObj [(lit "error", JStr (lit m)); (lit "success", JBool false)]).
  (** auth.rs:20-33, 35-48: the answer to refuse with, if any *)
  Definition check_token (message : string) (request : str) (server_token : option str) : res (option str) :=
    match server_token with
    | None => Ok None
    | Some cfg =>
        t <- extract_auth_header request ;;
        let supplied := match t with Some s => s | None => [] end in
        Ok (if str_eqb supplied cfg then None else Some (unauthorized message))
    end.
  Definition check_authentication := check_token "Unauthorized: invalid token".
  Definition check_admin_authentication :=
    check_token "Unauthorized: invalid admin token. JavaScript function management requires admin authentication.".
End Auth.

(** auth.rs:50-57 *)
Record token_config := mkTokens {
  auth_token : option str; admin_token : option str;
  dev_mode_warning : bool; same_token_warning : bool;
  admin_inherited_warning : bool; eval_inherited_warning : bool }.
(** auth.rs:60-95 *)
Definition token_config_new (auth admin : option str) : token_config :=
  match auth, admin with
  | None, None => mkTokens None None true false false false
  | Some e, None => mkTokens (Some e) (Some e) false false true false
  | None, Some a => mkTokens (Some a) (Some a) false false false true
  | Some e, Some a => mkTokens (Some e) (Some a) false (str_eqb e a) false false
  end.
