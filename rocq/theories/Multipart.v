(** [http_server/multipart.rs] *)
From Coq Require Import String List ZArith NArith Bool.
From Verif Require Import Base F64 Syntax Ext Lines HttpAuth.
Import ListNotations.
Local Open Scope N_scope.

(** multipart.rs:4-9; the content is a part of a Rust string, so its bytes are
    UTF-8: it is kept as text *)
Record field := mkField { fd_name : str; fd_filename : option str; fd_type : option str; fd_content : str }.

(** [str::trim_end_matches] of a two-character pattern, on the reversed text *)
Fixpoint drop_pairs (s : str) : str := match s with 45 :: 45 :: r => drop_pairs r | _ => s end.
Definition trim_dashes (s : str) : str := rev (drop_pairs (rev s)).
(** [splitn(2, '=')] when there is one *)
Definition cut_char (c : N) (s : str) : option (str * str) := split_once [c] s.

(** multipart.rs:125-131: without the quotes around it; a single quote makes the slice panic *)
Definition unquote (v : str) : res str :=
  if starts_with [34] v && ends_with [34] v
  then match v with
       | _ :: (_ :: _) as r => Ok (removelast (tl v))
       | _ => Panic "slice index starts at 1 but ends at 0"
       end
  else Ok v.
(** multipart.rs:116-135 *)
Fixpoint disposition_params (ps : list str) (acc : smap str) : res (smap str) :=
  match ps with
  | [] => Ok acc
  | p :: r =>
      match cut_char 61 (trim p) with
      | Some (k, v) => v <- unquote (trim v) ;; disposition_params r (minsert (trim k) v acc)
      | None => disposition_params r acc
      end
  end.
(** multipart.rs:107-138 *)
Definition parse_content_disposition (header : str) : res (smap str) :=
  match split_char 58 header with
  | _ :: v :: _ => disposition_params (split_char 59 (trim v)) []
  | _ => Err (err "Invalid Content-Disposition header")
  end.

Section Multipart.
  Context {X : Ext}.
  (** multipart.rs:66-88 *)
  Fixpoint field_headers (ls : list str) (name : str) (filename ctype : option str) : res (str * option str * option str) :=
    match ls with
    | [] => Ok (name, filename, ctype)
    | l :: r =>
        let l := trim l in
        if starts_with (lit "content-disposition:") (to_lowercase l)
        then params <- parse_content_disposition l ;;
             field_headers r (match mget (lit "name") params with Some n => n | None => name end) (mget (lit "filename") params) ctype
        else if starts_with (lit "content-type:") (to_lowercase l)
        then field_headers r name filename
               (Some (trim (match split_char 58 l with _ :: v :: _ => v | _ => lit "application/octet-stream" end)))
        else field_headers r name filename ctype
    end.
  (** multipart.rs:60-105 *)
  Definition parse_multipart_field (headers content : str) : res field :=
    '(name, filename, ctype) <- field_headers (lines headers) [] None None ;;
    match name with
    | [] => Err (err "Missing field name in multipart data")
    | _ => Ok (mkField name filename ctype (trim (trim_dashes content)))
    end.
  (** multipart.rs:39-56 *)
  Fixpoint parse_parts (boundary : str) (ps : list str) (acc : smap field) : res (smap field) :=
    match ps with
    | [] => Ok acc
    | p :: r =>
        let p := trim p in
        if starts_with (boundary ++ lit "--") p || match p with [] => true | _ => false end
        then parse_parts boundary r acc
        else match split_once [13; 10; 13; 10] p with
             | Some (h, c) => f <- parse_multipart_field h c ;; parse_parts boundary r (minsert (fd_name f) f acc)
             | None =>
                 match split_once [10; 10] p with
                 | Some (h, c) => f <- parse_multipart_field h c ;; parse_parts boundary r (minsert (fd_name f) f acc)
                 | None => parse_parts boundary r acc
                 end
             end
    end.
  (** multipart.rs:32-58 *)
  Definition parse_multipart_data (body boundary : str) : res (smap field) :=
    parse_parts boundary (tl (split_str (lit "--" ++ boundary) body)) [].
  (** multipart.rs:140-152 *)
  Fixpoint boundary_in (ps : list str) : option str :=
    match ps with
    | [] => None
    | p :: r => match strip_prefix (lit "boundary=") (trim p) with Some b => Some b | None => boundary_in r end
    end.
  Definition extract_boundary (content_type : str) : option str := boundary_in (split_char 59 content_type).
  (** multipart.rs:155-157 *)
  Definition is_multipart (content_type : str) : bool := starts_with (lit "multipart/form-data") (to_lowercase content_type).
End Multipart.
