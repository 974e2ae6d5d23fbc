(** Vocabulary for uploads: a JSON object or a form, as browsers and curl send it. *)
From Coq Require Import String List ZArith NArith Bool.
From Verif Require Import Base Syntax Ext Json Struct Lines Host Spec Spec_syntax Spec_http Spec_json.
Import ListNotations.
Local Open Scope N_scope.

(** [part] occurs in [whole] *)
Definition occurs (part whole : str) : Prop := exists a b, whole = a ++ part ++ b.

(** ** Forms (multipart/form-data) *)
Record form_field := mkForm { ff_name : str; ff_file : option str; ff_type : option str; ff_content : str }.
Definition quoted (s : str) : str := [34] ++ s ++ [34].
Definition disposition (f : form_field) : str :=
  lit "Content-Disposition: form-data; name=" ++ quoted (ff_name f) ++ match ff_file f with Some n => lit "; filename=" ++ quoted n | None => [] end.
Definition part_lines (f : form_field) : list str := disposition f :: match ff_type f with Some t => [lit "Content-Type: " ++ t] | None => [] end.
Definition form_part (boundary : str) (f : form_field) : str := lit "--" ++ boundary ++ crlf ++ request (part_lines f) (ff_content f) ++ crlf.
Definition form_body (boundary : str) (fs : list form_field) : str := concat (map (form_part boundary) fs) ++ lit "--" ++ boundary ++ lit "--" ++ crlf.
(** a boundary without white space, colons and semicolons *)
Definition proper_boundary (b : str) : Prop := b <> [] /\ Forall (fun c => is_whitespace c = false /\ ~ In c [58; 59]) b.
(** names as they are sent: without line breaks, quotes, colons and semicolons *)
Definition plain_name (s : str) : Prop := Forall (fun c => ~ In c [10; 13; 34; 58; 59]) s.
(** contents the server keeps as they are *)
Definition tidy (s : str) : Prop := s <> [] /\ unspaced s /\ forall r, s <> r ++ lit "--".
Record proper_field (boundary : str) (f : form_field) : Prop := {
  proper_name : ff_name f <> [] /\ plain_name (ff_name f);
  proper_file : forall n, ff_file f = Some n -> plain_name n;
  proper_type : forall t, ff_type f = Some t -> t <> [] /\ unspaced t /\ plain_name t;
  proper_content : tidy (ff_content f);
  proper_unmarked : forall s, In s (ff_content f :: part_lines f) -> ~ occurs (lit "--" ++ boundary) s }.
Definition last_field (fs : list form_field) (name : string) (f : form_field) : Prop := last_value (map (fun f => (ff_name f, f)) fs) (lit name) f.
Definition no_field (fs : list form_field) (name : string) : Prop := ~ In (lit name) (map ff_name fs).

(** the Content-Type the request announces: the first such line, up to a colon *)
Inductive content_type (text : str) : option str -> Prop :=
| typed : forall before l after value rest ct, lines text = before ++ l :: after -> Forall (not_header "content-type") before -> is_header "content-type" l (value ++ rest) ->
    ~ In 58 value -> (rest = [] \/ hd 0 rest = 58) -> trimmed value ct -> content_type text (Some ct)
| untyped : Forall (not_header "content-type") (lines text) -> content_type text None.
Definition form_type (ct : str) : Prop := exists a r, ct = a ++ r /\ map lower_ascii a = lit "multipart/form-data".

(** the request brings [source] for the file [filename] *)
Inductive brings (text filename source : str) : Prop :=
| brings_json : forall ls body kvs o, text = request ls body -> Forall a_line ls -> ls <> [] -> content_type text o -> (forall ct, o = Some ct -> ~ form_type ct) ->
    struct_parse upload_names body = Some (JObj kvs) -> mget (lit "filename") kvs = Some (JStr filename) ->
    (mget (lit "js_code") kvs = Some (JStr source) /\ (In (mget (lit "file_content") kvs) [None; Some JNull] \/ exists s, mget (lit "file_content") kvs = Some (JStr s))
     \/ In (mget (lit "js_code") kvs) [None; Some JNull] /\ mget (lit "file_content") kvs = Some (JStr source)) ->
    brings text filename source
| brings_form : forall ls b fs f g, text = request ls (form_body b fs) -> Forall a_line ls -> ls <> [] -> content_type text (Some (lit "multipart/form-data; boundary=" ++ b)) ->
    proper_boundary b -> Forall (proper_field b) fs -> last_field fs "filename" f -> filename = ff_content f -> source = ff_content g ->
    (last_field fs "js_code" g \/ no_field fs "js_code" /\ last_field fs "file" g /\ exists n, ff_file g = Some n) ->
    brings text filename source.

(** ** Examples *)
Definition form_of (boundary_text boundary : str) (fs : list form_field) : str :=
  request [lit "POST /upload-js HTTP/1.1"; lit "Content-Type: multipart/form-data; boundary=" ++ boundary_text] (form_body boundary fs).
Definition double_form (code : str) : list form_field :=
  [mkForm (lit "filename") None None (lit "double.js"); mkForm (lit "js_code") (Some (lit "double.js")) (Some (lit "text/javascript")) code].
