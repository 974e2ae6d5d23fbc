(** Vocabulary for the same question put to the command [sk] and to the client of the server. *)
From Coq Require Import String List ZArith NArith Bool.
From Verif Require Import Base F64 F64Text Syntax Utf8 Ext Json Registry Core Methods Api Lines Host HttpServer Pretty Command LineServer Client ClientBench Spec Spec_syntax Spec_text Spec_json Spec_http Spec_command Spec_lines Spec_client.
Import ListNotations.
Local Open Scope N_scope.

(** the same words, for the client *)
Definition for_client (p : part) : client_part :=
  match p with UseJson text => SendJson text | AsJson => WantJson | Bind name text => Send name text end.

Section Agree.
  Context {X : Ext} {H : Host}.
  (** texts that both programs read as the same value: a text in quotes, the words true, false and null in small letters, a finite number, a text that looks like nothing else *)
  Inductive read_alike : str -> Prop :=
  | alike_quoted : forall s inner, in_quotes s inner -> read_alike s
  | alike_word : forall s, In s [lit "true"; lit "false"; lit "null"] -> read_alike s
  | alike_number : forall s x, float_text s x -> is_finite x = true -> read_alike s
  | alike_text : forall s, ~ lone_quote s -> (forall inner, ~ in_quotes s inner) -> (forall w, In w ["true"; "false"; "null"]%string -> ~ same_word s (lit w)) ->
      (forall inner, ~ in_brackets s inner) -> (forall x, ~ float_text s x) -> read_alike s.
  (** a description: how long it took, the result, its type *)
  Definition description (time : str) (result : json) (kind : string) : json :=
    JObj [(lit "execution_time", JStr (time ++ lit " ms")); (lit "result", result); (lit "type", JStr (lit kind))].
  (** both programs end with the same status and tell the same: descriptions of the same result and type, the same value in the two notations, or the same message *)
  Inductive tell_the_same (described_wanted : Prop) : outcome -> outcome -> Prop :=
  | same_description : forall result kind time1 time2 out, described_wanted -> json_text (description time1 result kind) out ->
      tell_the_same described_wanted (Exited 0 (out ++ [10]) []) (Exited 0 (json_pretty 0 (description time2 result kind) ++ [10]) [])
  | same_value : forall v j, ~ described_wanted -> simple_result v j -> tell_the_same described_wanted (Exited 0 (value_debug v ++ [10]) []) (Exited 0 (json_pretty 0 j ++ [10]) [])
  | same_message : forall msg, tell_the_same described_wanted (Exited 2 [] msg) (Exited 2 [] msg).
End Agree.
