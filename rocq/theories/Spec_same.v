(** Vocabulary for questions and answers that are the same. *)
From Coq Require Import String List ZArith NArith Bool Permutation.
From Verif Require Import Base F64 Utf8 Syntax Ext Json Registry Methods Core Evaluator Parser Api Lines Host HttpCache HttpServer HttpThreads Spec Spec_syntax Spec_text Spec_http Spec_command Spec_js Spec_json Spec_eval.
Import ListNotations.
Local Open Scope N_scope.

Section Same.
  Context {X : Ext} {H : Host}.
  (** no two arguments become variables of the same name *)
  Definition apart (a : option (list (str * json))) : Prop :=
    forall kvs before k j after k' name, a = Some kvs -> kvs = before ++ (k, j) :: after -> In k' (map fst (before ++ after)) -> sanitised k name -> ~ sanitised k' name.
  (** the expression does not ask for the JSON text of all arguments *)
  Definition by_name (expression : str) : Prop := forall e, parse expression = Ok e -> ~ In (lit "arguments") (variables e).
  (** the request with the number [i] of those that threads serve in any order asks
      for [t] and is given [answer], by a server whose functions stay as they are *)
  Record told (token admin : option str) (w : world) (evs : list event) (i : nat) (t : task) (answer : str) : Prop := {
    told_orders : orders;
    told_fresh : w_cache w = new_cache;
    told_kept : forall text, In (Arrive (inl text)) evs -> ~ is_reload text;
    told_keys : forall text t, In (Arrive (inl text)) evs -> wants text t -> t_arguments t = None -> unmistakable (t_expression t);
    told_asked : exists text, authorised token text /\ wants text t /\ answered (serving token admin w evs) i (inl text) answer
  }.
End Same.
(** the same result, but for the time it took *)
Definition but_for_time (j j' : json) : Prop :=
  j = j' \/ exists time time' rest, j = JObj ((lit "execution_time", time) :: rest) /\ j' = JObj ((lit "execution_time", time') :: rest).
(** the answers say the same: status, success, result and error *)
Definition same_answer {X : Ext} {H : Host} (a a' : str) : Prop :=
  exists status kvs kvs' r r', answers status a kvs /\ answers status a' kvs' /\ mget (lit "success") kvs = mget (lit "success") kvs' /\ mget (lit "error") kvs = mget (lit "error") kvs'
    /\ has_entry kvs "result" r /\ has_entry kvs' "result" r' /\ but_for_time r r'.

(** ** Examples *)
(** a computer on which maps are iterated over backwards *)
Definition backward_host : Host :=
  Build_Host (fun _ => []) (fun _ kvs => rev kvs) (fun _ => f_zero) (fun n => n) (fun _ => f_zero) (fun _ => lit "bad")
    (fun code _ => JsEngine.JsReturned (JsEngine.JsText (JsEngine.to_units code))) (fun _ => lit "not Unicode") [] [] [] [lit "srv"] (lit "hooks") (fun fs => fs) (fun _ => None) (fun _ => None) None None (fun _ => []).
Definition asking_sum (members : string) : str := to "POST /eval HTTP/1.1" ("{""expression"":"":a_1 + :b"",""arguments"":{" ++ members ++ "}}").
Definition asking_name : str := to "POST /eval HTTP/1.1" "{""expression"":"":a_b"",""arguments"":{""a-b"":1,""a_b"":2}}".
Definition asking_text : str := to "POST /eval HTTP/1.1" "{""expression"":"":arguments::String"",""arguments"":{""a"":1,""b"":2}}".
Definition asked_once (H : Host) (text : str) : server := @serving example_ext H None None (first_world []) (one_by_one 0 [text]).
