(** Pretty-printed JSON reads back. *)
From Coq Require Import String List ZArith NArith Bool Lia Permutation.
From Verif Require Import Base F64 Syntax Ext Json Pretty Spec Spec_json Json_proofs Object_proofs Layout_proofs.
Import ListNotations.
Local Open Scope N_scope.

Section P.
  Context {X : Ext}.
  Lemma new_line_blank : forall n, blank (new_line n).
  Proof. intros n. constructor; [cbn; auto|]. apply Forall_forall. intros c Hc. apply repeat_spec in Hc. subst. cbn. auto. Qed.
  Lemma join_last : forall (sep : str) (f : list str) w, f <> [] -> join sep f ++ w = join sep (removelast f ++ [last f [] ++ w]).
  Proof. intros sep f w. induction f as [|a r IH]; [congruence|]. intros _. destruct r as [|b r'].
    - cbn. reflexivity.
    - specialize (IH ltac:(discriminate)).
      change (join sep (a :: b :: r')) with (a ++ sep ++ join sep (b :: r')). rewrite <- !app_assoc, IH.
      change (removelast (a :: b :: r')) with (a :: removelast (b :: r')). change (last (a :: b :: r') []) with (last (b :: r') []).
      cbn [app]. destruct (removelast (b :: r') ++ [last (b :: r') [] ++ w]) as [|c l] eqn:E.
      { destruct (removelast (b :: r')); discriminate. }
      reflexivity. Qed.
  Lemma forall2_last : forall A (R : A -> str -> Prop) (xs : list A) (f : A -> str) w, xs <> [] ->
    (forall x, In x xs -> R x (f x)) -> (forall x, In x xs -> R x (f x ++ w)) ->
    Forall2 R xs (removelast (map f xs) ++ [last (map f xs) [] ++ w]).
  Proof. intros A R xs f w. induction xs as [|a r IH]; [congruence|]. intros _ P Q. destruct r as [|b r'].
    - cbn. repeat constructor. apply Q. now left.
    - change (map f (a :: b :: r')) with (f a :: map f (b :: r')).
      replace (removelast (f a :: map f (b :: r'))) with (f a :: removelast (map f (b :: r'))) by reflexivity.
      replace (last (f a :: map f (b :: r')) []) with (last (map f (b :: r')) []) by reflexivity.
      cbn [app]. constructor; [apply P; now left|]. apply IH; [discriminate| |]; intros x Hx; [apply P|apply Q]; now right. Qed.

  Lemma pretty_text : forall j level, json_text j (json_pretty level j).
  Proof. induction j using json_ind'; intros level.
    - apply (atom_text JNull). cbn. tauto.
    - apply (atom_text (JBool b)). cbn. tauto.
    - apply (atom_text (JNum n)). cbn. tauto.
    - apply (atom_text (JStr s)). cbn. tauto.
    - destruct xs as [|a r]; [apply (no_elements_text []); constructor|]. remember (a :: r) as xs eqn:E.
      assert (N0 : xs <> []) by now subst.
      replace (json_pretty level (JArr xs)) with (91 :: join [44] (map (fun x => new_line (S level) ++ json_pretty (S level) x) xs) ++ new_line level ++ [93]) by now subst.
      rewrite app_assoc, join_last by (subst; discriminate).
      refine (array_text xs _ N0 _). apply forall2_last; [assumption| |]; intros x Hx; rewrite Forall_forall in H.
      + exists (new_line (S level)), (json_pretty (S level) x), []. rewrite app_nil_r. repeat split; [apply new_line_blank|constructor|now apply H].
      + exists (new_line (S level)), (json_pretty (S level) x), (new_line level). rewrite <- app_assoc. repeat split; [apply new_line_blank|apply new_line_blank|now apply H].
    - destruct kvs as [|a r]; [apply (no_members_text []); constructor|]. remember (a :: r) as kvs eqn:E.
      assert (N0 : kvs <> []) by now subst.
      set (f := fun kv : str * json => let '(k, v) := kv in new_line (S level) ++ json_quote k ++ 58 :: 32 :: json_pretty (S level) v).
      replace (json_pretty level (JObj kvs)) with (123 :: join [44] (map f kvs) ++ new_line level ++ [125]) by now subst.
      rewrite app_assoc, join_last by (subst; discriminate).
      refine (object_text kvs kvs _ N0 (Permutation_refl _) _). apply forall2_last; [assumption| |]; intros [k v] Hx; rewrite Forall_forall in H; specialize (H _ Hx); cbn [fst snd] in *.
      + exists (new_line (S level)), (json_quote k), [], [32], (json_pretty (S level) v), []. unfold f. cbn [app]. rewrite app_nil_r.
        split; [reflexivity|]. split; [apply quote_spelled|]. repeat split; [apply new_line_blank|constructor|repeat constructor; cbn; auto|constructor|apply H].
      + exists (new_line (S level)), (json_quote k), [], [32], (json_pretty (S level) v), (new_line level). unfold f. rewrite <- !app_assoc. cbn [app].
        split; [rewrite <- ?app_assoc; reflexivity|]. split; [apply quote_spelled|]. repeat split; [apply new_line_blank|constructor|repeat constructor; cbn; auto|apply new_line_blank|apply H]. Qed.

  Lemma pretty_read : forall j level w1 w2, document j -> (nesting j <= 127)%nat -> blank w1 -> blank w2 -> json_parse (w1 ++ json_pretty level j ++ w2) = Some j.
  Proof. intros. apply any_layout; auto. apply pretty_text. Qed.
End P.
