(** Every expressible tree has a written form. *)
From Coq Require Import String List ZArith NArith Bool Lia.
From Verif Require Import Base F64 Utf8 Syntax Lexer Parser Spec_syntax Spec_grammar Value_proofs Parse_proofs Written_proofs Sim_proofs Grammar_proofs
  Grammar_text_proofs.
Import ListNotations.

Definition level_ok (L : level) : Prop := match L with Binary k => k <= 6 | _ => True end.
Lemma lift_binary : forall d k ts e, reads (Binary k) ts e -> reads (Binary (d + k)) ts e.
Proof. induction d as [|d IH]; intros k ts e H; [assumption|]. cbn [plus]. apply reads_binary. now apply IH. Qed.
Lemma lift : forall L L' ts e, reads L ts e -> level_ok L -> level_ok L' -> rank L <= rank L' -> reads L' ts e.
Proof.
  assert (B : forall k L' ts e, reads (Binary k) ts e -> k <= 6 -> level_ok L' -> rank (Binary k) <= rank L' -> reads L' ts e).
  { intros k L' ts e H Hk Ho Hr. destruct L' as [| | |k'| |]; cbn [rank level_ok] in *; try lia.
    - replace k' with ((k' - k) + k) by lia. now apply lift_binary.
    - apply reads_condition. replace 6 with ((6 - k) + k) by lia. now apply lift_binary.
    - apply reads_whole, reads_condition. replace 6 with ((6 - k) + k) by lia. now apply lift_binary. }
  assert (C : forall L' ts e, reads Cast ts e -> level_ok L' -> rank Cast <= rank L' -> reads L' ts e).
  { intros L' ts e H Ho Hr. destruct L' as [| | |k'| |]; cbn [rank] in *; try lia; try assumption;
      (apply (B 0); [now apply reads_casted|lia|exact Ho|cbn; lia]). }
  intros L L' ts e H Ho Ho' Hr. destruct L as [| | |k| |].
  - destruct L' as [| | |k'| |]; cbn [rank] in *; try assumption; try (apply reads_atom; assumption);
      apply C; try assumption; try (apply reads_postfix, reads_atom; assumption); cbn; lia.
  - destruct L' as [| | |k'| |]; cbn [rank] in *; try lia; try assumption;
      apply C; try assumption; try (apply reads_postfix; assumption); cbn; lia.
  - now apply C.
  - now apply (B k).
  - destruct L' as [| | |k'| |]; cbn [rank level_ok] in *; try lia; try assumption. now apply reads_whole.
  - destruct L' as [| | |k'| |]; cbn [rank level_ok] in *; try lia; assumption.
Qed.
Definition says (p : level * list token) (e : expr) : Prop := reads (fst p) (snd p) e /\ level_ok (fst p).
Lemma says_whole : forall p e, says p e -> reads Whole (snd p) e.
Proof. intros [L ts] e [H Ho]. cbn [fst snd] in *. apply (lift L); try assumption; [exact I|]. destruct L; cbn in *; lia. Qed.
Lemma parens_atom : forall ts e, reads Whole ts e -> reads Atom (parens ts) e.
Proof. intros. now apply reads_parens. Qed.
Lemma fit_reads : forall L p e, says p e -> level_ok L -> reads L (fit L p) e.
Proof.
  intros L p e H Ho. unfold fit. destruct (Nat.leb_spec (rank (fst p)) (rank L)).
  - destruct H. now apply (lift (fst p)).
  - apply (lift Atom); [apply parens_atom; now apply says_whole|exact I|assumption|cbn; lia].
Qed.
Lemma index_reads : forall ts e, reads Whole ts e -> reads Whole (index_tokens ts) e /\ starts_with_colon (index_tokens ts) = false.
Proof.
  intros ts e H. unfold index_tokens. destruct (starts_with_colon ts) eqn:E; [|now split]. split; [|reflexivity].
  apply (lift Atom); [now apply parens_atom|exact I|exact I|cbn; lia].
Qed.
Lemma condition_reads : forall ts e, reads (Binary 6) ts e -> reads (Binary 6) (condition_tokens ts) e /\ ends_in_property (condition_tokens ts) = false.
Proof.
  intros ts e H. unfold condition_tokens. destruct (ends_in_property ts) eqn:E; [|now split]. split.
  - apply (lift Atom); [apply parens_atom; apply (lift (Binary 6)); try assumption; cbn; lia|exact I|cbn; lia|cbn; lia].
  - unfold parens, ends_in_property. change (TLParen :: ts ++ [TRParen]) with ((TLParen :: ts) ++ [TRParen]). now rewrite rev_app_distr.
Qed.

Definition PP (e : expr) : Prop := (expressible e -> says (print e) e) /\ (argument e -> reads_arg (snd (print e)) e).
Lemma sep_args : forall args, args <> [] -> Forall (fun a => reads_arg (snd (print a)) a) args -> reads_args1 (separate TComma (map snd (map print args))) args.
Proof.
  intros args Hn H. induction H as [|a args Ha H IH]; [contradiction|]. destruct args as [|b args].
  - cbn. now constructor.
  - change (separate TComma (map snd (map print (a :: b :: args)))) with (snd (print a) ++ TComma :: separate TComma (map snd (map print (b :: args)))).
    constructor; [assumption|]. apply IH. discriminate.
Qed.
Lemma args_read : forall args, Forall PP args -> Forall argument args -> reads_args (separate TComma (map snd (map print args))) args.
Proof.
  intros args H1 H2. destruct args as [|a args]; [constructor|]. constructor. apply sep_args; [discriminate|].
  rewrite Forall_forall in *. intros x Hx. apply H1; auto.
Qed.
Lemma items_read : forall es, es <> [] -> Forall PP es -> Forall expressible es -> reads_items (separate TComma (map snd (map print es))) es.
Proof.
  intros es Hn H1 H2. induction es as [|a es IH]; [contradiction|]. inversion H1; inversion H2; subst. destruct es as [|b es].
  - cbn. constructor. apply says_whole. now apply H3.
  - change (separate TComma (map snd (map print (a :: b :: es)))) with (snd (print a) ++ TComma :: separate TComma (map snd (map print (b :: es)))).
    constructor; [apply says_whole; now apply H3|]. apply IH; [discriminate|assumption|assumption].
Qed.
Lemma pairs_read : forall kvs, kvs <> [] -> Forall (fun kv => PP (snd kv)) kvs -> Forall expressible (map snd kvs) ->
  reads_pairs (separate TComma (map (fun kv => TString (fst kv) :: TColon :: snd (print (snd kv))) kvs)) kvs.
Proof.
  intros kvs Hn H1 H2. induction kvs as [|[k a] kvs IH]; [contradiction|]. inversion H1; inversion H2; subst. cbn [fst snd] in *.
  assert (A : reads Whole (snd (print a)) a) by (apply says_whole; now apply H3).
  destruct kvs as [|b kvs].
  - cbn. constructor; [constructor|assumption].
  - cbn [map separate fst snd] in *. cbn [app]. constructor; [constructor|assumption|]. apply IH; [discriminate|assumption|assumption].
Qed.
Lemma infix_token_table : forall op t k, infix_token op = (t, S k) -> In (t, op, S k) infix_operators /\ S k <= 6.
Proof. intros [] t k H; cbn in H; try discriminate; injection H as <- <-; (split; [cbn; tauto|lia]). Qed.
Lemma type_word_table : forall ty, exists k, In (k, ty) type_names /\ same_word (type_word ty) (lit k).
Proof. intros []; [exists "integer"%string|exists "float"%string|exists "string"%string|exists "boolean"%string|exists "array"%string|exists "currency"%string|exists "datetime"%string|exists "json"%string]; (split; [cbn; tauto|reflexivity]). Qed.
Lemma call_says : forall f args, Forall PP args -> Forall argument args -> map upper_ascii f = f ->
  says (call_tokens f (map print args)) (EFunctionCall f args).
Proof.
  intros f args H1 H2 U. pose proof (args_read args H1 H2) as R. unfold call_tokens. destruct args as [|a args].
  - cbn [map]. destruct (str_eqb_spec f (lit "__CONST_TRUE__")) as [->|_]; [split; [constructor|exact I]|].
    destruct (str_eqb_spec f (lit "__CONST_FALSE__")) as [->|_]; [split; [constructor|exact I]|]. split; [|exact I].
    cbn [fst snd]. rewrite <- U at 2. apply (reads_call f []). constructor.
  - cbn [map] in *. split; [|exact I]. cbn [fst snd]. rewrite <- U at 2. now apply reads_call.
Qed.
Lemma plain_arg : forall a, argument a -> is_spread a = false -> expressible a.
Proof. intros a [b H|b H] E; [assumption|discriminate]. Qed.
Lemma PP_of : forall e, is_spread e = false -> (expressible e -> says (print e) e) -> PP e.
Proof. intros e N H. split; [assumption|]. intros A. constructor. apply says_whole, H. now apply plain_arg. Qed.
Lemma array_says : forall es, Forall PP es -> Forall expressible es -> says (print (EArray es)) (EArray es).
Proof.
  intros es H1 H2. split; [|exact I]. cbn [print fst snd]. destruct es as [|a es]; [apply reads_empty_array|]. apply reads_array. apply items_read; [discriminate|assumption|assumption].
Qed.
Lemma object_says : forall kvs, Forall (fun kv => PP (snd kv)) kvs -> Forall expressible (map snd kvs) -> says (print (EObjectLiteral kvs)) (EObjectLiteral kvs).
Proof.
  intros kvs H1 H2. split; [|exact I]. cbn [print fst snd]. destruct kvs as [|a kvs]; [apply reads_empty_object|]. apply reads_object. apply pairs_read; [discriminate|assumption|assumption].
Qed.
Lemma print_says : forall e, PP e.
Proof.
  induction e using expr_ind'.
  all: try (apply PP_of; [reflexivity|]; intros Z; inversion Z; subst).
  - split; [constructor|exact I].
  - split; [constructor|exact I].
  - split; [constructor|exact I].
  - (* unary *) split; [|cbn; lia]. cbn [print fst snd]. apply (reads_prefix _ op); [destruct op; cbn; tauto|].
    apply fit_reads; [now apply (proj1 IHe)|cbn; lia].
  - (* binary *) cbn [print]. destruct (infix_token op) as [t [|k]] eqn:E.
    + assert (op = BPow /\ t = TCaret) as [-> ->] by (destruct op; try discriminate; injection E as <-; auto). split; [|cbn; lia]. cbn [fst snd].
      apply reads_power; (apply fit_reads; [|cbn; lia]); [now apply (proj1 IHe1)|now apply (proj1 IHe2)].
    + destruct (infix_token_table _ _ _ E) as [T K]. split; [|exact K]. cbn [fst snd].
      apply reads_infix; [assumption| |]; (apply fit_reads; [|cbn; lia]); [now apply (proj1 IHe1)|now apply (proj1 IHe2)].
  - split; [constructor|exact I].
  - split; [|exact I]. cbn [print fst snd]. apply reads_property. apply fit_reads; [now apply (proj1 IHe)|exact I].
  - split; [|exact I]. cbn [print fst snd]. apply reads_safe_property. apply fit_reads; [now apply (proj1 IHe)|exact I].
  - (* safe method *) split; [|exact I]. cbn [print fst snd]. match goal with U : map lower_ascii n = n |- _ => rewrite <- U at 2 end.
    apply reads_safe_method; [apply fit_reads; [now apply (proj1 IHe)|exact I]|now apply args_read].
  - (* call *) cbn [print]. destruct (str_eqb_spec n (lit "__TERNARY__")) as [->|_]; cbn [andb]; [|now apply call_says].
    destruct (existsb is_spread args) eqn:SP; cbn [negb]; [now apply call_says|].
    match goal with A : Forall argument args |- _ => rename A into HA end. rename H into HP.
    destruct args as [|c [|a [|b [|d args]]]]; try (apply (call_says (lit "__TERNARY__") _ HP HA); assumption).
    cbn [map]. cbn [existsb] in SP. apply orb_false_elim in SP as [S1 SP]. apply orb_false_elim in SP as [S2 SP]. apply orb_false_elim in SP as [S3 _].
    inversion HP as [|? ? P1 HP2]; subst. inversion HP2 as [|? ? P2 HP3]; subst. inversion HP3 as [|? ? P3 _]; subst.
    inversion HA as [|? ? A1 HA2]; subst. inversion HA2 as [|? ? A2 HA3]; subst. inversion HA3 as [|? ? A3 _]; subst.
    split; [|exact I]. cbn [fst snd ternary_tokens].
    destruct (condition_reads (fit (Binary 6) (print c)) c) as [C1 C2]. { apply fit_reads; [apply P1; now apply plain_arg|cbn; lia]. }
    apply reads_ternary; try assumption; apply says_whole; [apply P2|apply P3]; now apply plain_arg.
  - (* spread *) split; [intros Z; inversion Z|]. intros Z; inversion Z; subst.
    + match goal with K : expressible (ESpread _) |- _ => inversion K end.
    + cbn [print snd]. apply reads_spread. apply says_whole. now apply (proj1 IHe).
  - now apply array_says.
  - now apply object_says.
  - (* method *) destruct p.
    + assert (args = []) as -> by auto. split; [|exact I]. cbn [print fst snd]. match goal with U : map lower_ascii n = n |- _ => rewrite <- U at 2 end.
      apply reads_predicate. apply fit_reads; [now apply (proj1 IHe)|exact I].
    + split; [|exact I]. cbn [print fst snd]. match goal with U : map lower_ascii n = n |- _ => rewrite <- U at 2 end.
      apply reads_method; [apply fit_reads; [now apply (proj1 IHe)|exact I]|now apply args_read].
  - (* index *) split; [|exact I]. cbn [print fst snd]. destruct (index_reads (snd (print e2)) e2) as [A B]. { apply says_whole. now apply (proj1 IHe2). }
    apply reads_index; [apply fit_reads; [now apply (proj1 IHe1)|exact I]|assumption|assumption].
  - (* slice *) split; [|exact I]. cbn [print fst snd].
    assert (B1 : exists us, us = match s with Some b => index_tokens (snd (print b)) | None => [] end /\ reads_bound us s /\ starts_with_colon us = false).
    { eexists. split; [reflexivity|]. destruct s as [b|]; [|split; [constructor|reflexivity]].
      destruct (index_reads (snd (print b)) b) as [A B]. { apply says_whole. match goal with IH : forall x, Some b = Some x -> PP x |- _ => apply (proj1 (IH b eq_refl)) end. auto. }
      split; [now constructor|assumption]. }
    destruct B1 as (us & <- & B1 & NC).
    assert (B2 : reads_bound (match t with Some b => snd (print b) | None => [] end) t).
    { destruct t as [b|]; [|constructor]. constructor. apply says_whole. match goal with IH : forall x, Some b = Some x -> PP x |- _ => apply (proj1 (IH b eq_refl)) end. auto. }
    apply reads_slice; [apply fit_reads; [now apply (proj1 IHe)|exact I]|assumption|assumption|assumption].
  - (* cast *) split; [|exact I]. cbn [print fst snd]. destruct (type_word_table ty) as (k & T & W). apply (reads_cast _ _ _ k); try assumption.
    apply fit_reads; [now apply (proj1 IHe)|exact I].
  - split; [|exact I]. cbn [print fst snd]. apply reads_assignment. apply fit_reads; [now apply (proj1 IHe)|exact I].
Qed.

(** ** Spelling *)
Definition spellable (t : token) : Prop := exists s, spelled t s.
Lemma sym : forall t s, In (t, s) symbols -> spellable t.
Proof. intros t s H. exists (lit s). now constructor. Qed.
Ltac sy := match goal with |- spellable ?t => (eapply sym; cbn; repeat (first [left; reflexivity|right]); fail) end.
Lemma str_spell : forall s, valid_str s -> spellable (TString s).
Proof. intros s H. exists (34%N :: escape 34 s ++ [34%N]). apply spelled_string; [now left|]. apply escape_quoted; [now left|assumption]. Qed.
Lemma name_spell : forall s, name s -> spellable (TIdentifier s).
Proof. intros s H. exists s. now apply spelled_name. Qed.
Lemma word_name : forall s c r, s = c :: r -> letter c = true -> forallb word_char r = true ->
  str_eqb (map lower_ascii s) (lit "true") || str_eqb (map lower_ascii s) (lit "false") || str_eqb (map lower_ascii s) (lit "null") = false -> name s.
Proof.
  intros s c r -> L W K. split; [now exists c, r|]. apply orb_false_elim in K as [K K3]. apply orb_false_elim in K as [K1 K2].
  intros [H|[H|H]]; unfold same_word in H; [rewrite H in K1|rewrite H in K2|rewrite H in K3]; discriminate.
Qed.
Lemma type_word_name : forall ty, name (type_word ty).
Proof. intros []; eapply word_name; reflexivity. Qed.
Definition SP (ts : list token) : Prop := Forall spellable ts.
Lemma SP_parens : forall ts, SP ts -> SP (parens ts).
Proof. intros ts H. unfold parens. constructor; [sy|]. apply Forall_app. split; [assumption|]. constructor; [sy|constructor]. Qed.
Lemma SP_fit : forall L p, SP (snd p) -> SP (fit L p).
Proof. intros L p H. unfold fit. destruct (Nat.leb _ _); [assumption|now apply SP_parens]. Qed.
Lemma SP_sep : forall t l, spellable t -> Forall SP l -> SP (separate t l).
Proof.
  intros t l Ht H. induction H as [|x l Hx H IH]; [constructor|]. destruct l as [|y l]; [assumption|].
  change (separate t (x :: y :: l)) with (x ++ t :: separate t (y :: l)). apply Forall_app. split; [assumption|]. now constructor.
Qed.
Lemma SP_index : forall ts, SP ts -> SP (index_tokens ts).
Proof. intros ts H. unfold index_tokens. destruct (starts_with_colon ts); [now apply SP_parens|assumption]. Qed.
Lemma SP_cond : forall ts, SP ts -> SP (condition_tokens ts).
Proof. intros ts H. unfold condition_tokens. destruct (ends_in_property ts); [now apply SP_parens|assumption]. Qed.
Definition QQ (e : expr) : Prop := (expressible e -> SP (snd (print e))) /\ (argument e -> SP (snd (print e))).
Lemma QQ_of : forall e, is_spread e = false -> (expressible e -> SP (snd (print e))) -> QQ e.
Proof. intros e N H. split; [assumption|]. intros A. apply H. now apply plain_arg. Qed.
Lemma SP_args : forall args, Forall QQ args -> Forall argument args -> Forall SP (map snd (map print args)).
Proof. intros args H1 H2. induction H1 as [|a args Ha H1 IH]; [constructor|]. inversion H2; subst. cbn [map]. constructor; [now apply (proj2 Ha)|now apply IH]. Qed.
Lemma SP_items : forall args, Forall QQ args -> Forall expressible args -> Forall SP (map snd (map print args)).
Proof. intros args H1 H2. induction H1 as [|a args Ha H1 IH]; [constructor|]. inversion H2; subst. cbn [map]. constructor; [now apply (proj1 Ha)|now apply IH]. Qed.
Lemma SP_call : forall f args, name f -> Forall QQ args -> Forall argument args -> SP (snd (call_tokens f (map print args))).
Proof.
  intros f args Hf H1 H2. pose proof (SP_args args H1 H2) as R. unfold call_tokens. destruct args as [|a args]; cbn [map].
  - destruct (str_eqb f (lit "__CONST_TRUE__")); [constructor; [exists (lit "true"); now apply spelled_true|constructor]|].
    destruct (str_eqb f (lit "__CONST_FALSE__")); [constructor; [exists (lit "false"); now apply spelled_false|constructor]|].
    constructor; [now apply name_spell|]. constructor; [sy|]. constructor; [sy|constructor].
  - cbn [snd]. constructor; [now apply name_spell|]. constructor; [sy|]. apply Forall_app. split; [|constructor; [sy|constructor]]. apply SP_sep; [sy|exact R].
Qed.
Ltac spl := repeat match goal with
  | |- SP (_ :: _) => constructor
  | |- SP [] => constructor
  | |- Forall spellable (_ :: _) => constructor
  | |- Forall spellable [] => constructor
  | |- Forall spellable (_ ++ _) => apply Forall_app; split
  | |- SP (_ ++ _) => apply Forall_app; split
  | |- SP (fit _ _) => apply SP_fit
  | |- Forall spellable (fit _ _) => apply SP_fit
  | |- spellable (TIdentifier _) => apply name_spell; assumption
  | |- spellable _ => sy
  | |- Forall spellable (separate _ _) => apply SP_sep; [sy|]
  | |- SP (snd (print _)) => assumption || match goal with IH : QQ ?e |- SP (snd (print ?e)) => first [now apply (proj1 IH)|now apply (proj2 IH)] end
  | |- Forall spellable (snd (print _)) => match goal with IH : QQ ?e |- Forall spellable (snd (print ?e)) => first [now apply (proj1 IH)|now apply (proj2 IH)] end
  end.
Lemma infix_spell : forall op, spellable (fst (infix_token op)).
Proof. intros []; cbn [infix_token fst]; sy. Qed.
Lemma print_spellable : forall e, QQ e.
Proof.
  induction e using expr_ind'.
  all: try (apply QQ_of; [reflexivity|]; intros Z; inversion Z; subst).
  - constructor; [|constructor]. eexists. apply spelled_number. eassumption.
  - constructor; [|constructor]. now apply str_spell.
  - constructor; [|constructor]. exists (lit "null"). now apply spelled_null.
  - cbn [print snd]. constructor; [destruct op; cbn [prefix_token]; sy|]. spl.
  - cbn [print]. pose proof (infix_spell op) as K. destruct (infix_token op) as [t [|k]]; cbn [fst snd] in *; (apply Forall_app; split; [apply SP_fit; now apply (proj1 IHe1)|]; constructor; [assumption|]; apply SP_fit; now apply (proj1 IHe2)).
  - cbn [print snd]. spl.
  - cbn [print snd]. spl.
  - cbn [print snd]. spl.
  - cbn [print snd]. spl. now apply SP_args.
  - cbn [print]. match goal with A : Forall argument args |- _ => rename A into HA end. rename H into HP.
    destruct (str_eqb_spec n (lit "__TERNARY__")) as [->|_]; cbn [andb]; [|now apply SP_call].
    destruct (existsb is_spread args) eqn:SPR; cbn [negb]; [now apply SP_call|].
    match goal with A : name _ |- _ => rename A into HN end.
    destruct args as [|c [|a [|b [|d args]]]]; try (exact (SP_call (lit "__TERNARY__") _ HN HP HA)).
    cbn [map]. inversion HP as [|? ? P1 HP2]; subst. inversion HP2 as [|? ? P2 HP3]; subst. inversion HP3 as [|? ? P3 _]; subst.
    inversion HA as [|? ? A1 HA2]; subst. inversion HA2 as [|? ? A2 HA3]; subst. inversion HA3 as [|? ? A3 _]; subst.
    cbn [snd ternary_tokens]. apply Forall_app. split; [apply SP_cond; apply SP_fit; now apply (proj2 P1)|].
    constructor; [sy|]. apply Forall_app. split; [now apply (proj2 P2)|]. constructor; [sy|]. now apply (proj2 P3).
  - split; [intros Z; inversion Z|]. intros Z; inversion Z; subst; [match goal with K : expressible (ESpread _) |- _ => inversion K end|]. cbn [print snd]. spl.
  - cbn [print snd]. spl. now apply SP_items.
  - cbn [print snd]. constructor; [sy|]. apply Forall_app. split; [|spl]. apply SP_sep; [sy|].
    match goal with A : Forall (fun kv => valid_str (fst kv)) kvs, B : Forall expressible (map snd kvs) |- _ => revert A B end. revert H. clear.
    induction kvs as [|[k a] kvs IH]; intros H A B; [constructor|]. inversion H; inversion A; inversion B; subst. cbn [map fst snd] in *. constructor; [|now apply IH].
    constructor; [now apply str_spell|]. constructor; [sy|]. match goal with Q : QQ a |- _ => now apply (proj1 Q) end.
  - destruct p; cbn [print snd]; spl. now apply SP_args.
  - cbn [print snd]. apply Forall_app. split; [apply SP_fit; now apply (proj1 IHe1)|]. constructor; [sy|]. apply Forall_app. split; [apply SP_index; now apply (proj1 IHe2)|]. spl.
  - cbn [print snd]. apply Forall_app. split; [apply SP_fit; now apply (proj1 IHe)|]. constructor; [sy|]. apply Forall_app. split.
    + destruct s as [b|]; [|constructor]. apply SP_index. match goal with IH : forall x, Some b = Some x -> QQ x |- _ => apply (proj1 (IH b eq_refl)) end. auto.
    + constructor; [sy|]. apply Forall_app. split; [|spl]. destruct t as [b|]; [|constructor].
      match goal with IH : forall x, Some b = Some x -> QQ x |- _ => apply (proj1 (IH b eq_refl)) end. auto.
  - cbn [print snd]. apply Forall_app. split; [apply SP_fit; now apply (proj1 IHe)|]. constructor; [sy|]. constructor; [|constructor]. apply name_spell. apply type_word_name.
  - cbn [print snd]. constructor; [sy|]. constructor; [now apply name_spell|]. constructor; [sy|]. apply SP_fit. now apply (proj1 IHe).
Qed.

(** ** Programs and texts *)
Lemma more_read : forall es, Forall expressible es -> reads_more (flat_map (fun e => TSemicolon :: snd (print e)) es) es.
Proof.
  intros es H. induction H as [|e es He H IH]; [constructor|]. cbn [flat_map]. cbn [app]. constructor; [|assumption].
  apply says_whole. now apply print_says.
Qed.
Lemma separate_more : forall e es, separate TSemicolon (map snd (map print (e :: es))) = snd (print e) ++ flat_map (fun e => TSemicolon :: snd (print e)) es.
Proof.
  intros e es. revert e. induction es as [|a es IH]; intros e; [cbn; now rewrite app_nil_r|].
  change (separate TSemicolon (map snd (map print (e :: a :: es)))) with (snd (print e) ++ TSemicolon :: separate TSemicolon (map snd (map print (a :: es)))).
  rewrite IH. reflexivity.
Qed.
Lemma program_read : forall e, program e -> reads_program (snd (print e)) e.
Proof.
  intros e [H|(a & b & es & -> & H)].
  - rewrite <- (app_nil_r (snd (print e))). apply reads_one; [apply says_whole; now apply print_says|constructor].
  - change (snd (print (ESequence (a :: b :: es)))) with (separate TSemicolon (map snd (map print (a :: b :: es)))). rewrite separate_more.
    inversion H; subst. apply reads_many; [apply says_whole; now apply print_says|now apply more_read|discriminate].
Qed.
Lemma program_spellable : forall e, program e -> SP (snd (print e)).
Proof.
  intros e [H|(a & b & es & -> & H)]; [now apply (proj1 (print_spellable e))|].
  change (snd (print (ESequence (a :: b :: es)))) with (separate TSemicolon (map snd (map print (a :: b :: es)))). apply SP_sep; [sy|].
  apply SP_items; [|assumption]. apply Forall_forall. intros x _. apply print_spellable.
Qed.
Lemma printed_parses : forall e src, program e -> written (snd (print e)) src -> no_leading_eq src -> parse src = Ok e.
Proof. intros e src H W N. apply (sentence_parses (snd (print e))); try assumption. now apply program_read. Qed.
Lemma spaced : forall ts, SP ts -> exists src, written ts src /\ (src = [] \/ hd 0%N src = 32%N).
Proof.
  intros ts H. induction H as [|t ts (s & Hs) H (src & W & B)].
  - exists []. split; [constructor; constructor|now left].
  - exists (32%N :: s ++ src). split; [|now right]. change (32%N :: s ++ src) with ([32%N] ++ s ++ src). constructor; [constructor; [now left|constructor]|assumption|assumption|].
    unfold separated. destruct B as [->|B]; [now left|]. right. rewrite B. unfold glues. cbn. rewrite !andb_false_r. reflexivity.
Qed.
Lemma starter_not_eq : forall t s, starter t = true -> spelled t s -> hd 0%N s <> 61%N.
Proof.
  intros t s St H. inversion H; subst.
  - repeat (match goal with K : In _ _ |- _ => destruct K as [K|K] end); try (match goal with K : (_, _) = (_, _) |- _ => injection K as <- <- end; try discriminate St; discriminate). destruct H0.
  - destruct H0 as [(c & r & -> & L & _) _]. cbn. intros ->. discriminate.
  - intros E. destruct s as [|c s]; [discriminate|]. cbn in E. subst c. discriminate H0.
  - intros E. destruct s as [|c s]; [discriminate|]. cbn in E. subst c. discriminate H0.
  - intros E. destruct s as [|c s]; [discriminate|]. cbn in E. subst c. discriminate H0.
  - inversion H0 as [ds x [Hn Hd] _|ds fs x Hd [Hn Hf] _]; subst.
    + destruct s as [|c s]; [contradiction|]. cbn in *. intros ->. discriminate.
    + destruct ds as [|c ds]; cbn; [discriminate|]. cbn in Hd. intros ->. discriminate.
  - cbn. destruct H0 as [-> | ->]; discriminate.
Qed.
Lemma starter_no_leading : forall t ts src, starter t = true -> written (t :: ts) src -> no_leading_eq src.
Proof.
  intros t ts src St W. inversion W; subst. unfold no_leading_eq.
  rewrite trim_start_app.
  - destruct (spelled_head t s H2) as (c & r & -> & NS). cbn. rewrite NS. cbn [hd]. exact (starter_not_eq t (c :: r) St H2).
  - rewrite Forall_forall in *. intros x Hx. apply (blank_ws x). auto.
Qed.
Lemma program_starts : forall ts e, reads_program ts e -> exists t r, ts = t :: r /\ starter t = true.
Proof. intros ts e [us e0 vs R M|us e0 vs es R M _]; destruct (reads_start _ _ _ R) as (t & r & -> & St & _); cbn [app]; eauto. Qed.
Lemma every_program : forall e, program e -> exists src, written (snd (print e)) src /\ no_leading_eq src /\ parse src = Ok e.
Proof.
  intros e H. destruct (spaced _ (program_spellable e H)) as (src & W & _). pose proof (program_read e H) as R.
  destruct (program_starts _ _ R) as (t & r & E & St).
  assert (N : no_leading_eq src). { rewrite E in W. now apply (starter_no_leading t r). }
  exists src. split; [assumption|]. split; [assumption|]. now apply printed_parses.
Qed.
Lemma sentence_starts : forall ts e src, reads_program ts e -> written ts src -> no_leading_eq src.
Proof. intros ts e src R W. destruct (program_starts _ _ R) as (t & r & -> & St). now apply (starter_no_leading t r). Qed.
Lemma sentence_parses' : forall ts e src, reads_program ts e -> written ts src -> parse src = Ok e.
Proof. intros ts e src R W. apply (sentence_parses ts); try assumption. now apply (sentence_starts ts e). Qed.
