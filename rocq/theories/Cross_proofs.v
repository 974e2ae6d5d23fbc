(** Values that pass into JavaScript and out of it. *)
From Coq Require Import String List ZArith NArith Bool Lia.
From Verif Require Import Base F64 Utf8 Syntax Ext Registry Lines JsEngine Host JsPlugin Spec_cross Base_proofs Value_proofs.
Import ListNotations.
Local Open Scope N_scope.

Lemma js_ind' : forall P : js -> Prop, P JsUndefined -> P JsNull -> (forall b, P (JsBool b)) -> (forall n, P (JsNumber n)) -> (forall us, P (JsText us)) ->
  (forall xs, Forall P xs -> P (JsArray xs)) -> (forall s, P (JsObject s)) -> P JsLoop -> P JsOther -> forall j, P j.
Proof.
  intros P H1 H2 H3 H4 H5 H6 H7 H8 H9. fix F 1. intros [| |b|n|us|xs|s| |]; try solve [clear F; auto]. apply H6. induction xs as [|x xs IH]; constructor; [apply F|exact IH].
Qed.

(** ** 16-bit units *)
Lemma char_units_iff : forall c us, char_units c us <-> us = char_to_units c.
Proof.
  intros c us. unfold char_to_units. split.
  - intros [d L|hi lo L]; [now rewrite (proj2 (N.ltb_lt d 65536) L)|]. rewrite (proj2 (N.ltb_ge _ _)) by lia. replace (65536 + hi * 1024 + lo - 65536) with (lo + hi * 1024) by lia. rewrite N.div_add, N.mod_add by discriminate. rewrite N.div_small, N.mod_small by assumption. now rewrite N.add_0_l.
  - destruct (c <? 65536) eqn:E; intros ->; [constructor; now apply N.ltb_lt|]. apply N.ltb_ge in E. assert (D : c = 65536 + (c - 65536) / 1024 * 1024 + (c - 65536) mod 1024). { pose proof (N.div_mod (c - 65536) 1024 ltac:(discriminate)). lia. }
    rewrite D at 1. apply two_units. apply N.mod_lt. discriminate.
Qed.
Lemma utf16_iff : forall s us, utf16 s us <-> us = to_units s.
Proof.
  intros s us. unfold to_units. split.
  - intros (ps & F & ->). f_equal. induction F as [|c p s ps K F IH]; [reflexivity|]. cbn [map]. apply char_units_iff in K. congruence.
  - intros ->. exists (map char_to_units s). split; [|reflexivity]. induction s as [|c s IH]; constructor; [now apply char_units_iff|assumption].
Qed.
Lemma scalar_range : forall c, is_scalar c = true <-> c < 55296 \/ 57344 <= c < 1114112.
Proof. intros c. unfold is_scalar. rewrite orb_true_iff, andb_true_iff, ?N.ltb_lt, ?N.leb_le. lia. Qed.
Lemma units_back : forall s, valid_str s -> from_units (to_units s) = Some s.
Proof.
  intros s U. induction U as [|c s S U IH]; [reflexivity|]. unfold to_units in *. cbn [map concat]. apply scalar_range in S. unfold char_to_units at 1. destruct (c <? 65536) eqn:E.
  - apply N.ltb_lt in E. cbn [app from_units]. rewrite IH. replace ((55296 <=? c) && (c <=? 56319)) with false; [replace ((56320 <=? c) && (c <=? 57343)) with false; [now rewrite (proj2 (N.ltb_ge 65535 c)) by lia|]|]; symmetry; apply andb_false_iff; rewrite !N.leb_gt; lia.
  - apply N.ltb_ge in E. cbn [app from_units]. rewrite IH. pose proof (N.div_mod (c - 65536) 1024 ltac:(discriminate)) as D. pose proof (N.mod_lt (c - 65536) 1024 ltac:(discriminate)) as M. set (q := (c - 65536) / 1024) in *. set (m := (c - 65536) mod 1024) in *. assert (Q : q < 1024) by lia.
    replace ((55296 <=? 55296 + q) && (55296 + q <=? 56319)) with true by (symmetry; apply andb_true_iff; rewrite !N.leb_le; lia). replace ((56320 <=? 56320 + m) && (56320 + m <=? 57343)) with true by (symmetry; apply andb_true_iff; rewrite !N.leb_le; lia).
    f_equal. f_equal. lia.
Qed.
Lemma some_same : forall A (a b : A), Some a = Some b -> b = a.
Proof. intros A a b K. now injection K. Qed.
Lemma units_read : forall n us s, (length us <= n)%nat -> from_units us = Some s -> valid_str s /\ us = to_units s.
Proof.
  induction n as [|n IH]; intros us s L K; [destruct us; [|cbn in L; lia]; injection K as <-; split; [constructor|reflexivity]|].
  destruct us as [|u us]; [injection K as <-; split; [constructor|reflexivity]|]. cbn [from_units] in K. cbn [length] in L. destruct ((55296 <=? u) && (u <=? 56319)) eqn:Hi.
  - destruct us as [|v us]; [discriminate|]. destruct ((56320 <=? v) && (v <=? 57343)) eqn:Lo; [|discriminate]. destruct (from_units us) as [t|] eqn:R; [|discriminate]. apply some_same in K. subst s. apply IH in R as [V ->]; [|cbn [length] in L; lia].
    destruct (andb_prop _ _ Hi) as [H1 H2]. destruct (andb_prop _ _ Lo) as [L1 L2]. rewrite N.leb_le in H1, H2, L1, L2. clear Hi Lo. split; [constructor; [apply scalar_range; clear - H1 H2 L1 L2; lia|assumption]|].
    unfold to_units. cbn [map concat]. assert (C : char_units (65536 + (u - 55296) * 1024 + (v - 56320)) [u; v]). { replace u with (55296 + (u - 55296)) at 2 by lia. replace v with (56320 + (v - 56320)) at 2 by lia. apply two_units. lia. }
    apply char_units_iff in C. rewrite <- C. reflexivity.
  - destruct ((56320 <=? u) && (u <=? 57343) || (65535 <? u)) eqn:Lo; [discriminate|]. destruct (from_units us) as [t|] eqn:R; [|discriminate]. apply some_same in K. subst s. apply IH in R as [V ->]; [|lia]. rewrite orb_false_iff in Lo. destruct Lo as [Lo B]. rewrite N.ltb_ge in B.
    rewrite andb_false_iff in Hi, Lo. rewrite !N.leb_gt in Hi, Lo. split; [constructor; [apply scalar_range; lia|assumption]|]. unfold to_units. cbn [map concat]. unfold char_to_units at 2. now rewrite (proj2 (N.ltb_lt u 65536)) by lia.
Qed.
Lemma from_units_iff : forall us s, from_units us = Some s <-> valid_str s /\ utf16 s us.
Proof. intros us s. rewrite utf16_iff. split; [intros K; now apply (units_read (length us))|]. intros [V ->]. now apply units_back. Qed.

Section Crossing.
  Context {X : Ext} {H : Host}.
  (** ** Into JavaScript *)
  Lemma goes_in_iff : forall v j, goes_in v j <-> j = value_to_js v.
  Proof.
    induction v as [n|xs IH|b|s| |n|t|s] using value_ind'; intros j; cbn [value_to_js]; (split; [intros G; inversion G as [|? us U| | |vs js F| | |? us U]; subst; try reflexivity|intros ->; try constructor]).
    - f_equal. clear G. induction F as [|v j vs js G F IHF]; [reflexivity|]. inversion IH; subst. cbn [map]. f_equal; [now apply H2|now apply IHF].
    - induction IH as [|v vs IHv IH IHF]; constructor; [now apply IHv|assumption].
    - f_equal. now apply utf16_iff.
    - now apply utf16_iff.
    - f_equal. now apply utf16_iff.
    - now apply utf16_iff.
  Qed.
  Lemma arguments_in : forall vs args, Forall2 goes_in vs args <-> args = map value_to_js vs.
  Proof.
    intros vs args. split.
    - intros F. induction F as [|v j vs js G F IH]; [reflexivity|]. cbn [map]. apply goes_in_iff in G. congruence.
    - intros ->. induction vs as [|v vs IH]; constructor; [now apply goes_in_iff|assumption].
  Qed.

  (** ** Out of JavaScript *)
  Lemma comes_out_iff : forall j v, comes_out j v <-> js_to_value j = Ok v.
  Proof.
    induction j as [| |b|n|us|xs IH|s| |] using js_ind'; intros v; cbn [js_to_value]; try (split; [intros C; inversion C; subst; reflexivity|intros K; injection K as <-; constructor]).
    - destruct (from_units us) as [s|] eqn:E.
      + apply from_units_iff in E as [V U]. split; [intros C; inversion C as [| | | |s' ? V' U'| | | |]; subst|intros K; injection K as <-; now constructor]. pose proof (proj2 (from_units_iff us s) (conj V U)) as A. pose proof (proj2 (from_units_iff us s') (conj V' U')) as B. congruence.
      + split; [intros C; inversion C as [| | | |s' ? V' U'| | | |]; subst|discriminate]. pose proof (proj2 (from_units_iff us s') (conj V' U')) as B. congruence.
    - assert (G : forall vs, Forall2 comes_out xs vs <-> mapM js_to_value xs = Ok vs).
      { induction IH as [|x xs IHx IH IHF]; intros vs; cbn [mapM]; [split; [intros F; inversion F; reflexivity|intros K; injection K as <-; constructor]|]. split.
        - intros F. inversion F as [|? v' ? vs' C F']; subst. apply IHx in C. rewrite C. cbn [bind]. apply IHF in F'. now rewrite F'.
        - intros K. destruct (js_to_value x) as [v'| |] eqn:E; try discriminate. cbn [bind] in K. destruct (mapM js_to_value xs) as [vs'| |] eqn:E'; try discriminate. injection K as <-. constructor; [now apply IHx|now apply IHF]. }
      split.
      + intros C. inversion C as [| | | | |? vs F| | |]; subst. apply G in F. now rewrite F.
      + intros K. destruct (mapM js_to_value xs) as [vs| |] eqn:E; try discriminate. injection K as <-. constructor. now apply G.
    - destruct s as [us| |m].
      + destruct (from_units us) as [s|] eqn:E.
        * apply from_units_iff in E as [V U]. split; [intros C; inversion C as [| | | | | |s' ? V' U'| |]; subst|intros K; injection K as <-; now constructor]. pose proof (proj2 (from_units_iff us s) (conj V U)) as A. pose proof (proj2 (from_units_iff us s') (conj V' U')) as B. congruence.
        * split; [intros C; inversion C as [| | | | | |s' ? V' U'| |]; subst|discriminate]. pose proof (proj2 (from_units_iff us s') (conj V' U')) as B. congruence.
      + split; [intros C; inversion C; reflexivity|intros K; injection K as <-; constructor].
      + split; [intros C; inversion C|discriminate].
    - split; [intros C; inversion C|discriminate].
  Qed.
  Lemma out_panics : forall j x, js_to_value j = Panic x -> endless j.
  Proof.
    induction j as [| |b|n|us|xs IH|s| |] using js_ind'; intros x K; cbn [js_to_value] in K; try discriminate; [destruct (from_units us); discriminate| |destruct s as [us| |m]; try discriminate; destruct (from_units us); discriminate|constructor].
    assert (G : exists y, mapM js_to_value xs = Panic y) by (destruct (mapM js_to_value xs) as [| |y]; try discriminate; now exists y). clear K. destruct G as (y & G). assert (E : exists j, In j xs /\ endless j); [|destruct E as (j & I & E); exact (holds_endless j xs I E)].
    revert y G. induction IH as [|z xs IHx IH IHF]; intros y G; [discriminate|]. cbn [mapM] in G. destruct (js_to_value z) as [v| |p] eqn:E; try discriminate.
    - cbn [bind] in G. destruct (mapM js_to_value xs) as [| |p] eqn:E'; try discriminate. destruct (IHF p eq_refl) as (j & I & En). exists j. split; [now right|assumption].
    - exists z. split; [now left|now apply (IHx p)].
  Qed.

  (** ** Calls *)
  Lemma executed : forall code vs v, js_execute code vs = Ok v <-> js_gives code vs v.
  Proof.
    intros code vs v. unfold js_execute. split.
    - intros K. destruct (h_js code (map value_to_js vs)) as [m|m|m|r] eqn:E; try discriminate. exists (map value_to_js vs), r. split; [now apply arguments_in|]. split; [assumption|now apply comes_out_iff].
    - intros (args & r & A & E & C). apply arguments_in in A. subst args. rewrite E. now apply comes_out_iff.
  Qed.
  Lemma execute_panics : forall code vs x, js_execute code vs = Panic x -> exists args r, Forall2 goes_in vs args /\ h_js code args = JsReturned r /\ endless r.
  Proof.
    intros code vs x K. unfold js_execute in K. destruct (h_js code (map value_to_js vs)) as [m|m|m|r] eqn:E; try discriminate. exists (map value_to_js vs), r. split; [now apply arguments_in|]. split; [assumption|now apply (out_panics r x)].
  Qed.
  Lemma execute_returns : (forall code args r, h_js code args = JsReturned r -> ~ endless r) -> forall code vs x, js_execute code vs <> Panic x.
  Proof. intros R code vs x K. destruct (execute_panics code vs x K) as (args & r & _ & E & L). exact (R code args r E L). Qed.
  (** a function that returns one of its arguments *)
  Lemma back : forall v, unicode_value v -> forall w, js_to_value (value_to_js v) = Ok w <-> comes_back v w.
  Proof.
    induction v as [n|xs IH|b|s| |n|t|s] using value_ind'; intros U w; inversion U as [|? V| | |? F| | |? V]; subst; cbn [value_to_js js_to_value]; try (split; [intros K; injection K as <-; constructor|intros C; inversion C; reflexivity]).
    - assert (G : forall ws, mapM js_to_value (map value_to_js xs) = Ok ws <-> Forall2 comes_back xs ws).
      { clear U. induction IH as [|x xs IHx IH IHF]; intros ws; cbn [map mapM]; [split; [intros K; injection K as <-; constructor|intros F'; inversion F'; reflexivity]|]. inversion F; subst. split.
        - intros K. destruct (js_to_value (value_to_js x)) as [v'| |] eqn:E; try discriminate. cbn [bind] in K. destruct (mapM js_to_value (map value_to_js xs)) as [vs'| |] eqn:E'; try discriminate. injection K as <-. constructor; [now apply IHx|now apply IHF].
        - intros F'. inversion F' as [|? v' ? vs' C F'']; subst. apply IHx in C; [|assumption]. rewrite C. cbn [bind]. apply IHF in F''; [|assumption]. now rewrite F''. }
      split.
      + intros K. destruct (mapM js_to_value (map value_to_js xs)) as [vs| |] eqn:E; try discriminate. injection K as <-. constructor. now apply G.
      + intros C. inversion C as [| | | |? vs F'| | |]; subst. apply G in F'. now rewrite F'.
    - rewrite units_back by assumption. split; [intros K; injection K as <-; constructor|intros C; inversion C; reflexivity].
    - rewrite units_back by assumption. split; [intros K; injection K as <-; constructor|intros C; inversion C; reflexivity].
  Qed.
  Lemma some_back : forall v, exists w, comes_back v w.
  Proof.
    induction v as [n|xs IH|b|s| |n|t|s] using value_ind'; try solve [eexists; constructor]. assert (G : exists ws, Forall2 comes_back xs ws); [|destruct G as (ws & G); exists (VArray ws); now constructor].
    induction IH as [|x xs (w & W) IH (ws & IHF)]; [now exists []|]. exists (w :: ws). now constructor.
  Qed.
  Lemma returned : forall code vs i v args j, Forall unicode_value vs -> nth_error vs i = Some v -> Forall2 goes_in vs args -> nth_error args i = Some j -> h_js code args = JsReturned j ->
    exists w, js_execute code vs = Ok w /\ comes_back v w.
  Proof.
    intros code vs i v args j U Nv A Nj R. apply arguments_in in A. subst args. rewrite nth_error_map, Nv in Nj. cbn in Nj. injection Nj as <-. unfold js_execute. rewrite R. destruct (some_back v) as (w & W). exists w. split; [|assumption]. apply back; [|assumption].
    rewrite Forall_forall in U. apply U. now apply (nth_error_In vs i).
  Qed.
  Lemma plain_back : forall v w, plain_value v -> comes_back v w -> w = v.
  Proof.
    induction v as [n|xs IH|b|s| |n|t|s] using value_ind'; intros w P C; inversion P as [| | | |? F]; subst; inversion C as [| | | |? ws F'| | |]; subst; try reflexivity. f_equal. clear P C. induction F' as [|x y xs ws Cx F' IHF]; [reflexivity|]. inversion IH; subst. inversion F; subst. f_equal; [now apply H2|now apply IHF].
  Qed.
End Crossing.
