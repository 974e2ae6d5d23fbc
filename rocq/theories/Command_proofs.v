(** The command [sk]. *)
From Coq Require Import String List ZArith NArith Bool Lia.
From Verif Require Import Base F64 F64Text Syntax Utf8 Ext Json Registry Core Methods Api Lines Host HttpServer Pretty Command Spec Spec_syntax Spec_text Spec_json Spec_http Spec_command
  Base_proofs Text_proofs Cast_proofs Parse_proofs Json_proofs Object_proofs Layout_proofs Pretty_proofs HttpRead_proofs HttpAuth_proofs HttpCache_proofs.
Import ListNotations.
Local Open Scope N_scope.

(** ** Pieces of text *)
Lemma split_join : forall c s, exists items, split_char c s = items /\ items <> [] /\ s = join [c] items /\ Forall (fun i => ~ In c i) items.
Proof. intros c s. induction s as [|x s (items & E & Ne & J & F)].
  - exists [[]]. repeat split; [discriminate|repeat constructor; auto].
  - cbn [split_char]. rewrite E. destruct (N.eqb_spec x c) as [->|Nc].
    + exists ([] :: items). split; [reflexivity|]. split; [discriminate|]. split; [|constructor; [auto|assumption]]. destruct items; [congruence|]. rewrite J. reflexivity.
    + destruct items as [|h t]; [congruence|]. exists ((x :: h) :: t). split; [reflexivity|]. split; [discriminate|]. inversion F; subst. split.
      * destruct t; reflexivity.
      * constructor; [|assumption]. intros [K|K]; auto. Qed.
Lemma join_split_unique : forall c items, items <> [] -> Forall (fun i => ~ In c i) items -> split_char c (join [c] items) = items.
Proof. intros c items. induction items as [|i r IH]; [congruence|]. intros _ F. inversion F; subst. destruct r as [|j r'].
  - cbn. now apply split_char_none.
  - change (join [c] (i :: j :: r')) with (i ++ [c] ++ join [c] (j :: r')). cbn [app]. rewrite split_char_app by assumption. f_equal. apply IH; [discriminate|assumption]. Qed.
Lemma ends_with_iff : forall p s, ends_with p s = true <-> exists r, s = r ++ p.
Proof. intros p s. unfold ends_with. rewrite starts_with_spec. split; intros [r E].
  - exists (rev r). rewrite <- (rev_involutive s), E, rev_app_distr, rev_involutive. reflexivity.
  - exists (rev r). now rewrite E, rev_app_distr. Qed.
Lemma around_iff : forall a b s, starts_with [a] s && ends_with [b] s = true <-> (s = [a] /\ a = b) \/ exists inner, s = a :: inner ++ [b].
Proof. intros a b s. rewrite andb_true_iff, starts_with_spec, ends_with_iff. split.
  - intros [[r E] [r' E']]. cbn in E. destruct r' as [|x r'].
    + left. cbn in E'. rewrite E in E'. injection E' as -> ->. auto.
    + right. exists r'. rewrite E in E'. cbn in E'. injection E' as <- E'. now rewrite E, E'.
  - intros [[-> ->]|[inner ->]]; [split; [now exists []|now exists []]|]. split; [now exists (inner ++ [b])|now exists (a :: inner)]. Qed.
Lemma inner_is : forall a b (inner : str), removelast (tl (a :: inner ++ [b])) = inner.
Proof. intros. cbn [tl]. apply removelast_last. Qed.
Lemma lower_nil : forall `{X : Ext} b s, unicode X -> lower_from b s = [] -> s = [].
Proof. intros X b s U E. destruct s as [|c s]; [reflexivity|]. exfalso. cbn [lower_from] in E. apply app_eq_nil in E as [E _]. destruct (c =? 931); [discriminate|].
  unfold lower_char, is_ascii in E. destruct (N.ltb_spec c 128); [discriminate|]. destruct U as (U1 & U2 & U3). destruct (N.eq_dec c 304) as [->|]; [congruence|]. destruct (N.eq_dec c 8490) as [->|]; [congruence|]. now destruct (U3 c). Qed.
Lemma lower_word : forall `{X : Ext} p b s, unicode X -> Forall (fun c => c < 128 /\ c <> 107) p -> last p 0 <> 105 -> (lower_from b s = p <-> map lower_ascii s = p).
Proof. intros X p b s U F La. split.
  - intros E. assert (K : starts_with p (lower_from b s) = true) by (rewrite E; apply starts_with_spec; exists []; now rewrite app_nil_r).
    destruct (lower_starts p b s U F La K) as (q & r & -> & M).
    assert (Fa : Forall (fun c => c < 128) (map lower_ascii q)) by (rewrite M; eapply Forall_impl; [|exact F]; cbn; tauto).
    assert (A : exists b', lower_from b (q ++ r) = map lower_ascii q ++ lower_from b' r).
    { clear -Fa. revert b. induction q as [|c q IH]; intros b; [now exists b|]. cbn [map] in Fa. inversion Fa; subst. destruct (IH H2 (b ++ [c])) as [b' E]. exists b'. cbn [app lower_from map]. rewrite E.
      apply lower_lt in H1. destruct (N.eqb_spec c 931); [lia|]. unfold lower_char, is_ascii. destruct (N.ltb_spec c 128); [reflexivity|lia]. }
    destruct A as [b' A]. rewrite A, M in E. rewrite <- (app_nil_r p) in E at 2. apply app_inv_head in E. apply lower_nil in E; [|assumption]. subst r. now rewrite app_nil_r.
  - intros <-. assert (Fa : Forall (fun c => c < 128) (map lower_ascii s)) by (eapply Forall_impl; [|exact F]; cbn; tauto). clear F La. revert b. induction s as [|c s IH]; intros b; [reflexivity|]. cbn [map lower_from] in *. inversion Fa; subst. rewrite IH by assumption.
    apply lower_lt in H1. destruct (N.eqb_spec c 931); [lia|]. unfold lower_char, is_ascii. destruct (N.ltb_spec c 128); [reflexivity|lia]. Qed.
Lemma word_iff : forall `{X : Ext} w s, unicode X -> In w ["true"; "false"; "null"]%string -> (str_eqb (to_lowercase s) (lit w) = true <-> same_word s (lit w)).
Proof. intros X w s U I0. unfold same_word. rewrite str_eqb_eq. unfold to_lowercase. cbn in I0. destruct I0 as [<-|[<-|[<-|[]]]].
  all: rewrite lower_word; [vm_compute; tauto|assumption|repeat constructor; vm_compute; discriminate|vm_compute; discriminate]. Qed.
Lemma trim_white : forall s, trim s = [] <-> white s.
Proof. intros s. split.
  - intros E. destruct (trim_trimmed s) as (w1 & w2 & E1 & W1 & W2 & _). rewrite E in E1. rewrite E1. apply Forall_app; split; [assumption|]. now apply Forall_app; split; [constructor|].
  - intros W. symmetry. apply trimmed_iff. exists s, []. rewrite !app_nil_r. repeat split; auto; [constructor|discriminate|]. intros [|? ?] c K; discriminate. Qed.
Lemma trim_length : forall s, (length (trim s) <= length s)%nat.
Proof. intros s. destruct (trim_trimmed s) as (w1 & w2 & E & _). rewrite E at 2. rewrite !app_length. lia. Qed.
Lemma item_length : forall c s i, In i (split_char c s) -> (length i <= length s)%nat.
Proof. intros c s. induction s as [|x s IH]; intros i K; cbn [split_char] in K; [destruct K as [<-|[]]; auto|]. destruct (x =? c).
  - destruct K as [<-|K]; [cbn; lia|]. apply IH in K. cbn. lia.
  - destruct (split_char c s) as [|h t] eqn:E; [destruct K as [<-|[]]; cbn; lia|]. destruct K as [<-|K]; [specialize (IH h (or_introl eq_refl)); cbn; lia|]. specialize (IH i (or_intror K)). cbn. lia. Qed.
Lemma mapM_forall2 : forall A B (f : A -> res B) l r, mapM f l = Ok r <-> Forall2 (fun a b => f a = Ok b) l r.
Proof. intros A B f l. induction l as [|a l IH]; intros r; cbn [mapM].
  - split; [intros E; injection E as <-; constructor|now inversion 1].
  - split.
    + destruct (f a) eqn:E; cbn [bind]; [|discriminate..]. destruct (mapM f l) eqn:E2; cbn [bind]; [|discriminate..]. intros K. injection K as <-. constructor; [assumption|]. now apply IH.
    + inversion 1; subst. rewrite H2. cbn [bind]. apply IH in H4. now rewrite H4. Qed.
Lemma mapM_no_err : forall A B (f : A -> res B) l e, (forall a, In a l -> forall e, f a <> Err e) -> mapM f l <> Err e.
Proof. intros A B f l e. induction l as [|a l IH]; intros K; cbn [mapM]; [discriminate|]. destruct (f a) eqn:E; cbn [bind]; [|now apply K in E; [|left]|discriminate].
  destruct (mapM f l) eqn:E2; cbn [bind]; try discriminate. intros Q. injection Q as ->. apply IH; [|reflexivity]. intros b Hb. apply K. now right. Qed.
Lemma contains_61 : forall a, split_once [61] a = None <-> ~ In 61 a.
Proof. intros a. unfold split_once. destruct (find_str [61] a) as [i|] eqn:E.
  - split; [discriminate|]. intros K. apply find_str_some in E as (r & E & _). exfalso. apply K. rewrite E. apply in_or_app. right. apply in_or_app. left. now left.
  - split; [|auto]. intros _ K. apply in_split in K as (l1 & l2 & ->). apply (find_str_none _ _ l1 l2 E). reflexivity. Qed.
Lemma split_61 : forall a name text, split_once [61] a = Some (name, text) <-> ~ In 61 name /\ a = name ++ lit "=" ++ text.
Proof. intros a name text. split.
  - unfold split_once. destruct (find_str [61] a) as [i|] eqn:E; [|discriminate]. intros K. injection K as <- <-.
    pose proof E as E0. apply find_str_some in E0 as (r & Er & L).
    assert (T : skipn (i + 1) a = r). { rewrite Er at 1. rewrite skipn_app. rewrite firstn_length, Nat.min_l by assumption. replace (i + 1 - i)%nat with 1%nat by lia. rewrite skipn_all2 by (rewrite firstn_length; lia). reflexivity. }
    cbn [length]. rewrite T. split; [|exact Er]. intros K. apply in_split in K as (l1 & l2 & K).
    assert (Ea : a = l1 ++ [61] ++ (l2 ++ [61] ++ r)). { rewrite Er at 1. rewrite K. rewrite <- !app_assoc. reflexivity. }
    pose proof (find_str_first [61] a i l1 _ E Ea) as G. assert (length (firstn i a) = i) by (rewrite firstn_length; lia). rewrite K, app_length in H. cbn in H. lia.
  - intros [K ->]. change (lit "=") with [61]. unfold split_once. rewrite (find_str_is [61] _ name text eq_refl).
    + cbn [length]. f_equal. f_equal; [rewrite firstn_app, Nat.sub_diag, firstn_all; cbn; apply app_nil_r|]. rewrite skipn_app, skipn_all2 by lia. replace (length name + 1 - length name)%nat with 1%nat by lia. reflexivity.
    + intros a' b' E. destruct (Nat.le_gt_cases (length name) (length a')) as [|G]; [assumption|exfalso]. apply K.
      assert (E2 : firstn (length name) (a' ++ [61] ++ b') = name). { change (str) with (list N) in *. rewrite <- E, firstn_app, Nat.sub_diag, firstn_all. cbn. apply app_nil_r. }
      rewrite <- E2, firstn_app. apply in_or_app. right. destruct (length name - length a')%nat eqn:Q; [lia|]. now left. Qed.

(** ** The value of an argument *)
Section Values.
  Context {X : Ext}.
  Hypothesis U : unicode X.
  Lemma quote_iff : forall s, quoted_by 34 s || quoted_by 39 s = true <-> lone_quote s \/ exists inner, in_quotes s inner.
  Proof. intros s. unfold quoted_by. rewrite orb_true_iff, !around_iff. unfold lone_quote, in_quotes. split.
    - intros [[[-> _]|[i ->]]|[[-> _]|[i ->]]]; [left; now left|right; exists i; now left|left; now right|right; exists i; now right].
    - intros [[-> | ->]|[i [-> | ->]]]; [left; now left|right; now left|left; right; now exists i|right; right; now exists i]. Qed.
  Lemma bracket_iff : forall s, starts_with [91] s && ends_with [93] s = true <-> exists inner, in_brackets s inner.
  Proof. intros s. rewrite around_iff. unfold in_brackets. split; [intros [[_ K]|[i ->]]; [discriminate|now exists i]|intros [i ->]; right; now exists i]. Qed.
  Lemma quotes_inner : forall s inner, in_quotes s inner -> match s with _ :: _ :: _ => Ok (VString (removelast (tl s))) | _ => Panic "begin <= end (1 <= 0) when slicing" end = Ok (VString inner).
  Proof. intros s inner K. assert (G : forall q, match q :: inner ++ [q] with _ :: _ :: _ => Ok (VString (removelast (tl (q :: inner ++ [q])))) | _ => Panic "begin <= end (1 <= 0) when slicing" end = Ok (VString inner)).
    { intros q. destruct inner as [|c i]; [reflexivity|]. change (Ok (VString (removelast ((c :: i) ++ [q]))) = Ok (VString (c :: i))). now rewrite removelast_last. }
    destruct K as [-> | ->]; [apply (G 34)|apply (G 39)]. Qed.
  Lemma brackets_inner : forall s inner, in_brackets s inner -> removelast (tl s) = inner.
  Proof. intros s inner ->. apply removelast_last. Qed.
  Lemma not_word_quoted : forall s w, In w ["true"; "false"; "null"]%string -> same_word s (lit w) -> quoted_by 34 s || quoted_by 39 s = false /\ starts_with [91] s && ends_with [93] s = false.
  Proof. intros s w I0 E. assert (Hd : exists c r, s = c :: r /\ lower_ascii c <> 34 /\ lower_ascii c <> 39 /\ lower_ascii c <> 91).
    { unfold same_word in E. destruct s as [|c r]; cbn in I0; destruct I0 as [<-|[<-|[<-|[]]]]; try discriminate; exists c, r; cbn in E; injection E as E _; rewrite E; repeat split; discriminate. }
    destruct Hd as (c & r & -> & A & B & C). split; apply not_true_iff_false; intros K.
    - apply quote_iff in K. destruct K as [[K|K]|[i [K|K]]]; injection K as -> _; vm_compute in A, B; congruence.
    - apply bracket_iff in K as [i K]. injection K as -> _. vm_compute in C. congruence. Qed.
  Lemma not_number_word : forall s x w, In w ["true"; "false"; "null"]%string -> float_text s x -> ~ same_word s (lit w).
  Proof. intros s x w I0 F E. assert (K : f_from_str s = Some x) by now apply float_text_iff. clear F.
    assert (Hd : exists c r, s = c :: r /\ In (lower_ascii c) [116; 102; 110] /\ map lower_ascii s = map lower_ascii (lit w)).
    { unfold same_word in E. destruct s as [|c r]; cbn in I0; destruct I0 as [<-|[<-|[<-|[]]]]; try discriminate; exists c, r; split; auto; split; auto; cbn in E; injection E as E _; rewrite E; cbn; auto. }
    destruct Hd as (c & r & -> & Hc & M). apply float_text_iff in K. inversion K as [sg neg w0 Sg W|sg neg w0 Sg W|sg neg m a b ex e y Sg Ma Ex Dx]; subst.
    - destruct Sg; cbn [app lit] in *.
      + subst w0. unfold same_word in W. rewrite M in W. cbn in I0. destruct I0 as [<-|[<-|[<-|[]]]]; vm_compute in W; destruct W; discriminate.
      + injection H as <- _; vm_compute in Hc; intuition discriminate.
      + injection H as <- _; vm_compute in Hc; intuition discriminate.
    - destruct Sg; cbn [app lit] in *.
      + subst w0. unfold same_word in W. rewrite M in W. cbn in I0. destruct I0 as [<-|[<-|[<-|[]]]]; vm_compute in W; discriminate.
      + injection H as <- _; vm_compute in Hc; intuition discriminate.
      + injection H as <- _; vm_compute in Hc; intuition discriminate.
    - assert (Dg : is_digit c = true \/ c = 43 \/ c = 45 \/ c = 46).
      { destruct Sg; cbn [app lit] in H; [|injection H as <- _; auto|injection H as <- _; auto]. destruct Ma as [ds D|a0 b0 A B Ne].
        - destruct D as [Ne D]. destruct ds as [|y ds]; [congruence|]. injection H as -> _. cbn in D. apply andb_true_iff in D as [D _]. auto.
        - destruct a0 as [|y a0]; [injection H as <- _; auto|]. injection H as -> _. unfold all_digits in A. cbn in A. apply andb_true_iff in A as [A _]. auto. }
      assert (lower_ascii c = c /\ c < 58). { destruct Dg as [D|[-> |[-> | ->]]]; [|split; [reflexivity|lia]..]. unfold is_digit in D. apply andb_true_iff in D as [D1 D2]. apply N.leb_le in D1, D2. split; [|lia]. unfold lower_ascii, is_upper_ascii. destruct (N.leb_spec 65 c); [lia|reflexivity]. }
      destruct H0 as [Hl Hs]. rewrite Hl in Hc. cbn in Hc. lia. Qed.
  Lemma float_head : forall s x, float_text s x -> exists c r, s = c :: r /\ (is_digit c = true \/ In c [43; 45; 46] \/ In (lower_ascii c) [105; 110]).
  Proof. intros s x F. destruct F as [sg neg w Sg W|sg neg w Sg W|sg neg m a b ex e nx Sg Ma Ex Dx].
    - destruct Sg; cbn [app lit]; [|eexists _, _; split; [reflexivity|]; cbn; auto..]. destruct w as [|c w]; [destruct W; discriminate|]. exists c, w. split; [reflexivity|]. right. right. destruct W as [W|W]; unfold same_word in W; cbn in W; injection W as W _; cbn; auto.
    - destruct Sg; cbn [app lit]; [|eexists _, _; split; [reflexivity|]; cbn; auto..]. destruct w as [|c w]; [discriminate|]. exists c, w. split; [reflexivity|]. right. right. unfold same_word in W; cbn in W; injection W as W _; cbn; auto.
    - destruct Sg; cbn [app lit]; [|eexists _, _; split; [reflexivity|]; cbn; auto..]. destruct Ma as [ds D|a0 b0 A B Ne].
      + destruct D as [Ne D]. destruct ds as [|y ds]; [congruence|]. exists y, (ds ++ ex). split; [reflexivity|]. cbn in D. apply andb_true_iff in D as [D _]. auto.
      + destruct a0 as [|y a0]; [eexists _, _; split; [reflexivity|]; right; left; cbn; auto|]. eexists _, _; split; [reflexivity|]. unfold all_digits in A. cbn in A. apply andb_true_iff in A as [A _]. auto. Qed.
  Lemma not_number_around : forall s x, float_text s x -> quoted_by 34 s || quoted_by 39 s = false /\ starts_with [91] s && ends_with [93] s = false.
  Proof. intros s x F. apply float_head in F as (c & r & -> & F). split; apply not_true_iff_false; intros K.
    - apply quote_iff in K. destruct K as [[K|K]|[i [K|K]]]; injection K as -> _; vm_compute in F; intuition discriminate.
    - apply bracket_iff in K as [i K]. injection K as -> _. vm_compute in F; intuition discriminate. Qed.
  Lemma word_false : forall s w, In w ["true"; "false"; "null"]%string -> ~ same_word s (lit w) -> str_eqb (to_lowercase s) (lit w) = false.
  Proof. intros s w I0 K. apply not_true_iff_false. intros E. apply K. now apply word_iff. Qed.
  Lemma words_differ : forall s w w', In w ["true"; "false"; "null"]%string -> In w' ["true"; "false"; "null"]%string -> w <> w' -> same_word s (lit w) -> ~ same_word s (lit w').
  Proof. intros s w w' I0 I1 Ne E E'. unfold same_word in *. rewrite E in E'. cbn in I0, I1. destruct I0 as [<-|[<-|[<-|[]]]], I1 as [<-|[<-|[<-|[]]]]; try congruence; discriminate. Qed.

  Lemma value_sound : forall k s v, parse_value_fuel k s = Ok v -> argument_value s v.
  Proof. induction k as [|k IH]; intros s v E; [discriminate|]. cbn [parse_value_fuel] in E. destruct (quoted_by 34 s || quoted_by 39 s) eqn:Q.
    { apply quote_iff in Q as [[-> | ->]|[inner Q]]; try discriminate. rewrite (quotes_inner s inner Q) in E. injection E as <-. now apply quoted_argument. }
    cbv zeta in E. destruct (str_eqb (to_lowercase s) (lit "true")) eqn:W1; [injection E as <-; apply true_argument; apply word_iff; cbn; auto|].
    destruct (str_eqb (to_lowercase s) (lit "false")) eqn:W2; [injection E as <-; apply false_argument; apply word_iff; cbn; auto|].
    destruct (str_eqb (to_lowercase s) (lit "null")) eqn:W3; [injection E as <-; apply null_argument; apply word_iff; cbn; auto|].
    destruct (starts_with [91] s && ends_with [93] s) eqn:B.
    - apply bracket_iff in B as [inner B]. rewrite (brackets_inner s inner B) in E. destruct (trim inner) as [|t0 t] eqn:T.
      + injection E as <-. apply empty_argument with inner; [assumption|]. now apply trim_white.
      + assert (Nw : ~ white inner) by (rewrite <- trim_white; congruence). clear t0 t T.
        destruct (mapM _ _) as [vs| |] eqn:M; cbn [bind] in E; [|discriminate..]. injection E as <-. apply mapM_forall2 in M.
        destruct (split_join 44 inner) as (items & Ei & Ne & J & F). rewrite Ei in M.
        apply array_argument with inner items (map trim items); auto.
        * clear. induction items; constructor; auto. apply trim_trimmed.
        * clear -M IH. induction M; constructor; auto.
    - destruct (f_from_str s) as [x|] eqn:F; injection E as <-; [apply number_argument; now apply float_text_iff|]. apply text_argument.
      + intros K. rewrite (proj2 (quote_iff s)) in Q; [discriminate|now left].
      + intros inner K. rewrite (proj2 (quote_iff s)) in Q; [discriminate|right; now exists inner].
      + intros w I0 K. pose proof (proj2 (word_iff w s U I0) K) as K'. cbn in I0. destruct I0 as [<-|[<-|[<-|[]]]]; congruence.
      + intros inner K. rewrite (proj2 (bracket_iff s)) in B; [discriminate|now exists inner].
      + intros x K. apply float_text_iff in K. congruence. Qed.
  Lemma value_complete : forall k s v, (length s < k)%nat -> argument_value s v -> parse_value_fuel k s = Ok v.
  Proof. induction k as [|k IH]; intros s v L A; [lia|]. cbn [parse_value_fuel]. destruct A as [s inner Q|s W|s W|s W|s inner B Wh|s inner items cores vs B Wh J F T V|s x F|s L0 Q W B F].
    - rewrite (proj2 (quote_iff s)) by (right; now exists inner). now rewrite (quotes_inner s inner Q).
    - destruct (not_word_quoted s "true" ltac:(cbn; auto) W) as [-> _]. cbv zeta. rewrite (proj2 (word_iff "true" s U ltac:(cbn; auto)) W). reflexivity.
    - destruct (not_word_quoted s "false" ltac:(cbn; auto) W) as [-> _]. cbv zeta. rewrite (word_false s "true") by first [now cbn; auto | now apply (words_differ s "false"); cbn; auto]. rewrite (proj2 (word_iff "false" s U ltac:(cbn; auto)) W). reflexivity.
    - destruct (not_word_quoted s "null" ltac:(cbn; auto) W) as [-> _]. cbv zeta. rewrite (word_false s "true") by first [now cbn; auto | now apply (words_differ s "null"); cbn; auto]. rewrite (word_false s "false") by first [now cbn; auto | now apply (words_differ s "null"); cbn; auto]. rewrite (proj2 (word_iff "null" s U ltac:(cbn; auto)) W). reflexivity.
    - pose proof (proj2 (bracket_iff s) (ex_intro _ inner B)) as Bt. rewrite Bt.
      destruct (quoted_by 34 s || quoted_by 39 s) eqn:Q. { exfalso. apply quote_iff in Q. rewrite B in Q. destruct Q as [[Q|Q]|[i [Q|Q]]]; discriminate. }
      cbv zeta. assert (NW : forall w, In w ["true"; "false"; "null"]%string -> str_eqb (to_lowercase s) (lit w) = false). { intros w I0. apply word_false; [assumption|]. intros K. apply (not_word_quoted s w) in K as [_ K]; [|assumption]. congruence. }
      rewrite (NW "true"%string), (NW "false"%string), (NW "null"%string) by (cbn; auto). rewrite (brackets_inner s inner B), (proj2 (trim_white inner) Wh). reflexivity.
    - pose proof (proj2 (bracket_iff s) (ex_intro _ inner B)) as Bt. rewrite Bt.
      destruct (quoted_by 34 s || quoted_by 39 s) eqn:Q. { exfalso. apply quote_iff in Q. rewrite B in Q. destruct Q as [[Q|Q]|[i [Q|Q]]]; discriminate. }
      cbv zeta. assert (NW : forall w, In w ["true"; "false"; "null"]%string -> str_eqb (to_lowercase s) (lit w) = false). { intros w I0. apply word_false; [assumption|]. intros K. apply (not_word_quoted s w) in K as [_ K]; [|assumption]. congruence. }
      rewrite (NW "true"%string), (NW "false"%string), (NW "null"%string) by (cbn; auto). rewrite (brackets_inner s inner B).
      destruct (trim inner) as [|t0 t] eqn:Tr; [exfalso; apply Wh; now apply trim_white|]. clear t0 t Tr.
      assert (Ei : split_char 44 inner = items). { rewrite J. apply join_split_unique; [|assumption]. intros ->. apply Wh. rewrite J. constructor. }
      rewrite Ei. replace (mapM (fun item => parse_value_fuel k (trim item)) items) with (Ok vs); [reflexivity|]. symmetry. apply mapM_forall2.
      assert (Li : Forall (fun i => (length i <= length inner)%nat) items). { apply Forall_forall. intros i I0. rewrite <- Ei in I0. now apply item_length in I0. }
      assert (Ls : (length inner < k)%nat). { rewrite B in L. change (lit "[") with [91] in L. change (lit "]") with [93] in L. rewrite !app_length in L. cbn in L. lia. }
      clear -IH T V Li Ls. revert vs V. induction T as [|i c items cores T1 T IHT]; intros vs V; inversion V; subst; constructor.
      + inversion Li; subst. apply trimmed_iff in T1. subst c. apply IH; [|assumption]. pose proof (trim_length i). unfold str in *. lia.
      + inversion Li; subst. auto.
    - destruct (not_number_around s x F) as [-> ->]. cbv zeta. assert (NW : forall w, In w ["true"; "false"; "null"]%string -> str_eqb (to_lowercase s) (lit w) = false). { intros w I0. apply word_false; [assumption|]. now apply not_number_word with x. }
      rewrite (NW "true"%string), (NW "false"%string), (NW "null"%string) by (cbn; auto). apply float_text_iff in F. now rewrite F.
    - destruct (quoted_by 34 s || quoted_by 39 s) eqn:Qt. { exfalso. apply quote_iff in Qt as [K|[i K]]; [tauto|now apply Q in K]. } cbv zeta.
      assert (NW : forall w, In w ["true"; "false"; "null"]%string -> str_eqb (to_lowercase s) (lit w) = false) by (intros w I0; apply word_false; auto). rewrite (NW "true"%string), (NW "false"%string), (NW "null"%string) by (cbn; auto). destruct (starts_with [91] s && ends_with [93] s) eqn:Bt; [apply bracket_iff in Bt as [i K]; now apply B in K|].
      destruct (f_from_str s) as [x|] eqn:Fs; [apply float_text_iff in Fs; now apply F in Fs|reflexivity]. Qed.
  Lemma value_iff : forall s v, parse_value s = Ok v <-> argument_value s v.
  Proof. intros s v. unfold parse_value. split; [apply value_sound|]. apply value_complete. lia. Qed.
  Lemma one_value : forall s v v', argument_value s v -> argument_value s v' -> v = v'.
  Proof. intros s v v' A B. apply value_iff in A, B. congruence. Qed.
  Lemma value_no_err : forall k s e, parse_value_fuel k s <> Err e.
  Proof. induction k as [|k IH]; intros s e; cbn [parse_value_fuel]; [discriminate|]. destruct (_ || _); [destruct s as [|? [|? ?]]; discriminate|]. cbv zeta. repeat (destruct (str_eqb _ _); [discriminate|]).
    destruct (_ && _); [|destruct (f_from_str s); discriminate]. destruct (trim _); [discriminate|]. destruct (mapM _ _) eqn:M; cbn [bind]; try discriminate. exfalso. revert M. apply mapM_no_err. intros a _. apply IH. Qed.
  Lemma value_panics : forall s, (forall v, ~ argument_value s v) -> exists p, parse_value s = Panic p.
  Proof. intros s K. destruct (parse_value s) as [v|e|p] eqn:E; [apply value_iff in E; now apply K in E|now apply value_no_err in E|now exists p]. Qed.
End Values.

(** ** Options *)
Section Options.
  Context {X : Ext}.
  Hypothesis U : unicode X.
  Lemma bind_word : forall name text, str_eqb (name ++ lit "=" ++ text) (lit "--json") = false /\ str_eqb (name ++ lit "=" ++ text) (lit "--output-json") = false.
  Proof. intros name text. split; apply not_true_iff_false; intros K; apply str_eqb_eq in K; assert (I0 : In 61 (name ++ lit "=" ++ text)) by (apply in_or_app; right; now left); rewrite K in I0; cbn in I0; intuition discriminate. Qed.
  Fixpoint taken (ps : list part) (o : options) (vs : list value) : options :=
    match ps with
    | [] => o
    | UseJson t :: r => taken r (mkOptions (Some t) (o_output o) (o_vars o)) vs
    | AsJson :: r => taken r (mkOptions (o_json o) true (o_vars o)) vs
    | Bind n _ :: r => match vs with v :: vs => taken r (mkOptions (o_json o) (o_output o) (minsert n v (o_vars o))) vs | [] => o end
    end.
  Lemma options_read : forall ps o vs, Forall proper ps -> Forall2 (fun b v => argument_value (snd b) v) (bindings ps) vs -> read_options (concat (map words ps)) o = Ok (taken ps o vs).
  Proof. induction ps as [|p ps IH]; intros o vs F V; [reflexivity|]. inversion F; subst. destruct p as [t| |n t]; cbn [map concat words app].
    - cbn [read_options]. rewrite str_eqb_refl. cbn [taken]. now apply IH.
    - cbn [read_options taken]. change (str_eqb (lit "--output-json") (lit "--json")) with false. rewrite str_eqb_refl. now apply IH.
    - cbn [bindings flat_map app] in V. inversion V as [|? v ? vs' V1 V2]; subst. cbn [read_options taken]. destruct (bind_word n t) as [-> ->]. cbn [snd] in V1.
      rewrite (proj2 (split_61 _ n t)) by (split; [assumption|reflexivity]). apply (value_iff U) in V1. rewrite V1. cbn [bind]. now apply IH. Qed.
  Lemma taken_json : forall ps o vs, length vs = length (bindings ps) -> o_json (taken ps o vs) = fold_left (fun j p => match p with UseJson text => Some text | _ => j end) ps (o_json o).
  Proof. induction ps as [|[t| |n t] ps IH]; intros o vs L; cbn [taken fold_left]; [reflexivity|now rewrite IH|now rewrite IH|]. destruct vs as [|v vs]; [discriminate|]. injection L as L. now rewrite IH. Qed.
  Lemma taken_output : forall ps o vs, length vs = length (bindings ps) -> (o_output (taken ps o vs) = true <-> o_output o = true \/ as_json ps).
  Proof. unfold as_json. induction ps as [|[t| |n t] ps IH]; intros o vs L; cbn [taken In].
    - tauto.
    - rewrite IH by assumption. cbn. intuition discriminate.
    - rewrite IH by assumption. cbn. intuition.
    - destruct vs as [|v vs]; [discriminate|]. injection L as L. rewrite IH by assumption. cbn. intuition discriminate. Qed.
  Lemma taken_vars : forall ps o vs, length vs = length (bindings ps) -> o_vars (taken ps o vs) = fold_left (fun m nv => minsert (fst nv) (snd nv) m) (combine (map fst (bindings ps)) vs) (o_vars o).
  Proof. induction ps as [|[t| |n t] ps IH]; intros o vs L; cbn [taken bindings flat_map app map combine fold_left]; [reflexivity|exact (IH (mkOptions (Some t) (o_output o) (o_vars o)) vs L)|exact (IH (mkOptions (o_json o) true (o_vars o)) vs L)|]. destruct vs as [|v vs]; [discriminate|]. injection L as L. rewrite IH by assumption. reflexivity. Qed.
  Lemma last_inserted : forall V (l : list (str * V)) m name v, (mget name (fold_left (fun m nv => minsert (fst nv) (snd nv) m) l m) = Some v <-> last_value l name v \/ (~ In name (map fst l) /\ mget name m = Some v)).
  Proof. intros V l m name v. revert v. induction l as [|[n x] l IH] using rev_ind; intros v.
    - cbn. split; [auto|]. intros [(b & a & E & _)|[_ E]]; [destruct b; discriminate|assumption].
    - rewrite fold_left_app. cbn [fold_left fst snd]. rewrite mget_minsert. destruct (str_eqb name n) eqn:E.
      + apply str_eqb_eq in E. subst n. split.
        * intros K. injection K as ->. left. exists l, []. split; [reflexivity|auto].
        * intros [(b & a & K & Na)|[K _]].
          -- destruct a as [|y a _] using rev_ind; [apply app_inj_tail in K as [_ K]; congruence|]. exfalso. change ((name, v) :: a ++ [y]) with (((name, v) :: a) ++ [y]) in K. rewrite app_assoc in K. apply app_inj_tail in K as [_ <-]. apply Na. rewrite map_app. apply in_or_app. right. now left.
          -- exfalso. apply K. rewrite map_app. apply in_or_app. right. now left.
      + assert (Ne : name <> n) by (intros ->; now rewrite str_eqb_refl in E). rewrite IH. split.
        * intros [(b & a & -> & Na)|[K M]]; [left; exists b, (a ++ [(n, x)]); split; [now rewrite <- app_assoc|]|right; split; [|assumption]]; rewrite map_app; intros Q; apply in_app_or in Q as [Q|[Q|[]]]; cbn in Q; auto.
        * intros [(b & a & K & Na)|[K M]].
          -- left. destruct a as [|y a _] using rev_ind; [apply app_inj_tail in K as [_ K]; congruence|]. change ((name, v) :: a ++ [y]) with (((name, v) :: a) ++ [y]) in K. rewrite app_assoc in K. apply app_inj_tail in K as [-> _]. exists b, a. split; [reflexivity|]. intros Q. apply Na. rewrite map_app. apply in_or_app. now left.
          -- right. split; [|assumption]. intros Q. apply K. rewrite map_app. apply in_or_app. now left. Qed.
  Lemma last_related : forall V (R : str -> V -> Prop) (bs : list (str * str)) vs name v, (forall s v1 v2, R s v1 -> R s v2 -> v1 = v2) -> Forall2 (fun b v => R (snd b) v) bs vs ->
    (last_value (combine (map fst bs) vs) name v <-> exists text, last_value bs name text /\ R text v).
  Proof. intros V R bs vs name v Fu F.
    assert (Ks : forall (bs : list (str * str)) vs, Forall2 (fun b v => R (snd b) v) bs vs -> map fst (combine (map fst bs) vs) = map fst bs). { clear. intros bs vs F. induction F; cbn; congruence. }
    assert (Li : forall n (v : V), ~ last_value [] n v) by (intros n v0 (b & a & K & _); destruct b; discriminate).
    assert (Li' : forall n (v : str), ~ last_value [] n v) by (intros n v0 (b & a & K & _); destruct b; discriminate).
    assert (Cons : forall A (k : str) (x : A) l n y, last_value ((k, x) :: l) n y <-> last_value l n y \/ (k = n /\ x = y /\ ~ In n (map fst l))).
    { clear. intros A k x l n y. split.
      - intros ([|z b] & a & E & Na); injection E as E1 E2; [right; inversion E1; subst; auto|left]. exists b, a. auto.
      - intros [(b & a & -> & Na)|(-> & -> & Na)]; [exists ((k, x) :: b), a; auto|exists [], l; auto]. }
    induction F as [|[k t] w bs vs F1 F IH]; cbn [map combine fst].
    - split; [intros K; now apply Li in K|intros (t & K & _); now apply Li' in K].
    - rewrite Cons, IH, Ks by assumption. cbn [snd] in F1. split.
      + intros [(text & L & A)|(-> & -> & Na)]; [exists text; split; [apply Cons; now left|assumption]|]. exists t. split; [|assumption]. apply Cons. right. auto.
      + intros (text & L & A). apply Cons in L as [L|(-> & -> & Na)]; [left; now exists text|right]. split; [reflexivity|]. split; [now apply (Fu text)|assumption]. Qed.
  Lemma last_both : forall (bs : list (str * str)) vs name v, Forall2 (fun b v => argument_value (snd b) v) bs vs -> (last_value (combine (map fst bs) vs) name v <-> exists text, last_value bs name text /\ argument_value text v).
  Proof. intros bs vs name v F. apply (last_related value argument_value); [|assumption]. intros s v1 v2 A B. apply (value_iff U) in A, B. congruence. Qed.
  Lemma bound_vars : forall ps vars vs, bound ps vars -> Forall2 (fun b v => argument_value (snd b) v) (bindings ps) vs -> same_vars (o_vars (taken ps (mkOptions None false []) vs)) vars.
  Proof. intros ps vars vs [_ B] V name. pose proof (same_length _ _ _ _ _ V) as L. rewrite taken_vars by (symmetry; exact L). cbn [o_vars].
    set (m := fold_left _ _ _). assert (K : forall v, mget name m = Some v <-> mget name vars = Some v).
    { intros v. unfold m. rewrite last_inserted, B, (last_both _ _ _ _ V). cbn. split; [intros [K|[_ K]]; [assumption|discriminate]|auto]. }
    destruct (mget name m) as [v|] eqn:E1; [symmetry; now apply K|]. destruct (mget name vars) as [v|] eqn:E2; [|reflexivity]. discriminate (proj2 (K v) eq_refl). Qed.
  Lemma values_of : forall ps, Forall (fun b => exists v, argument_value (snd b) v) (bindings ps) -> exists vs, Forall2 (fun b v => argument_value (snd b) v) (bindings ps) vs.
  Proof. intros ps F. induction F as [|b bs [v V] F [vs IH]]; [now exists []|]. exists (v :: vs). now constructor. Qed.

  Lemma has_61 : forall l name text : list N, l = name ++ 61 :: text -> In 61 l.
  Proof. intros l name text ->. apply in_or_app. right. now left. Qed.
  (** any outcome of reading the options *)
  Lemma options_cases : forall n args o, (length args <= n)%nat -> match read_options args o with
    | Ok _ => exists ps, command_line ps args /\ Forall (fun b => exists v, argument_value (snd b) v) (bindings ps)
    | Err e => (forall ps, ~ command_line ps args) /\ e_msg e <> []
    | Panic _ => exists a name text, In a args /\ a = name ++ lit "=" ++ text /\ ~ In 61 name /\ forall v, ~ argument_value text v
    end.
  Proof. induction n as [|n IH]; intros args o L.
    - destruct args; [|cbn in L; lia]. exists []. split; [split; constructor|constructor].
    - destruct args as [|a r]; [exists []; split; [split; constructor|constructor]|]. cbn [read_options]. cbn in L.
      assert (Inv : forall ps, command_line ps (a :: r) -> exists p qs, ps = p :: qs /\ proper p /\ Forall proper qs /\ a :: r = words p ++ concat (map words qs)).
      { intros [|p qs] [F E]; [discriminate|]. inversion F; subst. exists p, qs. auto. }
      destruct (str_eqb a (lit "--json")) eqn:J.
      { apply str_eqb_eq in J. subst a. destruct r as [|j r'].
        - split; [|discriminate]. intros ps C. apply Inv in C as (p & qs & -> & Pp & _ & E). destruct p as [t| |nm t]; cbn in E; [discriminate|discriminate|]. injection E as E _. apply has_61 in E. cbn in E. intuition discriminate.
        - specialize (IH r' (mkOptions (Some j) (o_output o) (o_vars o)) ltac:(cbn in L; lia)). destruct (read_options r' _) as [o'|e|p].
          + destruct IH as (ps & [F E] & V). exists (UseJson j :: ps). split; [split; [constructor; [exact I|assumption]|now rewrite E]|assumption].
          + destruct IH as [IH Ne]. split; [|assumption]. intros ps C. apply Inv in C as (p & qs & -> & Pp & Fq & E). destruct p as [t| |nm t]; cbn in E; [|discriminate|].
            * injection E as E1 E2. apply (IH qs). split; assumption.
            * injection E as E _. apply has_61 in E. cbn in E. intuition discriminate.
          + destruct IH as (a & nm & t & I0 & Q). exists a, nm, t. split; [now right; right|assumption]. }
      destruct (str_eqb a (lit "--output-json")) eqn:OJ.
      { apply str_eqb_eq in OJ. subst a. specialize (IH r (mkOptions (o_json o) true (o_vars o)) ltac:(lia)). destruct (read_options r _) as [o'|e|p].
        + destruct IH as (ps & [F E] & V). exists (AsJson :: ps). split; [split; [constructor; [exact I|assumption]|now rewrite E]|assumption].
        + destruct IH as [IH Ne]. split; [|assumption]. intros ps C. apply Inv in C as (p & qs & -> & Pp & Fq & E). destruct p as [t| |nm t]; cbn in E; [discriminate| |].
          * injection E as E. apply (IH qs). split; assumption.
          * injection E as E _. apply has_61 in E. cbn in E. intuition discriminate.
        + destruct IH as (a & nm & t & I0 & Q). exists a, nm, t. split; [now right|assumption]. }
      destruct (split_once [61] a) as [[nm t]|] eqn:S1.
      + apply split_61 in S1 as [Nn Ea]. destruct (parse_value t) as [v|e|p] eqn:Pv; cbn [bind].
        * specialize (IH r (mkOptions (o_json o) (o_output o) (minsert nm v (o_vars o))) ltac:(lia)). destruct (read_options r _) as [o'|e|p].
          -- destruct IH as (ps & [F E] & V). exists (Bind nm t :: ps). split; [split; [constructor; assumption|cbn [map words concat app]; now rewrite E, Ea]|]. cbn [bindings flat_map app]. constructor; [|assumption]. exists v. now apply (value_iff U).
          -- destruct IH as [IH Ne]. split; [|assumption]. intros ps C. apply Inv in C as (p & qs & -> & Pp & Fq & E). destruct p as [t'| |nm' t']; cbn in E.
             ++ injection E as -> _. rewrite str_eqb_refl in J. discriminate.
             ++ injection E as -> _. rewrite str_eqb_refl in OJ. discriminate.
             ++ injection E as _ E. apply (IH qs). split; assumption.
          -- destruct IH as (a0 & nm0 & t0 & I0 & Q). exists a0, nm0, t0. split; [now right|assumption].
        * now apply value_no_err in Pv.
        * exists a, nm, t. split; [now left|]. split; [assumption|]. split; [assumption|]. intros v K. apply (value_iff U) in K. congruence.
      + apply contains_61 in S1. split; [|discriminate]. intros ps C. apply Inv in C as (p & qs & -> & Pp & Fq & E). destruct p as [t'| |nm' t']; cbn in E; injection E as -> E.
        * rewrite str_eqb_refl in J. discriminate.
        * rewrite str_eqb_refl in OJ. discriminate.
        * apply S1. apply in_or_app. right. now left. Qed.
  Lemma unread_argument : forall ps o, Forall proper ps -> ~ Forall (fun b => exists v, argument_value (snd b) v) (bindings ps) -> exists p, read_options (concat (map words ps)) o = Panic p.
  Proof. induction ps as [|p ps IH]; intros o F V; [exfalso; apply V; constructor|]. inversion F; subst. destruct p as [t| |n t]; cbn [map concat words app].
    - cbn [read_options]. rewrite str_eqb_refl. now apply IH.
    - cbn [read_options]. change (str_eqb (lit "--output-json") (lit "--json")) with false. rewrite str_eqb_refl. now apply IH.
    - cbn [bindings flat_map app] in V. cbn [read_options]. destruct (bind_word n t) as [-> ->]. rewrite (proj2 (split_61 _ n t)) by (split; [assumption|reflexivity]).
      destruct (parse_value t) as [v|e|p] eqn:E; cbn [bind]; [|now apply value_no_err in E|now exists p]. apply IH; [assumption|]. intros K. apply V. constructor; [|assumption]. exists v. now apply (value_iff U). Qed.
End Options.

(** ** Results as JSON *)
Local Opaque json_parse.
Section Results.
  Context {X : Ext}.
  Lemma f64_stored : forall x, (stored_as (VNumber x) (json_of_f64 x)) /\ stored_as (VCurrency x) (json_of_f64 x).
  Proof. intros x. unfold json_of_f64, jnum_of_f64. destruct (is_finite x) eqn:E; split; constructor; assumption. Qed.
  Lemma i64_stored : forall t, stored_as (VDateTime t) (json_of_i64 t).
  Proof. intros t. unfold json_of_i64. destruct (Z.leb_spec 0 t); constructor; assumption. Qed.
  Lemma element_is : forall v, element_as v (element_json v).
  Proof. intros [n|xs|b|s| |n|t|s]; cbn [element_json].
    - apply plain_element; [discriminate|apply f64_stored].
    - apply nested_element.
    - apply plain_element; [discriminate|constructor].
    - apply plain_element; [discriminate|constructor].
    - apply plain_element; [discriminate|constructor].
    - apply plain_element; [discriminate|apply f64_stored].
    - apply plain_element; [discriminate|apply i64_stored].
    - destruct (json_parse s) as [j|] eqn:E; [apply plain_element; [discriminate|now constructor]|now apply unread_element]. Qed.
  Lemma typed_element : forall v, (forall xs, v <> VArray xs) -> fst (typed_json v) = element_json v.
  Proof. intros v K. destruct v as [n|xs|b|s| |n|t|s]; [reflexivity|now destruct (K xs)|reflexivity..]. Qed.
  Lemma typed_is : forall v, result_as v (fst (typed_json v)) /\ snd (typed_json v) = lit (kind_name v).
  Proof. intros v. split; [|now destruct v]. destruct v as [n|xs|b|s| |n|t|s].
    2: { apply (array_result xs (map element_json xs)). induction xs; constructor; auto. apply element_is. }
    all: apply plain_result; [discriminate|]; rewrite typed_element by discriminate; apply element_is. Qed.
  Lemma output_described : forall v ms, described v (typed_output v ms).
  Proof. intros v ms. destruct (typed_is v) as [R T]. unfold typed_output. destruct (typed_json v) as [j t]. cbn [fst snd] in *. subst t. exists (f_fixed 2 ms), j. auto. Qed.
End Results.

(** ** The command *)
Section Main.
  Context {X : Ext} {H : Host}.
  Hypothesis U : unicode X.
  Definition ended (o : options) (ms : f64) (r : res value) : outcome :=
    match r with
    | Ok v => Exited 0 ((if o_output o then format_json_output v ms else value_debug v) ++ [10]) []
    | Err e => Exited 2 [] (lit "Error: " ++ show_error e ++ [10])
    | Panic _ => Crashed
    end.
  Lemma ended_leaves : forall ps vs ms r, length vs = length (bindings ps) -> leaves ps r (ended (taken ps (mkOptions None false []) vs) ms r).
  Proof. intros ps vs ms r L. destruct r as [v|e|p]; cbn [ended leaves]; [|reflexivity..]. pose proof (taken_output ps (mkOptions None false []) vs L) as T. cbn [o_output] in T.
    eexists. split; [reflexivity|]. destruct (o_output _).
    - split; [intros K; exfalso; apply K; destruct (proj1 T eq_refl) as [Q|Q]; [discriminate|assumption]|]. intros _. exists (typed_output v ms). split; [apply output_described|apply pretty_text].
    - split; [reflexivity|]. intros K. discriminate (proj2 T (or_intror K)). Qed.
  Lemma statements_bool : forall s, statements s = true <-> has_statements s.
  Proof. exact statements_iff. Qed.
  Lemma command_variables : forall reg ms expr ps args vars r, command_line ps args -> json_given ps = None -> bound ps vars -> Spec_http.gives reg expr vars r ->
    leaves ps r (sk_main reg ms (expr :: args)).
  Proof. intros reg ms expr ps args vars r [F ->] J B G. destruct (values_of ps (proj1 B)) as [vs V]. pose proof (same_length _ _ _ _ _ V) as L. symmetry in L. unfold sk_main. rewrite (options_read U _ _ _ F V).
    unfold command_result. rewrite taken_json by assumption. cbn [o_json]. unfold json_given in J. rewrite J.
    assert (E : (if statements expr then evaluate_with_assignments expr (o_vars (taken ps (mkOptions None false []) vs)) else evaluate_with_custom reg expr (o_vars (taken ps (mkOptions None false []) vs))) = r).
    { pose proof (bound_vars U _ _ _ B V) as Sv. destruct (statements expr) eqn:Se; [apply statements_bool in Se|apply not_true_iff_false in Se; rewrite statements_bool in Se]; destruct G as [[Hs ->]|[Hs ->]]; try contradiction; [now apply assignments_same|now apply custom_same]. }
    rewrite E. pose proof (ended_leaves ps vs ms r L) as K. unfold ended in K. destruct r; exact K. Qed.
  Lemma command_json : forall reg ms expr ps args text, command_line ps args -> Forall (fun b => exists v, argument_value (snd b) v) (bindings ps) -> json_given ps = Some text -> ~ has_statements expr ->
    leaves ps (evaluate_with_json_custom reg expr text) (sk_main reg ms (expr :: args)).
  Proof. intros reg ms expr ps args text [F ->] B J Ns. destruct (values_of ps B) as [vs V]. pose proof (same_length _ _ _ _ _ V) as L. symmetry in L. unfold sk_main. rewrite (options_read U _ _ _ F V).
    unfold command_result. rewrite taken_json by assumption. cbn [o_json]. unfold json_given in J. rewrite J. destruct (statements expr) eqn:Se; [apply statements_bool in Se; contradiction|].
    pose proof (ended_leaves ps vs ms (evaluate_with_json_custom reg expr text) L) as K. unfold ended in K. destruct (evaluate_with_json_custom reg expr text); exact K. Qed.
  Lemma vars_bound : forall text kvs, object_bound text kvs (fold_left (fun m kv => minsert (sanitize_json_key (fst kv)) (json_to_value (snd kv)) m) kvs (minsert (lit "arguments") (VJson text) [])).
  Proof. intros text kvs. unfold object_bound. set (m0 := minsert (lit "arguments") (VJson text) []).
    assert (Mi : forall name l, (forall k, In k (map fst l) -> ~ sanitised k name) -> find (fun kv : str * json => str_eqb name (sanitize_json_key (fst kv))) (rev l) = None).
    { intros name l K. destruct (find _ (rev l)) as [kv|] eqn:F; [|reflexivity]. apply find_some in F as [I0 F]. apply str_eqb_eq in F. exfalso. apply (K (fst kv)); [apply in_map; now apply in_rev|]. now apply sanitised_iff. }
    split; [|split].
    - intros name before k j after v -> Sk Na Sj. rewrite vars_lookup, rev_app_distr. cbn [rev]. rewrite <- app_assoc.
      assert (Fi : forall (f : str * json -> bool) l1 l2, find f l1 = None -> find f (l1 ++ l2) = find f l2). { intros f l1 l2. induction l1 as [|x l1 IH]; [reflexivity|]. cbn [find app]. destruct (f x); [discriminate|exact IH]. }
      rewrite Fi by now apply Mi. cbn [app find fst]. apply sanitised_iff in Sk. rewrite Sk, str_eqb_refl. cbn [snd]. apply stands_iff in Sj. now rewrite Sj.
    - intros name K Na. rewrite vars_lookup, Mi by assumption. unfold m0. rewrite mget_minsert_other by assumption. reflexivity.
    - intros K. rewrite vars_lookup, Mi by assumption. unfold m0. apply mget_minsert_same. Qed.
  Lemma object_lookup : forall text kvs m, object_bound text kvs m -> forall name, mget name m =
    match find (fun kv => str_eqb name (sanitize_json_key (fst kv))) (rev kvs) with Some kv => Some (json_to_value (snd kv)) | None => mget name (minsert (lit "arguments") (VJson text) []) end.
  Proof. intros text kvs m (B1 & B2 & B3) name. destruct (find _ (rev kvs)) as [[k j]|] eqn:Fd.
    - assert (Sp : exists before after, kvs = before ++ (k, j) :: after /\ sanitize_json_key k = name /\ forall k', In k' (map fst after) -> ~ sanitised k' name).
      { clear -Fd. induction kvs as [|kv kvs IH] using rev_ind; [discriminate|]. rewrite rev_app_distr in Fd. cbn [rev app find] in Fd. destruct (str_eqb name (sanitize_json_key (fst kv))) eqn:E.
        - injection Fd as ->. exists kvs, []. apply str_eqb_eq in E. repeat split; [now symmetry|intros k' []].
        - destruct (IH Fd) as (b & a & -> & Sk & Na). exists b, (a ++ [kv]). split; [now rewrite <- app_assoc|]. split; [assumption|]. intros k' I0. rewrite map_app in I0. apply in_app_or in I0 as [I0|[<-|[]]]; [now apply Na|]. rewrite sanitised_iff. intros Q. rewrite Q, str_eqb_refl in E. discriminate. }
      destruct Sp as (b & a & E & Sk & Na). cbn [snd]. apply (B1 name b k j a); auto; [now apply sanitised_iff|now apply stands_iff].
    - assert (Na : forall k, In k (map fst kvs) -> ~ sanitised k name). { intros k I0 Q. apply sanitised_iff in Q. apply in_map_iff in I0 as (kv & <- & I0). apply in_rev in I0. pose proof (find_none _ _ Fd _ I0) as E. cbn beta in E. rewrite Q, str_eqb_refl in E. discriminate. }
      destruct (list_eq_dec N.eq_dec name (lit "arguments")) as [->|Ne]; [rewrite (B3 Na); symmetry; apply mget_minsert_same|]. rewrite (B2 name Na Ne), mget_minsert_other by assumption. reflexivity. Qed.
  Lemma command_statements : forall reg ms expr ps args text kvs vars, command_line ps args -> Forall (fun b => exists v, argument_value (snd b) v) (bindings ps) -> json_given ps = Some text -> has_statements expr ->
    json_parse text = Some (JObj kvs) -> object_bound text kvs vars -> leaves ps (evaluate_with_assignments expr vars) (sk_main reg ms (expr :: args)).
  Proof. intros reg ms expr ps args text kvs vars [F ->] B J Hs P O. destruct (values_of ps B) as [vs V]. pose proof (same_length _ _ _ _ _ V) as L. symmetry in L. unfold sk_main. rewrite (options_read U _ _ _ F V).
    unfold command_result. rewrite taken_json by assumption. cbn [o_json]. unfold json_given in J. rewrite J. rewrite (proj2 (statements_bool expr) Hs). unfold statement_vars. rewrite P. cbn [bind].
    set (m := fold_left _ _ _). assert (E : evaluate_with_assignments expr m = evaluate_with_assignments expr vars).
    { apply assignments_same. intros name. rewrite (object_lookup text kvs m (vars_bound text kvs)), (object_lookup text kvs vars O). reflexivity. }
    rewrite E. pose proof (ended_leaves ps vs ms (evaluate_with_assignments expr vars) L) as K. unfold ended in K. destruct (evaluate_with_assignments expr vars); exact K. Qed.
  Lemma command_bad_json : forall reg ms expr ps args text, command_line ps args -> Forall (fun b => exists v, argument_value (snd b) v) (bindings ps) -> json_given ps = Some text ->
    (forall kvs, json_parse text <> Some (JObj kvs)) -> exists status msg, sk_main reg ms (expr :: args) = Exited status [] msg /\ (status = 1 /\ has_statements expr \/ status = 2 /\ ~ has_statements expr).
  Proof. intros reg ms expr ps args text [F ->] B J P. destruct (values_of ps B) as [vs V]. pose proof (same_length _ _ _ _ _ V) as L. symmetry in L. unfold sk_main. rewrite (options_read U _ _ _ F V).
    unfold command_result. rewrite taken_json by assumption. cbn [o_json]. unfold json_given in J. rewrite J. destruct (statements expr) eqn:Se.
    - apply statements_bool in Se. unfold statement_vars. destruct (json_parse text) as [[| | | | |kvs]|]; cbn [bind]; try (eexists _, _; split; [reflexivity|auto]). now destruct (P kvs).
    - assert (Ns : ~ has_statements expr) by (intros K; apply statements_bool in K; congruence). unfold evaluate_with_json_custom, json_vars, parse_json. destruct (json_parse text) as [[| | | | |kvs]|]; cbn [bind ok_or]; try (eexists _, _; split; [reflexivity|auto]). now destruct (P kvs). Qed.
  Lemma command_unread : forall reg ms expr ps args, command_line ps args -> ~ Forall (fun b => exists v, argument_value (snd b) v) (bindings ps) -> sk_main reg ms (expr :: args) = Crashed.
  Proof. intros reg ms expr ps args [F ->] K. unfold sk_main. destruct (unread_argument U ps (mkOptions None false []) F K) as [p ->]. reflexivity. Qed.
  Lemma command_rejected : forall reg ms expr args, (forall ps, ~ command_line ps args) ->
    (exists msg, msg <> [] /\ sk_main reg ms (expr :: args) = Exited 1 [] msg)
    \/ (sk_main reg ms (expr :: args) = Crashed /\ exists name text, In (name ++ lit "=" ++ text) args /\ ~ In 61 name /\ forall v, ~ argument_value text v).
  Proof. intros reg ms expr args K. unfold sk_main. pose proof (options_cases U (length args) args (mkOptions None false []) (le_n _)) as C. destruct (read_options args _) as [o|e|p].
    - destruct C as (ps & C & _). now apply K in C.
    - left. exists (e_msg e ++ [10]). split; [|reflexivity]. destruct (e_msg e); discriminate.
    - right. split; [reflexivity|]. destruct C as (a & name & text & I0 & -> & Nn & V). exists name, text. auto. Qed.
  Lemma command_streams : forall reg ms args status out errors, sk_main reg ms args = Exited status out errors ->
    (status = 0 \/ status = 1 \/ status = 2) /\ (status = 0 <-> out <> []) /\ (args <> [] -> (status = 0 <-> errors = [])).
  Proof. intros reg ms args status out errors E. destruct args as [|expr args]; [injection E as <- <- <-; repeat split; auto; try congruence; discriminate|]. unfold sk_main in E.
    assert (Ne : forall s : str, s ++ [10] <> []) by (intros [|? ?]; discriminate).
    assert (Ne' : forall (w : string) (s : str), lit "Error: " ++ s <> []) by (intros; discriminate).
    destruct (read_options args _) as [o|e|p]; [|injection E as <- <- <-; repeat split; auto; try congruence; try discriminate; intros K; exfalso; revert K; apply Ne|discriminate].
    destruct (command_result reg expr o) as [[v|e|p]|e|p]; try discriminate; injection E as <- <- <-.
    - split; [auto|]. split; [split; [intros _; apply Ne|auto]|]. tauto.
    - split; [auto|]. split; [split; [discriminate|congruence]|]. intros _. split; discriminate.
    - split; [auto|]. split; [split; [discriminate|congruence]|]. intros _. split; [discriminate|]. intros K. exfalso. revert K. apply Ne. Qed.
  Lemma description_read : forall v d out w, described v d -> json_text d out -> blank w -> (forall j, result_as v j -> document j /\ (nesting j <= 126)%nat) -> json_parse (out ++ w) = Some d.
  Proof. intros v d out w (time & j & R & ->) T W K. destruct (K j R) as [D Nj]. apply (any_layout _ out [] w); auto; [| |constructor].
    - apply object_document; [repeat constructor|]. repeat constructor. assumption.
    - cbn [nesting map snd list_max fold_right]. lia. Qed.
End Main.
