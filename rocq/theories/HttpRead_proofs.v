(** Reading a request. *)
From Coq Require Import String List ZArith NArith Bool Lia.
From Verif Require Import Base F64 Syntax Utf8 Ext Lines Host HttpRead Spec_syntax Spec_text Spec_http Base_proofs Utf8_proofs Parse_proofs Cast_proofs Display_proofs DateFn_proofs.
Import ListNotations.
Local Open Scope N_scope.

(** ** Searching *)
Lemma find_str_some : forall p s i, find_str p s = Some i -> exists r, s = firstn i s ++ p ++ r /\ (i <= length s)%nat.
Proof.
  intros p s. induction s as [|c s IH]; intros i; cbn [find_str].
  - destruct (starts_with p []) eqn:E; [|discriminate]. intros K. injection K as <-. apply starts_with_spec in E as [r E]. exists r. now split.
  - destruct (starts_with p (c :: s)) eqn:E.
    + intros K. injection K as <-. apply starts_with_spec in E as [r E]. exists r. split; [exact E|cbn; lia].
    + destruct (find_str p s) as [j|]; [|discriminate]. intros K. injection K as <-. destruct (IH j eq_refl) as (r & Es & L). exists r. cbn [firstn app length]. split; [now rewrite <- Es|lia].
Qed.
Lemma find_str_first : forall p s i a b, find_str p s = Some i -> s = a ++ p ++ b -> (i <= length a)%nat.
Proof.
  intros p s. induction s as [|c s IH]; intros i a b; cbn [find_str].
  - destruct (starts_with p []); [|discriminate]. intros K. injection K as <-. lia.
  - destruct (starts_with p (c :: s)) eqn:E; [intros K; injection K as <-; lia|]. destruct (find_str p s) as [j|] eqn:F; [|discriminate]. intros K. injection K as <-. intros S'. destruct a as [|x a].
    + exfalso. apply starts_with_false with (r := b) in E. now apply E.
    + cbn in S'. injection S' as <- S'. pose proof (IH j a b eq_refl S'). cbn. lia.
Qed.
Lemma find_str_none : forall p s a b, find_str p s = None -> s <> a ++ p ++ b.
Proof.
  intros p s. induction s as [|c s IH]; intros a b; cbn [find_str].
  - destruct (starts_with p []) eqn:E; [discriminate|]. intros _ K. symmetry in K. apply app_eq_nil in K as [-> K]. apply starts_with_false with (r := b) in E. now symmetry in K.
  - destruct (starts_with p (c :: s)) eqn:E; [discriminate|]. destruct (find_str p s) as [j|] eqn:F; [discriminate|]. intros _ S'. destruct a as [|x a].
    + apply starts_with_false with (r := b) in E. now apply E.
    + cbn in S'. injection S' as <- S'. exact (IH a b eq_refl S').
Qed.
Lemma find_str_is : forall p s a b, s = a ++ p ++ b -> (forall a' b', s = a' ++ p ++ b' -> (length a <= length a')%nat) -> find_str p s = Some (length a).
Proof.
  intros p s a b E M. destruct (find_str p s) as [i|] eqn:F; [|exfalso; exact (find_str_none p s a b F E)]. f_equal. pose proof (find_str_first p s i a b F E) as L.
  destruct (find_str_some p s i F) as (r & Es & Li). specialize (M _ _ Es). rewrite firstn_length in M. lia.
Qed.
(** a longer text has its first occurrence at the same place *)
Lemma find_str_grow : forall p s t i, find_str p s = Some i -> find_str p (s ++ t) = Some i.
Proof.
  intros p s t. induction s as [|c s IH]; intros i; cbn [find_str app].
  - destruct (starts_with p []) eqn:E; [|discriminate]. intros K. injection K as <-. apply starts_with_spec in E as [r E]. symmetry in E. apply app_eq_nil in E as [-> _]. now destruct t.
  - destruct (starts_with p (c :: s)) eqn:E.
    + intros K. injection K as <-. apply starts_with_spec in E as [r E]. assert (starts_with p (c :: s ++ t) = true) as -> by (apply starts_with_spec; exists (r ++ t); rewrite app_assoc, <- E; reflexivity). reflexivity.
    + destruct (find_str p s) as [j|] eqn:F; [|discriminate]. intros K. injection K as <-. destruct (starts_with p (c :: s ++ t)) eqn:E2.
      * exfalso. apply starts_with_spec in E2 as [r E2]. destruct (find_str_some p s j F) as (q & Es & _).
        assert (L : (length p <= length (c :: s))%nat). { apply (f_equal (@length N)) in Es. rewrite !app_length in Es. cbn [length]. lia. }
        apply starts_with_false with (r := skipn (length p) (c :: s)) in E. apply E. rewrite <- (firstn_skipn (length p) (c :: s)) at 1. f_equal.
        change (c :: s ++ t) with ((c :: s) ++ t) in E2. apply (f_equal (firstn (length p))) in E2. rewrite firstn_app in E2. replace (length p - length (c :: s))%nat with O in E2 by lia. rewrite firstn_O, app_nil_r in E2.
        rewrite firstn_app, firstn_all, Nat.sub_diag, firstn_O, app_nil_r in E2. exact E2.
      * now rewrite (IH j eq_refl).
Qed.

(** ** UTF-8 and ASCII patterns *)
Lemma starts_encode : forall p s, forallb is_ascii p = true -> starts_with p (encode s) = starts_with p s.
Proof.
  induction p as [|x p IH]; intros s A; [reflexivity|]. cbn [forallb] in A. apply andb_true_iff in A as [A1 A2]. apply N.ltb_lt in A1.
  destruct s as [|c s]; [reflexivity|]. rewrite encode_cons. unfold starts_with in *. destruct (N.lt_ge_cases c 128) as [L|L].
  - rewrite enc1_ascii by assumption. cbn [app strip_prefix]. destruct (x =? c); [now apply IH|reflexivity].
  - pose proof (enc1_nonascii c L) as F. pose proof (enc1_nonempty c) as Ne. destruct (enc1 c) as [|b bs]; [congruence|]. inversion F; subst. cbn [app strip_prefix].
    destruct (N.eqb_spec x b); [lia|]. destruct (N.eqb_spec x c); [lia|reflexivity].
Qed.
Lemma find_skip : forall p x bs s, Forall (fun b => b <> x) bs -> find_str (x :: p) (bs ++ s) = option_map (fun i => (length bs + i)%nat) (find_str (x :: p) s).
Proof.
  intros p x bs s F. induction F as [|b bs B F IH]; [cbn; now destruct (find_str (x :: p) s)|]. cbn [app find_str]. unfold starts_with at 1. cbn [strip_prefix]. destruct (N.eqb_spec x b); [congruence|]. rewrite IH. now destruct (find_str (x :: p) s).
Qed.
Lemma find_encode : forall x p s, forallb is_ascii (x :: p) = true -> find_str (x :: p) (encode s) = option_map (fun i => length (encode (firstn i s))) (find_str (x :: p) s).
Proof.
  intros x p s A. assert (Ax : x < 128) by (cbn [forallb] in A; apply andb_true_iff in A as [A _]; now apply N.ltb_lt).
  induction s as [|c s IH]; [reflexivity|]. cbn [find_str]. destruct (starts_with (x :: p) (c :: s)) eqn:E.
  - rewrite <- (starts_encode (x :: p) (c :: s) A) in E. assert (find_str (x :: p) (encode (c :: s)) = Some O) as -> by (destruct (encode (c :: s)); cbn [find_str]; now rewrite E). reflexivity.
  - pose proof E as E'. rewrite <- (starts_encode (x :: p) (c :: s) A) in E. rewrite encode_cons in *. destruct (N.lt_ge_cases c 128) as [L|L].
    + rewrite enc1_ascii in * by assumption. cbn [app find_str] in *. rewrite E, IH. destruct (find_str (x :: p) s) as [i|]; [|reflexivity]. cbn [option_map firstn]. f_equal. rewrite encode_cons, enc1_ascii by assumption. reflexivity.
    + rewrite find_skip.
      * rewrite IH. destruct (find_str (x :: p) s) as [i|]; [|reflexivity]. cbn [option_map firstn]. f_equal. now rewrite encode_cons, app_length.
      * eapply Forall_impl; [|exact (enc1_nonascii c L)]. cbn. lia.
Qed.
Lemma firstn_encode : forall i s, firstn (length (encode (firstn i s))) (encode s) = encode (firstn i s).
Proof.
  intros i s. rewrite <- (firstn_skipn i s) at 2. rewrite encode_app, firstn_app, firstn_all, Nat.sub_diag, firstn_O, app_nil_r. reflexivity.
Qed.

(** ** [String::from_utf8] and [as_bytes] *)
Lemma divmod64 : forall q r, r < 64 -> (q * 64 + r) / 64 = q /\ (q * 64 + r) mod 64 = r.
Proof. intros q r L. split; [rewrite N.add_comm, N.div_add by lia; rewrite N.div_small by lia; lia|rewrite N.add_comm, N.mod_add by lia; now apply N.mod_small]. Qed.
Lemma encode_decode : forall bs s, decode bs = Some s -> encode s = bs /\ valid_str s.
Proof.
  intros bs. remember (length bs) as n eqn:En. assert (L : (length bs <= n)%nat) by lia. clear En. revert bs L. induction n as [|n IH]; intros bs L s.
  - destruct bs; [|cbn in L; lia]. cbn. intros K. injection K as <-. split; [reflexivity|constructor].
  - destruct bs as [|b r]; [cbn; intros K; injection K as <-; split; [reflexivity|constructor]|]. cbn [length] in L.
    assert (St : forall rest c, (length rest <= n)%nat -> enc1 c ++ rest = b :: r -> is_scalar c = true -> option_map (cons c) (decode rest) = Some s -> encode s = b :: r /\ valid_str s).
    { intros rest c Lr E Sc K. destruct (decode rest) as [t|] eqn:D; [|discriminate]. cbn in K. injection K as <-. destruct (IH rest Lr t D) as [A B]. rewrite encode_cons, A. split; [exact E|now constructor]. }
    cbn [decode]. destruct (N.ltb_spec b 128) as [B0|B0].
    { apply St; [lia|now rewrite enc1_ascii|apply scalar_of_range; lia]. }
    destruct (N.ltb_spec b 194) as [B1|B1]; [discriminate|]. destruct (N.ltb_spec b 224) as [B2|B2].
    { destruct r as [|c1 r1]; [discriminate|]. destruct (is_cont c1) eqn:C1; [|discriminate]. unfold is_cont in C1. apply andb_true_iff in C1 as [C1 C1']. apply N.leb_le in C1. apply N.ltb_lt in C1'.
      destruct (divmod64 (b - 192) (c1 - 128) ltac:(lia)) as [D M]. apply St; [cbn in L; lia| |apply scalar_of_range; lia]. unfold enc1.
      destruct (N.ltb_spec ((b - 192) * 64 + (c1 - 128)) 128); [lia|]. destruct (N.ltb_spec ((b - 192) * 64 + (c1 - 128)) 2048); [|lia]. rewrite D, M. cbn [app]. f_equal; [lia|f_equal; lia]. }
    destruct (N.ltb_spec b 240) as [B3|B3].
    { destruct r as [|c1 [|c2 r2]]; [discriminate|discriminate|]. cbv zeta. destruct (is_cont c1) eqn:C1; [|discriminate]. destruct (is_cont c2) eqn:C2; [|discriminate]. cbn [andb]. unfold is_cont in *.
      apply andb_true_iff in C1 as [C1 C1']. apply N.leb_le in C1. apply N.ltb_lt in C1'. apply andb_true_iff in C2 as [C2 C2']. apply N.leb_le in C2. apply N.ltb_lt in C2'.
      set (c := (b - 224) * 4096 + (c1 - 128) * 64 + (c2 - 128)). destruct (N.leb_spec 2048 c) as [G|G]; [|discriminate]. destruct (is_scalar c) eqn:Sc; [|discriminate]. cbn [andb].
      apply St; [cbn in L; lia| |assumption]. assert (Ec : c = ((b - 224) * 64 + (c1 - 128)) * 64 + (c2 - 128)) by (unfold c; lia). destruct (divmod64 ((b - 224) * 64 + (c1 - 128)) (c2 - 128) ltac:(lia)) as [D M]. destruct (divmod64 (b - 224) (c1 - 128) ltac:(lia)) as [D' M'].
      unfold enc1. destruct (N.ltb_spec c 128); [lia|]. destruct (N.ltb_spec c 2048); [lia|]. destruct (N.ltb_spec c 65536); [|lia]. replace (c / 4096) with (c / 64 / 64) by (rewrite N.div_div by lia; reflexivity).
      rewrite Ec, D, M, D', M'. cbn [app]. repeat (apply f_equal2; [lia|]). reflexivity. }
    destruct (N.ltb_spec b 245) as [B4|B4]; [|discriminate].
    destruct r as [|c1 [|c2 [|c3 r3]]]; [discriminate|discriminate|discriminate|]. cbv zeta. destruct (is_cont c1) eqn:C1; [|discriminate]. destruct (is_cont c2) eqn:C2; [|discriminate]. destruct (is_cont c3) eqn:C3; [|discriminate]. cbn [andb]. unfold is_cont in *.
    apply andb_true_iff in C1 as [C1 C1']. apply N.leb_le in C1. apply N.ltb_lt in C1'. apply andb_true_iff in C2 as [C2 C2']. apply N.leb_le in C2. apply N.ltb_lt in C2'. apply andb_true_iff in C3 as [C3 C3']. apply N.leb_le in C3. apply N.ltb_lt in C3'.
    set (c := (b - 240) * 262144 + (c1 - 128) * 4096 + (c2 - 128) * 64 + (c3 - 128)). destruct (N.leb_spec 65536 c) as [G|G]; [|discriminate]. destruct (is_scalar c) eqn:Sc; [|discriminate]. cbn [andb].
    apply St; [cbn in L; lia| |assumption]. assert (Ec : c = (((b - 240) * 64 + (c1 - 128)) * 64 + (c2 - 128)) * 64 + (c3 - 128)) by (unfold c; lia).
    destruct (divmod64 (((b - 240) * 64 + (c1 - 128)) * 64 + (c2 - 128)) (c3 - 128) ltac:(lia)) as [D M]. destruct (divmod64 ((b - 240) * 64 + (c1 - 128)) (c2 - 128) ltac:(lia)) as [D' M']. destruct (divmod64 (b - 240) (c1 - 128) ltac:(lia)) as [D2 M2].
    unfold enc1. destruct (N.ltb_spec c 128); [lia|]. destruct (N.ltb_spec c 2048); [lia|]. destruct (N.ltb_spec c 65536); [lia|]. replace (c / 262144) with (c / 64 / 64 / 64) by (rewrite !N.div_div by lia; reflexivity). replace (c / 4096) with (c / 64 / 64) by (rewrite N.div_div by lia; reflexivity).
    rewrite Ec, D, M, D', M', D2, M2. cbn [app]. repeat (apply f_equal2; [lia|]). reflexivity.
Qed.

(** ** One read *)
Lemma take_bytes_spec : forall l n, l = fst (take_bytes n l) ++ snd (take_bytes n l) /\ (size (fst (take_bytes n l)) <= n) /\ (0 < n -> l <> [] -> fst (take_bytes n l) <> []).
Proof.
  induction l as [|b l IH]; intros n; cbn [take_bytes]; [repeat split; [cbn; lia|congruence]|]. destruct (N.eqb_spec n 0) as [->|Nz]; [repeat split; [cbn; lia|lia]|].
  destruct (IH (n - 1)) as (A & B & _). destruct (take_bytes (n - 1) l) as [a z]. cbn [fst snd] in *. split; [cbn; now rewrite <- A|]. split; [unfold size in *; cbn [length]; lia|discriminate].
Qed.
Lemma read_spec : forall n s, 0 < n -> connection s ->
  (s_pieces s = [] /\ read n s = (match s_failure s with Some e => inr e | None => inl [] end, s)) \/
  exists bs s', read n s = (inl bs, s') /\ bs <> [] /\ size bs <= n /\ sent s = bs ++ sent s' /\ connection s' /\ s_failure s' = s_failure s.
Proof.
  intros n [pieces f] Hn C. unfold read, sent, connection in *. cbn [s_pieces s_failure] in *. destruct pieces as [|p r]; [now left|]. right. inversion C as [|? ? Np Cr]; subst.
  destruct (take_bytes_spec p n) as (A & B & D). destruct (take_bytes n p) as [a z]. cbn [fst snd] in *. exists a, (mkStream (match z with [] => r | _ => z :: r end) f). split; [reflexivity|]. split; [now apply D|]. split; [assumption|].
  cbn [s_pieces s_failure concat]. rewrite A. destruct z as [|x z]; [rewrite app_nil_r; now repeat split|]. cbn [concat]. rewrite app_assoc. split; [reflexivity|]. split; [|reflexivity]. constructor; [discriminate|assumption].
Qed.
Lemma sent_nil : forall s, connection s -> sent s = [] -> s_pieces s = [].
Proof. intros s C E. unfold sent in E. destruct (s_pieces s) as [|p r] eqn:P; [reflexivity|]. unfold connection in C. rewrite P in C. inversion C; subst. cbn in E. apply app_eq_nil in E as [-> _]. congruence. Qed.

Section Read.
  Context {X : Ext} {H : Host}.
  Lemma size_app : forall a b, size (a ++ b) = size a + size b.
  Proof. intros. unfold size. rewrite app_length. lia. Qed.
  Lemma size_pos : forall b : list N, b <> [] -> 0 < size b.
  Proof. intros [|x b] K; [congruence|]. unfold size. cbn. lia. Qed.

  (** reading the headers when they are all there *)
  Lemma read_headers_found : forall fuel buf s pos, connection s -> (length (sent s) < fuel)%nat -> find_headers_end buf = None ->
    find_headers_end (buf ++ sent s) = Some pos -> size (buf ++ sent s) <= max_request -> parse_content_length (lossy (firstn pos (buf ++ sent s))) <= max_request ->
    exists buf' s', read_headers fuel buf s = inl (buf', (pos + 4)%nat, parse_content_length (lossy (firstn pos (buf ++ sent s))), s')
      /\ buf' ++ sent s' = buf ++ sent s /\ connection s' /\ s_failure s' = s_failure s /\ (pos + 4 <= length buf')%nat.
  Proof.
    induction fuel as [|fuel IH]; intros buf s pos C Fu Nf Fd Sz Cl; [lia|]. cbn [read_headers].
    destruct (read_spec 4096 s ltac:(lia) C) as [[E R]|(bs & s' & R & Nb & Lb & Es & C' & Ff)].
    - exfalso. unfold sent in Fd. rewrite E in Fd. cbn in Fd. rewrite app_nil_r in Fd. congruence.
    - rewrite R. destruct bs as [|b bs]; [congruence|]. set (bs' := b :: bs) in *. rewrite Es, app_assoc in *. cbv zeta.
      replace (max_request <? size (buf ++ bs')) with false by (symmetry; apply N.ltb_ge; rewrite size_app in Sz; lia).
      destruct (find_headers_end (buf ++ bs')) as [pos'|] eqn:F.
      + pose proof (find_str_grow _ _ (sent s') _ F) as G. change (find_str crlf2) with find_headers_end in G. rewrite Fd in G. injection G as <-.
        assert (K : firstn pos ((buf ++ bs') ++ sent s') = firstn pos (buf ++ bs')).
        { destruct (find_str_some _ _ _ F) as (q & _ & L). rewrite firstn_app. replace (pos - length (buf ++ bs'))%nat with O by lia. now rewrite firstn_O, app_nil_r. }
        rewrite K in *. replace (max_request <? parse_content_length (lossy (firstn pos (buf ++ bs')))) with false by (symmetry; apply N.ltb_ge; exact Cl).
        exists (buf ++ bs'), s'. repeat split; auto. destruct (find_str_some _ _ _ F) as (q & Eq & L). apply (f_equal (@length N)) in Eq. rewrite !app_length, firstn_length in Eq. cbn [length crlf2] in Eq. rewrite app_length in *. lia.
      + destruct (IH (buf ++ bs') s' pos C') as (buf' & s2 & P1 & P2 & P3 & P4 & P5); auto.
        * rewrite app_length in Fu. subst bs'. cbn [length] in Fu. lia.
        * exists buf', s2. repeat split; auto. congruence.
  Qed.
  (** when the connection ends before the headers do *)
  Lemma read_headers_end : forall fuel buf s, connection s -> (length (sent s) < fuel)%nat -> find_headers_end (buf ++ sent s) = None -> size (buf ++ sent s) <= max_request -> s_failure s = None ->
    exists s', read_headers fuel buf s = inl (buf ++ sent s, O, 0, s') /\ sent s' = [] /\ connection s' /\ s_failure s' = None.
  Proof.
    induction fuel as [|fuel IH]; intros buf s C Fu Nf Sz Fl; [lia|]. cbn [read_headers].
    destruct (read_spec 4096 s ltac:(lia) C) as [[E R]|(bs & s' & R & Nb & Lb & Es & C' & Ff)].
    - rewrite R, Fl. unfold sent. rewrite E. cbn [concat]. rewrite app_nil_r. exists s. repeat split; auto. now rewrite E.
    - rewrite R. destruct bs as [|b bs]; [congruence|]. set (bs' := b :: bs) in *. rewrite Es, app_assoc in *. cbv zeta.
      replace (max_request <? size (buf ++ bs')) with false by (symmetry; apply N.ltb_ge; rewrite size_app in Sz; lia).
      destruct (find_headers_end (buf ++ bs')) as [pos'|] eqn:F; [pose proof (find_str_grow _ _ (sent s') _ F) as G; change (find_str crlf2) with find_headers_end in G; congruence|].
      apply IH; auto; [rewrite app_length in Fu; subst bs'; cbn [length] in Fu; lia|congruence].
  Qed.
  Lemma read_body_all : forall fuel buf left s, connection s -> (length (sent s) < fuel)%nat -> size (sent s) <= left -> size (buf ++ sent s) <= max_request -> (s_failure s = None \/ size (sent s) = left) ->
    read_body fuel buf left s = inl (buf ++ sent s).
  Proof.
    induction fuel as [|fuel IH]; intros buf left s C Fu Lf Sz Fl; [lia|]. cbn [read_body]. destruct (N.eqb_spec left 0) as [->|Nz].
    - assert (sent s = []) as -> by (destruct (sent s); [reflexivity|unfold size in Lf; cbn in Lf; lia]). now rewrite app_nil_r.
    - destruct (read_spec (N.min 8192 left) s ltac:(lia) C) as [[E R]|(bs & s' & R & Nb & Lb & Es & C' & Ff)].
      + rewrite R. unfold sent in *. rewrite E in *. cbn [concat] in *. rewrite app_nil_r. destruct Fl as [-> | Fl]; [reflexivity|]. unfold size in Fl. cbn in Fl. lia.
      + rewrite R. destruct bs as [|b bs]; [congruence|]. set (bs' := b :: bs) in *. rewrite Es, app_assoc in *. cbv zeta.
        replace (max_request <? size (buf ++ bs')) with false by (symmetry; apply N.ltb_ge; rewrite size_app in Sz; lia).
        apply IH; auto.
        * rewrite app_length in Fu. subst bs'. cbn [length] in Fu. lia.
        * rewrite size_app in Lf. lia.
        * rewrite Ff, size_app in *. destruct Fl as [Fl|Fl]; [now left|right; lia].
  Qed.

  (** ** Buffers *)
  Definition clean (p : buffers) : Prop := Forall (fun b => b = []) p /\ (length p <= 4)%nat.
  Lemma clean_get : forall p, clean p -> fst (get_buffer p) = [] /\ clean (snd (get_buffer p)).
  Proof. intros [|b p] [F L]; [now repeat split|]. inversion F; subst. cbn in *. repeat split; [assumption|lia]. Qed.
  Lemma clean_return : forall p b, clean p -> clean (return_buffer p b).
  Proof. intros p b [F L]. unfold return_buffer. destruct (Nat.ltb_spec (length p) 4) as [K|K]; [|now split]. split; [now constructor|cbn; lia]. Qed.
  Lemma read_clean : forall p s, clean p -> clean (snd (read_complete_http_request p s)).
  Proof.
    intros p s C. unfold read_complete_http_request. destruct (clean_get p C) as [_ Cg]. destruct (get_buffer p) as [buf p']. cbn [snd] in Cg. destruct (read_headers (enough s) buf s) as [[[[buf1 pos] n] s1]|e]; [|assumption].
    cbv zeta. destruct (read_body (enough s1) buf1 _ s1) as [buf2|e]; [|assumption]. cbn [snd]. now apply clean_return.
  Qed.
  Lemma buffers_clean : forall earlier, clean (buffers_after earlier).
  Proof.
    intros earlier. unfold buffers_after. assert (C : clean []) by (split; [constructor|cbn; lia]). revert C. generalize ([] : buffers). induction earlier as [|s r IH]; intros p C; [assumption|]. cbn [fold_left]. apply IH. now apply read_clean.
  Qed.
  Lemma reads_fresh : forall earlier s, reads_next earlier s = fst (read_complete_http_request [] s).
  Proof.
    intros earlier s. unfold reads_next. pose proof (buffers_clean earlier) as C. apply clean_get in C as [G _]. unfold read_complete_http_request. destruct (get_buffer (buffers_after earlier)) as [buf p']. cbn [fst] in G. subst buf. cbn [get_buffer].
    destruct (read_headers (enough s) [] s) as [[[[buf1 pos] n] s1]|e]; [|reflexivity]. cbv zeta. now destruct (read_body (enough s1) buf1 _ s1).
  Qed.
  Lemma buffers_bounded : forall earlier, (length (buffers_after earlier) <= 4)%nat.
  Proof. intros earlier. apply (buffers_clean earlier). Qed.

  (** all bytes, when no more were sent than announced *)
  Lemma reads_all : forall earlier s, connection s -> size (sent s) <= max_request ->
    match find_headers_end (sent s) with
    | None => s_failure s = None
    | Some pos => let n := parse_content_length (lossy (firstn pos (sent s))) in n <= max_request /\ size (sent s) <= N.of_nat (pos + 4) + n /\ (s_failure s = None \/ size (sent s) = N.of_nat (pos + 4) + n)
    end -> reads_next earlier s = match decode (sent s) with Some t => inl t | None => inr (bad "Invalid UTF-8") end.
  Proof.
    intros earlier s C Sz P. rewrite reads_fresh. unfold read_complete_http_request. cbn [get_buffer]. destruct (find_headers_end (sent s)) as [pos|] eqn:F.
    - cbv zeta in P. destruct P as (Cl & Le & Fl). destruct (read_headers_found (enough s) [] s pos C) as (buf' & s' & R & E & C' & Ff & L); auto; try (unfold enough, sent; lia). rewrite R. cbn [app] in *. cbv zeta. set (n := parse_content_length _) in *. clearbody n.
      rewrite (read_body_all (enough s') buf' _ s' C'); [cbn [fst]; now rewrite E|unfold enough, sent; lia| |now rewrite E|].
      + rewrite <- E, size_app in Le. unfold size in *. lia.
      + rewrite Ff. destruct Fl as [Fl|Fl]; [now left|right]. rewrite <- E, size_app in Fl. unfold size in *. lia.
    - destruct (read_headers_end (enough s) [] s C) as (s' & R & E & C' & Ff); auto; try (unfold enough, sent; lia). rewrite R. cbn [app]. cbv zeta. rewrite (read_body_all (enough s') (sent s) _ s' C'); rewrite ?E, ?app_nil_r; [reflexivity|unfold enough; fold (sent s'); rewrite E; cbn; lia|cbn; lia|assumption|now left].
  Qed.
  Lemma reads_limited : forall earlier s t, connection s -> reads_next earlier s = inl t -> byte_len t <= max_request.
  Proof.
    intros earlier s t _. rewrite reads_fresh. unfold read_complete_http_request. cbn [get_buffer].
    assert (Hh : forall fuel buf s buf' pos n s', size buf <= max_request -> read_headers fuel buf s = inl (buf', pos, n, s') -> size buf' <= max_request).
    { induction fuel as [|fuel IH]; intros buf s0 buf' pos n s' Sz R; cbn [read_headers] in R; [now injection R as <- _ _ _|]. destruct (read 4096 s0) as [[[|b bs]|e] s1]; [now injection R as <- _ _ _| |discriminate].
      cbv zeta in R. destruct (N.ltb_spec max_request (size (buf ++ b :: bs))) as [L|L]; [discriminate|]. destruct (find_headers_end (buf ++ b :: bs)); [|now apply IH in R].
      destruct (max_request <? _); [discriminate|]. now injection R as <- _ _ _. }
    assert (Hb : forall fuel buf left s buf', size buf <= max_request -> read_body fuel buf left s = inl buf' -> size buf' <= max_request).
    { induction fuel as [|fuel IH]; intros buf left s0 buf' Sz R; cbn [read_body] in R; [now injection R as <-|]. destruct (left =? 0); [now injection R as <-|]. destruct (read (N.min 8192 left) s0) as [[[|b bs]|e] s1]; [now injection R as <-| |discriminate].
      cbv zeta in R. destruct (N.ltb_spec max_request (size (buf ++ b :: bs))) as [L|L]; [discriminate|]. now apply IH in R. }
    destruct (read_headers (enough s) [] s) as [[[[buf1 pos] n] s1]|e] eqn:R; [|discriminate]. cbv zeta. destruct (read_body (enough s1) buf1 _ s1) as [buf2|e] eqn:B; [|discriminate]. cbn [fst].
    destruct (decode buf2) as [t'|] eqn:D; [|discriminate]. intros K. injection K as ->. apply Hh in R; [|cbn; unfold max_request; lia]. apply Hb in B; [|assumption]. unfold byte_len.
    destruct (encode_decode buf2 t D) as [-> _]. exact B.
  Qed.
End Read.

(** ** Header lines *)
Lemma lower_starts : forall `{X : Ext} p before s, unicode X -> Forall (fun c => c < 128 /\ c <> 107) p -> last p 0 <> 105 ->
  starts_with p (lower_from before s) = true -> exists q r, s = q ++ r /\ map lower_ascii q = p.
Proof.
  intros X p. induction p as [|x p IH]; intros before s U F La K; [now exists [], s|]. inversion F as [|? ? [Fx Fk] Fp]; subst. destruct s as [|c s]; [discriminate|]. cbn [lower_from] in K.
  assert (La' : last p 0 <> 105) by (destruct p; [discriminate|exact La]).
  destruct (N.eqb_spec c 931) as [->|N1].
  { unfold starts_with in K. destruct (x_final_sigma before s); cbn [app strip_prefix] in K; destruct (N.eqb_spec x 962), (N.eqb_spec x 963); try discriminate; lia. }
  unfold lower_char in K. unfold is_ascii in K. destruct (N.ltb_spec c 128) as [L|L].
  - unfold starts_with in K. cbn [app strip_prefix] in K. destruct (N.eqb_spec x (lower_ascii c)) as [->|]; [|discriminate]. destruct (IH (before ++ [c]) s U Fp La' K) as (q & r & E & M). exists (c :: q), r. cbn. now rewrite <- E, M.
  - exfalso. destruct U as (U1 & U2 & U3). destruct (N.eq_dec c 304) as [->|N2]; [|destruct (N.eq_dec c 8490) as [->|N3]].
    + rewrite U1 in K. unfold starts_with in K. cbn [app strip_prefix] in K. destruct (N.eqb_spec x 105) as [->|]; [|discriminate]. destruct p as [|y p]; [now apply La|]. inversion Fp as [|? ? [Fy _] _]; subst. cbn [strip_prefix] in K. destruct (N.eqb_spec y 775); [lia|discriminate].
    + rewrite U2 in K. unfold starts_with in K. cbn [app strip_prefix] in K. destruct (N.eqb_spec x 107); [congruence|discriminate].
    + destruct (U3 c L N2 N3) as [Ne Fa]. destruct (x_lower_char c) as [|d ds]; [congruence|]. inversion Fa; subst. unfold starts_with in K. cbn [app strip_prefix] in K. destruct (N.eqb_spec x d); [lia|discriminate].
Qed.
Lemma lower_ascii_prefix : forall `{X : Ext} q before r, Forall (fun c => c < 128) (map lower_ascii q) -> exists t, lower_from before (q ++ r) = map lower_ascii q ++ t.
Proof.
  intros X q. induction q as [|c q IH]; intros before r F; [now eexists|]. cbn [map] in F. inversion F as [|? ? Fc Fq]; subst. cbn [app lower_from map]. destruct (IH (before ++ [c]) r Fq) as [t ->]. exists t.
  assert (L : c < 128). { unfold lower_ascii in Fc. destruct (is_upper_ascii c) eqn:U; [|assumption]. unfold is_upper_ascii in U. apply andb_true_iff in U as [_ U]. apply N.leb_le in U. lia. }
  destruct (N.eqb_spec c 931); [lia|]. unfold lower_char, is_ascii. replace (c <? 128) with true by (symmetry; now apply N.ltb_lt). reflexivity.
Qed.
Lemma lower_58 : forall c, lower_ascii c = 58 -> c = 58.
Proof. intros c. unfold lower_ascii. destruct (is_upper_ascii c) eqn:U; [|auto]. unfold is_upper_ascii in U. apply andb_true_iff in U as [U _]. apply N.leb_le in U. lia. Qed.
Definition name_ok (name : string) : Prop := Forall (fun c => c < 128 /\ c <> 107 /\ c <> 58) (lit name).
Lemma header_starts : forall `{X : Ext} name l, unicode X -> name_ok name ->
  (starts_with (lit name ++ [58]) (to_lowercase l) = true <-> exists value, is_header name l value).
Proof.
  intros X name l U F. split.
  - intros K. destruct (lower_starts (lit name ++ [58]) [] l U) as (q & r & E & M); auto.
    + apply Forall_app. split; [|constructor; [split; lia|constructor]]. eapply Forall_impl; [|exact F]. cbn. lia.
    + now rewrite last_last.
    + apply map_eq_app in M as (n & c & -> & M1 & M2). destruct c as [|c [|]]; [discriminate| |discriminate]. injection M2 as M2. apply lower_58 in M2 as ->. exists r, n. split; [now rewrite E, <- app_assoc|assumption].
  - intros (value & n & -> & M). unfold to_lowercase. change (n ++ 58 :: value) with (n ++ [58] ++ value). rewrite app_assoc.
    destruct (lower_ascii_prefix (n ++ [58]) [] value) as [t ->].
    + rewrite map_app, M. apply Forall_app. split; [eapply Forall_impl; [|exact F]; cbn; lia|repeat constructor].
    + rewrite map_app, M. apply starts_with_spec. now exists t.
Qed.
Lemma is_header_unique : forall name l v w, name_ok name -> is_header name l v -> is_header name l w -> v = w.
Proof.
  intros name l v w F (n & -> & M) (n' & E & M'). revert n n' E M M'. clear -F. unfold name_ok in F. revert F. generalize (lit name) as p. clear name. induction p as [|x p IH]; intros F n n' E M M'.
  - apply map_eq_nil in M as ->. apply map_eq_nil in M' as ->. now injection E.
  - destruct n as [|c n], n' as [|c' n']; try discriminate. inversion F; subst. cbn in *. injection M as M1 M2. injection M' as M1' M2'. injection E as _ E. now apply (IH H2 n n').
Qed.

Lemma split_char_none : forall c s, ~ In c s -> split_char c s = [s].
Proof. intros c s. induction s as [|x s IH]; intros K; [reflexivity|]. cbn in *. destruct (N.eqb_spec x c); [tauto|]. now rewrite IH by tauto. Qed.
Lemma split_char_app : forall c a s, ~ In c a -> split_char c (a ++ c :: s) = a :: split_char c s.
Proof. intros c a s. induction a as [|x a IH]; intros K; cbn in *; [now rewrite N.eqb_refl|]. destruct (N.eqb_spec x c); [tauto|]. now rewrite IH by tauto. Qed.
Lemma strip_cr_app : forall l, strip_cr (l ++ [13]) = l.
Proof. intros l. unfold strip_cr, strip_suffix. rewrite rev_app_distr. cbn. now rewrite rev_involutive. Qed.
Lemma lines_join : forall ls, Forall a_line ls -> lines (join crlf ls) = ls.
Proof.
  intros ls F. induction F as [|l ls (Ne & N13 & N10) F IH]; [reflexivity|]. unfold lines in *. destruct ls as [|l' ls].
  - cbn [join]. rewrite split_char_none by assumption. cbn. now destruct l.
  - change (join crlf (l :: l' :: ls)) with (l ++ [13; 10] ++ join crlf (l' :: ls)). change (l ++ [13; 10] ++ join crlf (l' :: ls)) with (l ++ [13] ++ 10 :: join crlf (l' :: ls)). rewrite app_assoc, split_char_app.
    + set (rest := split_char 10 (join crlf (l' :: ls))) in *. assert (rest <> []) by (intros K; now rewrite K in IH). destruct rest as [|r0 rest]; [congruence|]. change (end_lines ((l ++ [13]) :: r0 :: rest)) with (strip_cr (l ++ [13]) :: end_lines (r0 :: rest)). now rewrite strip_cr_app, IH.
    + intros K. apply in_app_or in K as [K|[K|[]]]; [auto|discriminate].
Qed.
Lemma find_skip_line : forall l s, ~ In 13 l -> find_str crlf2 (l ++ s) = option_map (fun i => (length l + i)%nat) (find_str crlf2 s).
Proof. intros l s K. apply find_skip. apply Forall_forall. intros b B ->. contradiction. Qed.
Lemma find_past : forall c w, c <> 13 -> find_str crlf2 (13 :: 10 :: c :: w) = option_map (fun i => (2 + i)%nat) (find_str crlf2 (c :: w)).
Proof.
  intros c w K. assert (E : starts_with crlf2 (13 :: 10 :: c :: w) = false) by (destruct (starts_with crlf2 (13 :: 10 :: c :: w)) eqn:Q; [|reflexivity]; apply starts_with_spec in Q as [r Q]; injection Q; congruence).
  change (find_str crlf2 (13 :: 10 :: c :: w)) with (if starts_with crlf2 (13 :: 10 :: c :: w) then Some O else match find_str crlf2 (10 :: c :: w) with Some i => Some (S i) | None => None end). rewrite E.
  change (find_str crlf2 (10 :: c :: w)) with (match find_str crlf2 (c :: w) with Some i => Some (S i) | None => None end). now destruct (find_str crlf2 (c :: w)).
Qed.
Lemma find_end : forall ls body, Forall a_line ls -> ls <> [] -> find_str crlf2 (request ls body) = Some (length (join crlf ls)).
Proof.
  intros ls body F. unfold request. induction F as [|l ls (Ne & N13 & N10) F IH]; [congruence|]. intros _. destruct ls as [|l' ls].
  - cbn [join]. rewrite find_skip_line by assumption. cbn. f_equal. lia.
  - change (join crlf (l :: l' :: ls)) with (l ++ crlf ++ join crlf (l' :: ls)). rewrite <- !app_assoc. rewrite find_skip_line by assumption. inversion F as [|? ? (Ne' & N13' & _) _]; subst.
    specialize (IH ltac:(discriminate)). set (w := join crlf (l' :: ls) ++ crlf ++ crlf ++ body) in *. assert (Hd : exists c w', w = c :: w' /\ c <> 13).
    { destruct l' as [|c l']; [congruence|]. unfold w. destruct ls; cbn [join app]; eexists _, _; (split; [reflexivity|]); intros ->; apply N13'; now left. }
    destruct Hd as (c & w' & Ew & Nc). rewrite Ew in *. cbn [crlf app]. rewrite find_past, IH by assumption. cbn [option_map]. f_equal. rewrite !app_length. cbn [length]. lia.
Qed.

Lemma trim_start_id : forall s, match s with c :: _ => is_whitespace c = false | [] => True end -> trim_start s = s.
Proof. intros [|c s] K; [reflexivity|]. cbn. now rewrite K. Qed.
Lemma white_rev : forall s, white s -> white (rev s).
Proof. intros s. apply Forall_rev. Qed.
Lemma digit_not_white : forall c, is_digit c = true -> is_whitespace c = false.
Proof.
  intros c D. apply is_digit_range in D. assert (c = 48 \/ c = 49 \/ c = 50 \/ c = 51 \/ c = 52 \/ c = 53 \/ c = 54 \/ c = 55 \/ c = 56 \/ c = 57) as Cs by lia. repeat (destruct Cs as [->|Cs]; [reflexivity|]). now subst.
Qed.
Lemma unspaced_end : forall s, unspaced s -> match rev s with c :: _ => is_whitespace c = false | [] => True end.
Proof. intros s [_ B]. destruct (rev s) as [|c r] eqn:E; [exact Logic.I|]. apply (B (rev r) c). apply (f_equal (@rev N)) in E. rewrite rev_involutive in E. exact E. Qed.
Lemma unspaced_start : forall s, unspaced s -> match s with c :: _ => is_whitespace c = false | [] => True end.
Proof. intros [|c s] [A _]; [exact Logic.I|]. now apply (A c s). Qed.
Lemma trim_pad : forall w1 s w2, white w1 -> white w2 -> unspaced s -> trim (w1 ++ s ++ w2) = s.
Proof.
  intros w1 s w2 W1 W2 U. pose proof (unspaced_start s U) as A. pose proof (unspaced_end s U) as B. unfold trim, trim_end. rewrite trim_start_app by assumption. destruct s as [|c s].
  - cbn [app]. assert (trim_start w2 = []) as -> by now apply trim_start_nil. reflexivity.
  - rewrite (trim_start_id ((c :: s) ++ w2)) by exact A. rewrite rev_app_distr, trim_start_app by now apply white_rev. rewrite trim_start_id by exact B. apply rev_involutive.
Qed.
Lemma unspaced_digits : forall ds, digits ds -> unspaced ds.
Proof.
  intros ds [Ne D]. rewrite forallb_forall in D. split.
  - intros c r ->. apply digit_not_white, D. now left.
  - intros r c ->. apply digit_not_white, D. apply in_or_app. right. now left.
Qed.
Lemma trim_trimmed : forall s, trimmed s (trim s).
Proof.
  intros s. unfold trim, trim_end. destruct (trim_start_spec s) as (w1 & E1 & W1 & H1). destruct (trim_start_spec (rev (trim_start s))) as (w2 & E2 & W2 & H2).
  set (u := trim_start s) in *. set (v := trim_start (rev u)) in *. exists w1, (rev w2). apply (f_equal (@rev N)) in E2. rewrite rev_involutive, rev_app_distr in E2.
  split; [now rewrite E1, E2 at 1|]. split; [assumption|]. split; [now apply white_rev|]. split.
  - intros c r E. apply (H1 c (r ++ rev w2)). rewrite E2, E. reflexivity.
  - intros r c E. apply (H2 c (rev r)). apply (f_equal (@rev N)) in E. rewrite rev_involutive, rev_app_distr in E. exact E.
Qed.
Lemma trimmed_iff : forall s t, trimmed s t <-> t = trim s.
Proof. intros s t. split; [intros (w1 & w2 & -> & W1 & W2 & U); symmetry; now apply trim_pad|intros ->; apply trim_trimmed]. Qed.
Lemma usize_digits : forall ds, digits ds -> digits_value ds < 2 ^ 64 -> usize_from_str ds = Some (digits_value ds).
Proof.
  intros ds [Ne D] L. unfold usize_from_str. assert (match ds with 43 :: r => r | _ => ds end = ds) as ->.
  { destruct ds as [|c ds]; [reflexivity|]. cbn [forallb] in D. apply andb_true_iff in D as [D _]. apply is_digit_range in D. assert (c = 48 \/ c = 49 \/ c = 50 \/ c = 51 \/ c = 52 \/ c = 53 \/ c = 54 \/ c = 55 \/ c = 56 \/ c = 57) as Cs by lia. repeat (destruct Cs as [->|Cs]; [reflexivity|]). now subst. }
  destruct ds as [|c ds]; [congruence|]. rewrite D. fold (digits_value (c :: ds)). destruct (N.leb_spec (digits_value (c :: ds)) 18446744073709551615) as [K|K]; [reflexivity|]. change (2 ^ 64) with 18446744073709551616 in L. lia.
Qed.
Lemma white_58 : forall w, white w -> ~ In 58 w.
Proof. intros w W K. unfold white in W. rewrite Forall_forall in W. now apply W in K. Qed.
Lemma digits_58 : forall w, digits w -> ~ In 58 w.
Proof. intros w [_ W] K. rewrite forallb_forall in W. now apply W in K. Qed.
Lemma no_colon_name : forall name n, name_ok name -> map lower_ascii n = lit name -> ~ In 58 n.
Proof. intros name n F M K. apply (in_map lower_ascii) in K. rewrite M in K. unfold name_ok in F. rewrite Forall_forall in F. apply F in K. cbn in K. lia. Qed.
Lemma content_length_ok : name_ok "content-length".
Proof. repeat constructor; vm_compute; discriminate. Qed.
Lemma announced : forall `{X : Ext} ls n, unicode X -> announces ls n -> n < 2 ^ 64 -> content_length_in ls = n.
Proof.
  intros X ls n U A L. pose proof content_length_ok as Ok.
  assert (Skip : forall before rest, Forall (not_header "content-length") before -> content_length_in (before ++ rest) = content_length_in rest).
  { intros before rest F. induction F as [|l before Nl F IH]; [reflexivity|]. cbn [app content_length_in]. destruct (starts_with (lit "content-length:") (to_lowercase l)) eqn:E; [|assumption].
    change (lit "content-length:") with (lit "content-length" ++ [58]) in E. apply header_starts in E; auto. destruct E as [v E]. now apply Nl in E. }
  destruct A as [(before & l & after & value & w1 & ds & w2 & -> & F & Hl & -> & W1 & W2 & D & <-)|[F ->]].
  - rewrite Skip by assumption. cbn [content_length_in]. assert (starts_with (lit "content-length:") (to_lowercase l) = true) as -> by (change (lit "content-length:") with (lit "content-length" ++ [58]); apply header_starts; eauto).
    destruct Hl as (nm & -> & M). rewrite split_char_app by (eapply no_colon_name; eauto). rewrite split_char_none.
    + rewrite trim_pad by auto using unspaced_digits. now rewrite usize_digits.
    + intros K. apply in_app_or in K as [K|K]; [now apply white_58 in K|]. apply in_app_or in K as [K|K]; [now apply digits_58 in K|now apply white_58 in K].
  - rewrite <- (app_nil_r ls), Skip by assumption. reflexivity.
Qed.

Section Requests.
  Context {X : Ext} {H : Host}.
  (** a complete request is read whole, however it is cut into pieces, whatever
      happens to the connection later, whatever was read before *)
  Lemma request_read : forall earlier ls body s, unicode X -> Forall a_line ls -> ls <> [] -> valid_str (request ls body) ->
    announces ls (byte_len body) -> byte_len (request ls body) <= max_request ->
    connection s -> sent s = encode (request ls body) -> reads_next earlier s = inl (request ls body).
  Proof.
    intros earlier ls body s U F Ne V A Sz C E. rewrite (reads_all earlier s C); rewrite E; [now rewrite decode_encode| |].
    - exact Sz.
    - unfold find_headers_end, crlf2. rewrite find_encode by reflexivity. pose proof (find_end ls body F Ne) as Fe. unfold crlf2 in Fe. rewrite Fe. cbn [option_map]. cbv zeta. rewrite firstn_encode.
      assert (firstn (length (join crlf ls)) (request ls body) = join crlf ls) as Fj by (unfold request; rewrite firstn_app, firstn_all, Nat.sub_diag, firstn_O; apply app_nil_r).
      rewrite Fj. unfold lossy. assert (valid_str (join crlf ls)) as Vj by (unfold valid_str, request in *; apply Forall_app in V; tauto). rewrite (decode_encode _ Vj). unfold parse_content_length. rewrite lines_join by assumption.
      assert (Tot : size (encode (request ls body)) = N.of_nat (length (encode (join crlf ls)) + 4) + byte_len body).
      { unfold request, size, byte_len. rewrite !encode_app, !app_length. change (length (encode crlf)) with 2%nat. lia. }
      rewrite (announced ls (byte_len body)); auto.
      + split; [|split; [|right]]; rewrite ?Tot; [|lia|lia]. unfold byte_len in Sz at 1. unfold size in Tot. rewrite Tot in Sz. lia.
      + unfold byte_len in Sz at 1. unfold size in Tot. rewrite Tot in Sz. unfold max_request in Sz. change (2 ^ 64) with 18446744073709551616. lia.
  Qed.
  (** a text that ends before its headers, or sends less than it announces, is read as far as it goes *)
  Lemma truncated_read : forall earlier ls body n s, unicode X -> Forall a_line ls -> ls <> [] -> valid_str (request ls body) ->
    announces ls n -> byte_len body <= n <= max_request -> byte_len (request ls body) <= max_request ->
    connection s -> s_failure s = None -> sent s = encode (request ls body) -> reads_next earlier s = inl (request ls body).
  Proof.
    intros earlier ls body n s U F Ne V A Ln Sz C Fl E. rewrite (reads_all earlier s C); rewrite E; [now rewrite decode_encode| |].
    - exact Sz.
    - unfold find_headers_end, crlf2. rewrite find_encode by reflexivity. pose proof (find_end ls body F Ne) as Fe. unfold crlf2 in Fe. rewrite Fe. cbn [option_map]. cbv zeta. rewrite firstn_encode.
      assert (firstn (length (join crlf ls)) (request ls body) = join crlf ls) as Fj by (unfold request; rewrite firstn_app, firstn_all, Nat.sub_diag, firstn_O; apply app_nil_r).
      rewrite Fj. unfold lossy. assert (valid_str (join crlf ls)) as Vj by (unfold valid_str, request in *; apply Forall_app in V; tauto). rewrite (decode_encode _ Vj). unfold parse_content_length. rewrite lines_join by assumption.
      assert (Tot : size (encode (request ls body)) = N.of_nat (length (encode (join crlf ls)) + 4) + byte_len body).
      { unfold request, size, byte_len. rewrite !encode_app, !app_length. change (length (encode crlf)) with 2%nat. lia. }
      rewrite (announced ls n); auto.
      + split; [lia|split; [|now left]]; rewrite ?Tot; lia.
      + unfold max_request in Ln. change (2 ^ 64) with 18446744073709551616. lia.
  Qed.
  Lemma read_headers_big : forall fuel buf s pos, connection s -> (length (sent s) < fuel)%nat -> find_headers_end buf = None ->
    find_headers_end (buf ++ sent s) = Some pos -> max_request < parse_content_length (lossy (firstn pos (buf ++ sent s))) -> exists e, read_headers fuel buf s = inr e.
  Proof.
    induction fuel as [|fuel IH]; intros buf s pos C Fu Nf Fd Cl; [lia|]. cbn [read_headers].
    destruct (read_spec 4096 s ltac:(lia) C) as [[E R]|(bs & s' & R & Nb & Lb & Es & C' & Ff)].
    - exfalso. unfold sent in Fd. rewrite E in Fd. cbn in Fd. rewrite app_nil_r in Fd. congruence.
    - rewrite R. destruct bs as [|b bs]; [congruence|]. set (bs' := b :: bs) in *. rewrite Es, app_assoc in *. cbv zeta. destruct (max_request <? size (buf ++ bs')); [eauto|].
      destruct (find_headers_end (buf ++ bs')) as [pos'|] eqn:F.
      + pose proof (find_str_grow _ _ (sent s') _ F) as G. change (find_str crlf2) with find_headers_end in G. rewrite Fd in G. injection G as <-.
        assert (K : firstn pos ((buf ++ bs') ++ sent s') = firstn pos (buf ++ bs')).
        { destruct (find_str_some _ _ _ F) as (q & _ & L). rewrite firstn_app. replace (pos - length (buf ++ bs'))%nat with O by lia. now rewrite firstn_O, app_nil_r. }
        rewrite K in *. replace (max_request <? parse_content_length (lossy (firstn pos (buf ++ bs')))) with true by (symmetry; now apply N.ltb_lt). eauto.
      + apply (IH (buf ++ bs') s' pos C'); auto. rewrite app_length in Fu. subst bs'. cbn [length] in Fu. lia.
  Qed.
  Lemma read_body_big : forall fuel buf left s, connection s -> (length (sent s) < fuel)%nat -> size (sent s) <= left -> size buf <= max_request -> max_request < size (buf ++ sent s) ->
    exists e, read_body fuel buf left s = inr e.
  Proof.
    induction fuel as [|fuel IH]; intros buf left s C Fu Lf Sb Sz; [lia|]. cbn [read_body]. destruct (N.eqb_spec left 0) as [->|Nz]; [rewrite size_app in Sz; lia|].
    destruct (read_spec (N.min 8192 left) s ltac:(lia) C) as [[E R]|(bs & s' & R & Nb & Lb & Es & C' & Ff)].
    - rewrite R. unfold sent in *. rewrite E in *. cbn [concat] in *. rewrite app_nil_r in Sz. lia.
    - rewrite R. destruct bs as [|b bs]; [congruence|]. set (bs' := b :: bs) in *. rewrite Es, app_assoc in *. cbv zeta. destruct (N.ltb_spec max_request (size (buf ++ bs'))); [eauto|].
      apply IH; auto.
      * rewrite app_length in Fu. subst bs'. cbn [length] in Fu. lia.
      * rewrite size_app in Lf. lia.
  Qed.
  Lemma read_headers_split : forall fuel buf s pos, connection s -> (length (sent s) < fuel)%nat -> find_headers_end buf = None ->
    find_headers_end (buf ++ sent s) = Some pos ->
    (exists e, read_headers fuel buf s = inr e) \/
    exists buf' s', read_headers fuel buf s = inl (buf', (pos + 4)%nat, parse_content_length (lossy (firstn pos (buf ++ sent s))), s')
      /\ buf' ++ sent s' = buf ++ sent s /\ connection s' /\ (pos + 4 <= length buf')%nat /\ size buf' <= max_request.
  Proof.
    induction fuel as [|fuel IH]; intros buf s pos C Fu Nf Fd; [lia|]. cbn [read_headers].
    destruct (read_spec 4096 s ltac:(lia) C) as [[E R]|(bs & s' & R & Nb & Lb & Es & C' & Ff)].
    - exfalso. unfold sent in Fd. rewrite E in Fd. cbn in Fd. rewrite app_nil_r in Fd. congruence.
    - rewrite R. destruct bs as [|b bs]; [congruence|]. set (bs' := b :: bs) in *. rewrite Es, app_assoc in *. cbv zeta. destruct (N.ltb_spec max_request (size (buf ++ bs'))) as [Lm|Lm]; [eauto|].
      destruct (find_headers_end (buf ++ bs')) as [pos'|] eqn:F.
      + pose proof (find_str_grow _ _ (sent s') _ F) as G. change (find_str crlf2) with find_headers_end in G. rewrite Fd in G. injection G as <-.
        assert (K : firstn pos ((buf ++ bs') ++ sent s') = firstn pos (buf ++ bs')).
        { destruct (find_str_some _ _ _ F) as (q & _ & L). rewrite firstn_app. replace (pos - length (buf ++ bs'))%nat with O by lia. now rewrite firstn_O, app_nil_r. }
        rewrite K in *. destruct (max_request <? parse_content_length (lossy (firstn pos (buf ++ bs')))); [eauto|]. right.
        exists (buf ++ bs'), s'. repeat split; auto. destruct (find_str_some _ _ _ F) as (q & Eq & L). apply (f_equal (@length N)) in Eq. rewrite !app_length, firstn_length in Eq. cbn [length crlf2] in Eq. rewrite app_length in *. lia.
      + destruct (IH (buf ++ bs') s' pos C') as [P|(buf' & s2 & P1 & P2 & P3 & P4)]; auto.
        * rewrite app_length in Fu. subst bs'. cbn [length] in Fu. lia.
        * right. exists buf', s2. tauto.
  Qed.
  Lemma request_headers : forall ls body n, unicode X -> Forall a_line ls -> ls <> [] -> valid_str (request ls body) -> announces ls n -> n < 2 ^ 64 ->
    exists pos, find_headers_end (encode (request ls body)) = Some pos /\ parse_content_length (lossy (firstn pos (encode (request ls body)))) = n
      /\ size (encode (request ls body)) = N.of_nat (pos + 4) + byte_len body.
  Proof.
    intros ls body n U F Ne V A L. exists (length (encode (join crlf ls))). unfold find_headers_end, crlf2. rewrite find_encode by reflexivity. pose proof (find_end ls body F Ne) as Fe. unfold crlf2 in Fe. rewrite Fe. cbn [option_map].
    assert (firstn (length (join crlf ls)) (request ls body) = join crlf ls) as Fj by (unfold request; rewrite firstn_app, firstn_all, Nat.sub_diag, firstn_O; apply app_nil_r).
    pose proof (firstn_encode (length (join crlf ls)) (request ls body)) as Fn. rewrite Fj in *. split; [reflexivity|]. rewrite Fn. unfold lossy. assert (valid_str (join crlf ls)) as Vj by (unfold valid_str, request in *; apply Forall_app in V; tauto).
    rewrite (decode_encode _ Vj). unfold parse_content_length. rewrite lines_join by assumption. split; [now apply announced|]. unfold request, size, byte_len. rewrite !encode_app, !app_length. change (length (encode crlf)) with 2%nat. lia.
  Qed.
  (** an announced body over the limit is refused, whatever is sent of it *)
  Lemma announced_too_large : forall earlier ls body n s, unicode X -> Forall a_line ls -> ls <> [] -> valid_str (request ls body) ->
    announces ls n -> max_request < n < 2 ^ 64 -> connection s -> sent s = encode (request ls body) ->
    exists e, reads_next earlier s = inr e.
  Proof.
    intros earlier ls body n s U F Ne V A Ln C E. rewrite reads_fresh. unfold read_complete_http_request. cbn [get_buffer]. destruct (request_headers ls body n U F Ne V A ltac:(lia)) as (pos & Fd & P & _). rewrite <- E in *.
    destruct (read_headers_big (enough s) [] s pos C) as [e R]; auto; try (cbn [app]; rewrite P; lia). rewrite R. now exists e.
  Qed.
  (** and so is a request over the limit that sends what it announces *)
  Lemma sent_too_large : forall earlier ls body s, unicode X -> Forall a_line ls -> ls <> [] -> valid_str (request ls body) ->
    announces ls (byte_len body) -> max_request < byte_len (request ls body) -> byte_len body < 2 ^ 64 -> connection s -> sent s = encode (request ls body) ->
    exists e, reads_next earlier s = inr e.
  Proof.
    intros earlier ls body s U F Ne V A Ln L64 C E. rewrite reads_fresh. unfold read_complete_http_request. cbn [get_buffer]. destruct (request_headers ls body _ U F Ne V A L64) as (pos & Fd & P & T). unfold byte_len in Ln at 1. fold (size (encode (request ls body))) in Ln. rewrite <- E in *.
    destruct (read_headers_split (enough s) [] s pos C) as [[e R]|(buf' & s' & R & Es & C' & Lp & Sb)]; auto; try (unfold enough, sent; lia); rewrite R; [now exists e|]. cbn [app] in *. cbv zeta. rewrite P.
    destruct (read_body_big (enough s') buf' (byte_len body - (size buf' - N.of_nat (pos + 4))) s' C') as [e R']; auto; try (unfold enough, sent; lia).
    - rewrite <- Es, size_app in T. unfold size in *. lia.
    - now rewrite Es.
    - rewrite R'. now exists e.
  Qed.
End Requests.
