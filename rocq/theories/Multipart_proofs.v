(** Forms: proofs. *)
From Coq Require Import String List ZArith NArith Bool Lia.
From Verif Require Import Base Syntax Ext Json Lines Host HttpRead HttpAuth Multipart Spec Spec_syntax Spec_http Spec_json Spec_form Base_proofs HttpRead_proofs HttpAuth_proofs Command_proofs.
Import ListNotations.
Local Open Scope N_scope.

Lemma app_split : forall (x1 x2 y1 y2 : str), x1 ++ x2 = y1 ++ y2 -> (length y1 <= length x1)%nat -> exists l, x1 = y1 ++ l /\ y2 = l ++ x2.
Proof.
  intros x1 x2 y1. revert x1. induction y1 as [|c y1 IH]; intros x1 y2 E L; [now exists x1|]. destruct x1 as [|d x1]; [cbn in L; lia|]. cbn [app] in E. injection E as -> E. destruct (IH x1 y2 E) as (l & -> & ->); [cbn in L; lia|]. now exists l.
Qed.
Lemma once_at : forall p a b, (forall a' b', a ++ p ++ b = a' ++ p ++ b' -> (length a <= length a')%nat) -> split_once p (a ++ p ++ b) = Some (a, b).
Proof.
  intros p a b M. unfold split_once. rewrite (find_str_is p (a ++ p ++ b) a b eq_refl M). rewrite firstn_app, firstn_all, Nat.sub_diag. cbn [firstn]. rewrite app_nil_r.
  rewrite skipn_app. rewrite skipn_all2 by lia. replace (length a + length p - length a)%nat with (length p) by lia. rewrite skipn_app, skipn_all, Nat.sub_diag. reflexivity.
Qed.
(** a text that ends with a line break before a pattern without one *)
Lemma once_line : forall p a b, ~ In 10 p -> p <> [] -> ~ occurs p a -> split_once p ((a ++ [10]) ++ p ++ b) = Some (a ++ [10], b).
Proof.
  intros p a b N Ne No. apply once_at. intros a' b' E. rewrite app_length. cbn [length]. destruct (Nat.le_gt_cases (length a + 1) (length a')) as [L|L]; [assumption|exfalso].
  rewrite <- app_assoc in E. apply app_split in E as (l & -> & E); [|lia]. cbn [app] in E. destruct (Nat.le_gt_cases (length p) (length l)) as [K|K].
  - symmetry in E. apply app_split in E as (l' & -> & _); [|exact K]. apply No. exists a', l'. reflexivity.
  - apply app_split in E as (q & -> & E); [|lia]. destruct q as [|c q]; [rewrite app_nil_r in K; lia|]. injection E as <- _. apply N. apply in_or_app. right. now left.
Qed.
Lemma occurs_lines : forall p a b, ~ In 10 p -> p <> [] -> occurs p (a ++ 10 :: b) -> occurs p a \/ occurs p b.
Proof.
  intros p a b N Ne (x & y & E). destruct (Nat.le_gt_cases (length x) (length a)) as [L|L].
  - apply app_split in E as (l & -> & E); [|exact L]. destruct (Nat.le_gt_cases (length p) (length l)) as [K|K].
    + symmetry in E. apply app_split in E as (l' & -> & _); [|exact K]. left. exists x, l'. reflexivity.
    + apply app_split in E as (q & -> & E); [|lia]. destruct q as [|c q]; [rewrite app_nil_r in K; lia|]. injection E as <- _. exfalso. apply N. apply in_or_app. right. now left.
  - symmetry in E. apply app_split in E as (l & -> & E); [|lia]. destruct l as [|c l]; [rewrite app_nil_r in L; lia|]. injection E as _ ->. right. exists l, y. reflexivity.
Qed.

Fixpoint chain (d : str) (ps : list str) (tail : str) : str := match ps with [] => tail | p :: r => p ++ d ++ chain d r tail end.
Lemma split_chain : forall d ps tail k, d <> [] -> ~ In 10 d -> Forall (fun p => exists a, p = a ++ [10] /\ ~ occurs d a) ps -> ~ occurs d tail -> (length ps < k)%nat -> split_str_fuel k d (chain d ps tail) = ps ++ [tail].
Proof.
  intros d ps tail k Ne N F Nt. revert k. induction F as [|p ps (a & -> & No) F IH]; intros k L; (destruct k as [|k]; [cbn in L; lia|]); cbn [chain split_str_fuel app].
  - unfold split_once. destruct (find_str d tail) as [i|] eqn:E; [|reflexivity]. apply find_str_some in E as (r & E & _). exfalso. apply Nt. exists (firstn i tail), r. exact E.
  - rewrite once_line by assumption. rewrite IH by (cbn in L; lia). reflexivity.
Qed.
Lemma chain_length : forall d ps tail, d <> [] -> (length ps <= length (chain d ps tail))%nat.
Proof. intros d ps tail Ne. destruct d as [|c d]; [congruence|]. induction ps as [|p ps IH]; cbn [chain length]; [lia|]. rewrite !app_length. cbn [length]. lia. Qed.

Section Form.
  Context {X : Ext}.
  Variable b : str.
  Hypothesis Pb : proper_boundary b.
  Hypothesis U : unicode X.
  Definition mark_of : str := lit "--" ++ b.
  Lemma mark_10 : ~ In 10 mark_of.
  Proof. destruct Pb as [_ F]. intros I. cbn in I. destruct I as [I|[I|I]]; [discriminate|discriminate|]. rewrite Forall_forall in F. apply F in I as [I _]. discriminate. Qed.
  Lemma mark_13 : ~ In 13 mark_of.
  Proof. destruct Pb as [_ F]. intros I. cbn in I. destruct I as [I|[I|I]]; [discriminate|discriminate|]. rewrite Forall_forall in F. apply F in I as [I _]. discriminate. Qed.
  Lemma mark_ne : mark_of <> [].
  Proof. discriminate. Qed.
  Definition piece (f : form_field) : str := crlf ++ request (part_lines f) (ff_content f) ++ crlf.

  Lemma occurs_13 : forall p a x, ~ In 13 p -> p <> [] -> occurs p (a ++ 13 :: x) -> occurs p a \/ occurs p x.
  Proof.
    intros p a x N Ne (u & y & E). destruct (Nat.le_gt_cases (length u) (length a)) as [L|L].
    - apply app_split in E as (l & -> & E); [|exact L]. destruct (Nat.le_gt_cases (length p) (length l)) as [K|K].
      + symmetry in E. apply app_split in E as (l' & -> & _); [|exact K]. left. exists u, l'. reflexivity.
      + apply app_split in E as (q & -> & E); [|lia]. destruct q as [|c q]; [rewrite app_nil_r in K; lia|]. injection E as <- _. exfalso. apply N. apply in_or_app. right. now left.
    - symmetry in E. apply app_split in E as (l & -> & E); [|lia]. destruct l as [|c l]; [rewrite app_nil_r in L; lia|]. injection E as _ ->. right. exists l, y. reflexivity.
  Qed.
  Lemma occurs_nil : forall p, p <> [] -> ~ occurs p [].
  Proof. intros p Ne (u & v & E). destruct u; [|discriminate]. destruct p; [congruence|discriminate]. Qed.
  Lemma occurs_crlf : forall a x, occurs mark_of (a ++ crlf ++ x) -> occurs mark_of a \/ occurs mark_of x.
  Proof.
    intros a x O. change (a ++ crlf ++ x) with (a ++ 13 :: 10 :: x) in O. apply occurs_13 in O as [O|O]; [now left| |apply mark_13|apply mark_ne].
    change (10 :: x) with ([] ++ 10 :: x) in O. apply occurs_lines in O as [O|O]; [|now right|apply mark_10|apply mark_ne]. exfalso. revert O. apply occurs_nil, mark_ne.
  Qed.
  Lemma part_unmarked : forall f, proper_field b f -> exists a, piece f = a ++ [10] /\ ~ occurs mark_of a.
  Proof.
    intros f P. destruct P as [_ _ _ _ Pu]. exists (crlf ++ request (part_lines f) (ff_content f) ++ [13]). split; [unfold piece, crlf; now rewrite <- !app_assoc|].
    assert (forall s, ~ occurs mark_of s -> ~ occurs mark_of (s ++ [13])) as S13. { intros s N O. apply occurs_13 in O as [O|O]; [contradiction| |apply mark_13|apply mark_ne]. revert O. apply occurs_nil, mark_ne. }
    intros O. change (crlf ++ ?s) with ([] ++ crlf ++ s) in O. apply occurs_crlf in O as [O|O]; [revert O; apply occurs_nil, mark_ne|]. revert O. apply S13. unfold request, part_lines in *.
    intros O. destruct (ff_type f) as [t|]; cbn [join] in O; rewrite <- ?app_assoc in O.
    - apply occurs_crlf in O as [O|O]; [revert O; apply Pu; cbn; auto|]. rewrite (app_assoc (lit "Content-Type: ") t) in O. apply occurs_crlf in O as [O|O]; [revert O; apply Pu; cbn; auto|]. change (crlf ++ ?s) with ([] ++ crlf ++ s) in O. apply occurs_crlf in O as [O|O]; [revert O; apply occurs_nil, mark_ne|]. revert O. apply Pu. cbn. auto.
    - apply occurs_crlf in O as [O|O]; [revert O; apply Pu; cbn; auto|]. change (crlf ++ ?s) with ([] ++ crlf ++ s) in O. apply occurs_crlf in O as [O|O]; [revert O; apply occurs_nil, mark_ne|]. revert O. apply Pu. cbn. auto.
  Qed.
  Lemma tail_unmarked : ~ occurs mark_of (lit "--" ++ crlf).
  Proof.
    intros (u & v & E). unfold mark_of in E. destruct Pb as [Ne F]. destruct b as [|c b']; [congruence|]. apply Forall_inv in F as [Fc _]. cbn in E.
    destruct u as [|? u]; [injection E as E _; subst c; discriminate|]. destruct u as [|? u]; [discriminate|]. destruct u as [|? u]; [discriminate|]. destruct u as [|? u]; [discriminate|]. destruct u; discriminate.
  Qed.
  Lemma body_chain : forall fs, form_body b fs = mark_of ++ chain mark_of (map piece fs) (lit "--" ++ crlf).
  Proof.
    induction fs as [|f fs IH]; unfold form_body in *; cbn [map concat chain app].
    - unfold mark_of. now rewrite <- app_assoc.
    - rewrite <- app_assoc, IH. unfold form_part, piece, mark_of. now rewrite <- !app_assoc.
  Qed.
  Lemma body_parts : forall fs, Forall (proper_field b) fs -> tl (split_str mark_of (form_body b fs)) = map piece fs ++ [lit "--" ++ crlf].
  Proof.
    intros fs F. unfold split_str. rewrite body_chain. set (r := chain mark_of (map piece fs) (lit "--" ++ crlf)). cbn [split_str_fuel]. pose proof (once_at mark_of [] r) as O. cbn [app] in O. rewrite O by (intros; cbn; lia). cbn [tl].
    apply split_chain; [apply mark_ne|apply mark_10| |apply tail_unmarked|].
    - apply Forall_forall. intros p I. apply in_map_iff in I as (f & <- & I). apply part_unmarked. now apply (Forall_forall _ fs) with (x := f) in F.
    - pose proof (chain_length mark_of (map piece fs) (lit "--" ++ crlf) mark_ne) as L. fold r in L. rewrite app_length. unfold mark_of at 1. rewrite app_length. cbn [length lit]. unfold str in *. lia.
  Qed.

  (** ** One field *)
  Lemma name_chars : forall s c, plain_name s -> In c s -> c <> 10 /\ c <> 13 /\ c <> 34 /\ c <> 58 /\ c <> 59.
  Proof. intros s c P I. unfold plain_name in P. rewrite Forall_forall in P. specialize (P c I). cbn in P. repeat split; intros ->; apply P; tauto. Qed.
  Lemma not_in_lit : forall c (s : string), forallb (fun d => negb (d =? c)) (lit s) = true -> ~ In c (lit s).
  Proof. intros c s F I. rewrite forallb_forall in F. apply F in I. rewrite N.eqb_refl in I. discriminate. Qed.
  Lemma disposition_chars : forall f c, proper_field b f -> In c [10; 13] -> ~ In c (disposition f).
  Proof.
    intros f c P I K. destruct P as [[_ Pn] Pf _ _ _]. assert (forall s, plain_name s -> ~ In c (quoted s)) as Q.
    { intros s Ps J. unfold quoted in J. apply in_app_or in J as [J|J]; [destruct J as [<- | []]; cbn in I; intuition discriminate|]. apply in_app_or in J as [J|J]; [|destruct J as [<- | []]; cbn in I; intuition discriminate].
      apply (name_chars s c Ps) in J. cbn in I. intuition congruence. }
    unfold disposition in K. apply in_app_or in K as [K|K]; [revert K; apply not_in_lit; cbn in I; intuition (subst; reflexivity)|]. apply in_app_or in K as [K|K]; [revert K; now apply Q|].
    destruct (ff_file f) as [n|]; [|destruct K]. apply in_app_or in K as [K|K]; [revert K; apply not_in_lit; cbn in I; intuition (subst; reflexivity)|]. revert K. apply Q, Pf. reflexivity.
  Qed.
  Lemma part_a_lines : forall f, proper_field b f -> Forall a_line (part_lines f).
  Proof.
    intros f P. unfold part_lines. constructor.
    - split; [discriminate|]. split; apply disposition_chars; cbn; auto.
    - destruct P as [_ _ Pt _ _]. destruct (ff_type f) as [t|]; [|constructor]. destruct (Pt t eq_refl) as (_ & _ & Pl). constructor; [|constructor]. split; [discriminate|]. split; intros K; (apply in_app_or in K as [K|K]; [revert K; apply not_in_lit; reflexivity|apply (name_chars t _ Pl) in K; intuition congruence]).
  Qed.
  Lemma ends_quote : forall s, ends_with [34] (quoted s) = true.
  Proof. intros s. unfold ends_with, quoted. change ([34] ++ s ++ [34]) with ((34 :: s) ++ [34]). rewrite rev_app_distr. reflexivity. Qed.
  Lemma unquoted : forall s, unquote (quoted s) = Ok s.
  Proof.
    intros s. unfold unquote. rewrite ends_quote. unfold quoted. cbn [app]. change (starts_with [34] (34 :: s ++ [34])) with true. cbn [andb]. destruct (s ++ [34]) as [|c r] eqn:E; [destruct s; discriminate|]. rewrite <- E. cbn [tl]. now rewrite removelast_last.
  Qed.
  Lemma unspaced_ends : forall c s d, is_whitespace c = false -> is_whitespace d = false -> unspaced (c :: s ++ [d]).
  Proof.
    intros c s d C D. split.
    - intros c' r E. injection E as <- _. exact C.
    - intros r c' E. change (c :: s ++ [d]) with ((c :: s) ++ [d]) in E. apply app_inj_tail in E as [_ <-]. exact D.
  Qed.
  Lemma quoted_end : forall p s, exists q, p ++ quoted s = q ++ [34].
  Proof. intros p s. exists (p ++ 34 :: s). unfold quoted. rewrite <- app_assoc. reflexivity. Qed.
  Lemma param_read : forall (k : string) s, plain_name s -> unspaced (lit k ++ [61]) -> lit k <> [] -> ~ In 61 (lit k) -> trim (lit k) = lit k -> forall r acc, disposition_params ((32 :: lit k ++ lit "=" ++ quoted s) :: r) acc = disposition_params r (minsert (lit k) s acc).
  Proof.
    intros k s Ps Uk Nk N61 Tk r acc. cbn [disposition_params]. assert (trim (32 :: lit k ++ lit "=" ++ quoted s) = lit k ++ lit "=" ++ quoted s) as ->.
    { pose proof (trim_pad [32] (lit k ++ lit "=" ++ quoted s) []) as T. rewrite app_nil_r in T. apply T; [repeat constructor|constructor|]. destruct (lit k) as [|c k'] eqn:E; [congruence|]. destruct Uk as [Uk _]. specialize (Uk c (k' ++ [61]) eq_refl).
      change ((c :: k') ++ lit "=" ++ quoted s) with (c :: k' ++ [61] ++ quoted s). destruct (quoted_end (k' ++ [61]) s) as [q Q]. rewrite <- app_assoc in Q. rewrite Q. now apply unspaced_ends. }
    unfold cut_char. rewrite (proj2 (split_61 _ (lit k) (quoted s))) by (split; [assumption|reflexivity]). assert (trim (quoted s) = quoted s) as ->.
    { pose proof (trim_pad [] (quoted s) []) as T. rewrite app_nil_r in T. apply T; [constructor|constructor|]. now apply (unspaced_ends 34 s 34). }
    rewrite unquoted. cbn [bind]. now rewrite Tk.
  Qed.
  Lemma semis : forall (k : string) s r, plain_name s -> ~ In 59 (lit k) -> split_char 59 (32 :: lit k ++ lit "=" ++ quoted s ++ 59 :: r) = (32 :: lit k ++ lit "=" ++ quoted s) :: split_char 59 r.
  Proof.
    intros k s r Ps Nk. rewrite <- (split_char_app 59 (32 :: lit k ++ lit "=" ++ quoted s) r).
    - f_equal. cbn [app]. now rewrite <- !app_assoc.
    - intros [I|I]; [discriminate|]. apply in_app_or in I as [I|I]; [contradiction|]. change (In 59 (61 :: 34 :: s ++ [34])) in I. destruct I as [I|[I|I]]; [discriminate|discriminate|]. apply in_app_or in I as [I|[I|[]]]; [|discriminate]. apply (name_chars s 59 Ps) in I. intuition congruence.
  Qed.
  Lemma last_semi : forall (k : string) s, plain_name s -> ~ In 59 (lit k) -> split_char 59 (32 :: lit k ++ lit "=" ++ quoted s) = [32 :: lit k ++ lit "=" ++ quoted s].
  Proof.
    intros k s Ps Nk. apply split_char_none. intros [I|I]; [discriminate|]. apply in_app_or in I as [I|I]; [contradiction|]. change (In 59 (61 :: 34 :: s ++ [34])) in I. destruct I as [I|[I|I]]; [discriminate|discriminate|]. apply in_app_or in I as [I|[I|[]]]; [|discriminate]. apply (name_chars s 59 Ps) in I. intuition congruence.
  Qed.
  Lemma disposition_read : forall f, proper_field b f ->
    exists ps, parse_content_disposition (disposition f) = Ok ps /\ mget (lit "name") ps = Some (ff_name f) /\ mget (lit "filename") ps = ff_file f.
  Proof.
    intros f P. destruct P as [[_ Pn] Pf _ _ _]. unfold parse_content_disposition, disposition.
    set (v := lit " form-data; name=" ++ quoted (ff_name f) ++ match ff_file f with Some n => lit "; filename=" ++ quoted n | None => [] end).
    change (lit "Content-Disposition: form-data; name=" ++ ?x) with (lit "Content-Disposition" ++ 58 :: lit " form-data; name=" ++ x). fold v.
    assert (forall s, plain_name s -> ~ In 58 (quoted s)) as Q58.
    { intros s Ps I. change (In 58 (34 :: s ++ [34])) in I. destruct I as [I|I]; [discriminate|]. apply in_app_or in I as [I|[I|[]]]; [|discriminate]. apply (name_chars s 58 Ps) in I. intuition congruence. }
    assert (~ In 58 v) as Nv.
    { unfold v. intros I. apply in_app_or in I as [I|I]; [revert I; now apply not_in_lit|]. apply in_app_or in I as [I|I]; [revert I; now apply Q58|]. destruct (ff_file f) as [n|]; [|destruct I]. apply in_app_or in I as [I|I]; [revert I; now apply not_in_lit|]. revert I. apply Q58, Pf. reflexivity. }
    rewrite split_char_app by now apply not_in_lit. rewrite (split_char_none 58 v Nv).
    set (v' := lit "form-data; name=" ++ quoted (ff_name f) ++ match ff_file f with Some n => lit "; filename=" ++ quoted n | None => [] end).
    assert (trim v = v') as ->.
    { change v with ([32] ++ v'). pose proof (trim_pad [32] v' []) as T. rewrite app_nil_r in T. apply T; [repeat constructor|constructor|].
      assert (exists q, v' = 102 :: q ++ [34]) as [q ->]; [|now apply unspaced_ends]. unfold v'. destruct (ff_file f) as [n|].
      - destruct (quoted_end (lit "orm-data; name=" ++ quoted (ff_name f) ++ lit "; filename=") n) as [q Q]. exists q. rewrite <- Q, <- !app_assoc. reflexivity.
      - rewrite app_nil_r. destruct (quoted_end (lit "orm-data; name=") (ff_name f)) as [q Q]. exists q. rewrite <- Q. reflexivity. }
    assert (unspaced (lit "name" ++ [61])) as U1 by (now apply (unspaced_ends 110 (lit "ame") 61)). assert (unspaced (lit "filename" ++ [61])) as U2 by (now apply (unspaced_ends 102 (lit "ilename") 61)).
    unfold v'. destruct (ff_file f) as [n|].
    - change (lit "form-data; name=" ++ quoted (ff_name f) ++ lit "; filename=" ++ quoted n) with (lit "form-data" ++ 59 :: 32 :: lit "name" ++ lit "=" ++ quoted (ff_name f) ++ 59 :: 32 :: lit "filename" ++ lit "=" ++ quoted n).
      rewrite split_char_app by now apply not_in_lit. rewrite semis by (try assumption; now apply not_in_lit). rewrite last_semi by (try (now apply Pf); now apply not_in_lit).
      change (disposition_params (lit "form-data" :: ?r) []) with (disposition_params r []). rewrite (param_read "name") by (try assumption; try discriminate; try reflexivity; now apply not_in_lit). rewrite (param_read "filename") by (try assumption; try (now apply Pf); try discriminate; try reflexivity; now apply not_in_lit).
      eexists. split; [reflexivity|]. split; reflexivity.
    - rewrite app_nil_r. change (lit "form-data; name=" ++ quoted (ff_name f)) with (lit "form-data" ++ 59 :: 32 :: lit "name" ++ lit "=" ++ quoted (ff_name f)).
      rewrite split_char_app by now apply not_in_lit. rewrite last_semi by (try assumption; now apply not_in_lit).
      change (disposition_params (lit "form-data" :: ?r) []) with (disposition_params r []). rewrite (param_read "name") by (try assumption; try discriminate; try reflexivity; now apply not_in_lit).
      eexists. split; [reflexivity|]. split; reflexivity.
  Qed.

  Definition read_field (f : form_field) : field := mkField (ff_name f) (ff_file f) (ff_type f) (ff_content f).
  Lemma dashes_kept : forall s, (forall r, s <> r ++ lit "--") -> trim_dashes s = s.
  Proof.
    intros s H. unfold trim_dashes. destruct (rev s) as [|c [|d r]] eqn:E; [now rewrite <- (rev_involutive s), E| |].
    - rewrite <- (rev_involutive s), E. destruct c as [|p]; [reflexivity|]. do 6 (destruct p as [p|p|]; try reflexivity).
    - assert (drop_pairs (c :: d :: r) = c :: d :: r) as ->; [|rewrite <- E; apply rev_involutive]. destruct (N.eq_dec c 45) as [->|Nc].
      + destruct (N.eq_dec d 45) as [->|Nd].
        * exfalso. apply (H (rev r)). rewrite <- (rev_involutive s), E. cbn [rev]. now rewrite <- app_assoc.
        * cbn [drop_pairs]. destruct d as [|p]; [reflexivity|]. do 6 (destruct p as [p|p|]; try reflexivity). congruence.
      + cbn [drop_pairs]. destruct c as [|p]; [reflexivity|]. do 6 (destruct p as [p|p|]; try reflexivity). congruence.
  Qed.
  Lemma once_request : forall ls body, Forall a_line ls -> ls <> [] -> split_once crlf2 (request ls body) = Some (join crlf ls, body).
  Proof.
    intros ls body F Ne. unfold split_once. rewrite find_end by assumption. unfold request. f_equal. f_equal.
    - rewrite firstn_app, firstn_all, Nat.sub_diag. cbn [firstn]. apply app_nil_r.
    - rewrite skipn_app, skipn_all2 by lia. replace (length (join crlf ls) + length crlf2 - length (join crlf ls))%nat with 4%nat by (cbn; lia). reflexivity.
  Qed.
  Lemma disposition_unspaced : forall f, unspaced (disposition f).
  Proof.
    intros f. assert (exists q, disposition f = 67 :: q ++ [34]) as [q ->]; [|now apply unspaced_ends]. unfold disposition. destruct (ff_file f) as [n|].
    - destruct (quoted_end (lit "ontent-Disposition: form-data; name=" ++ quoted (ff_name f) ++ lit "; filename=") n) as [q Q]. exists q. rewrite <- Q, <- !app_assoc. reflexivity.
    - rewrite app_nil_r. destruct (quoted_end (lit "ontent-Disposition: form-data; name=") (ff_name f)) as [q Q]. exists q. rewrite <- Q. reflexivity.
  Qed.
  Lemma trim_unspaced : forall s, unspaced s -> trim s = s.
  Proof. intros s H. pose proof (trim_pad [] s []) as T. rewrite app_nil_r in T. apply T; [constructor|constructor|assumption]. Qed.
  Lemma field_read : forall f, proper_field b f -> parse_multipart_field (join crlf (part_lines f)) (ff_content f) = Ok (read_field f).
  Proof.
    intros f P. pose proof (disposition_read f P) as (ps & Ep & Mn & Mf). pose proof (part_a_lines f P) as La. unfold parse_multipart_field. rewrite lines_join by assumption. destruct P as [[Nn Pn] Pf Pt (Nc & Uc & Dc) _].
    unfold part_lines. cbn [field_headers]. rewrite (trim_unspaced (disposition f)) by apply disposition_unspaced. change (starts_with (lit "content-disposition:") (to_lowercase (disposition f))) with true. cbn iota. rewrite Ep. cbn [bind]. rewrite Mn, Mf.
    assert (field_headers match ff_type f with Some t => [lit "Content-Type: " ++ t] | None => [] end (ff_name f) (ff_file f) None = Ok (ff_name f, ff_file f, ff_type f)) as ->.
    { destruct (ff_type f) as [t|]; [|reflexivity]. destruct (Pt t eq_refl) as (Nt & Ut & Pl). cbn [field_headers]. rewrite (trim_unspaced (lit "Content-Type: " ++ t)).
      - change (starts_with (lit "content-disposition:") (to_lowercase (lit "Content-Type: " ++ t))) with false. change (starts_with (lit "content-type:") (to_lowercase (lit "Content-Type: " ++ t))) with true. cbn iota.
        change (lit "Content-Type: " ++ t) with (lit "Content-Type" ++ 58 :: 32 :: t). rewrite split_char_app by now apply not_in_lit. rewrite split_char_none.
        + do 3 f_equal. pose proof (trim_pad [32] t []) as T. rewrite app_nil_r in T. apply T; [repeat constructor|constructor|assumption].
        + intros [I|I]; [discriminate|]. apply (name_chars t 58 Pl) in I. intuition congruence.
      - destruct (exists_last Nt) as (t' & c & ->). change (lit "Content-Type: " ++ t' ++ [c]) with (67 :: (lit "ontent-Type: " ++ t' ++ [c])). rewrite app_assoc. apply unspaced_ends; [reflexivity|]. destruct Ut as [_ Ut]. now apply (Ut t' c). }
    cbn [bind]. destruct (ff_name f) as [|c n] eqn:En; [congruence|]. unfold read_field. rewrite dashes_kept by assumption. rewrite trim_unspaced by assumption. now rewrite En.
  Qed.
  Lemma piece_trimmed : forall f, proper_field b f -> trim (piece f) = request (part_lines f) (ff_content f).
  Proof.
    intros f P. unfold piece. apply trim_pad; [repeat constructor|repeat constructor|]. destruct P as [_ _ _ (Nc & [_ Uc] & _) _]. destruct (exists_last Nc) as (t & c & E). unfold request. rewrite E.
    assert (exists q, join crlf (part_lines f) ++ crlf ++ crlf ++ t ++ [c] = 67 :: q ++ [c]) as [q ->]; [|apply unspaced_ends; [reflexivity|now apply (Uc t c)]].
    destruct (disposition f) as [|d0 d] eqn:Ed; [discriminate|]. assert (d0 = 67) as -> by (unfold disposition in Ed; cbn in Ed; now injection Ed as <- _).
    unfold part_lines. rewrite Ed. destruct (ff_type f) as [ty|]; cbn [join app].
    - exists (d ++ crlf ++ (lit "Content-Type: " ++ ty) ++ crlf ++ crlf ++ t). now rewrite <- !app_assoc.
    - exists (d ++ crlf ++ crlf ++ t). now rewrite <- !app_assoc.
  Qed.
  Lemma piece_not_end : forall f, starts_with (b ++ lit "--") (request (part_lines f) (ff_content f)) = false.
  Proof.
    intros f. destruct (starts_with _ _) eqn:E; [exfalso|reflexivity]. apply starts_with_spec in E as [r E]. unfold request, part_lines in E. rewrite <- app_assoc in E.
    (* the first character of the name line that a boundary cannot hold is the colon *)
    destruct Pb as [_ F]. rewrite Forall_forall in F.
    assert (exists z, join crlf (disposition f :: match ff_type f with Some t => [lit "Content-Type: " ++ t] | None => [] end) ++ crlf ++ crlf ++ ff_content f = lit "Content-Disposition" ++ 58 :: z) as [z Ez].
    { unfold disposition. destruct (ff_type f); cbn [join]; rewrite <- !app_assoc; eexists; reflexivity. }
    unfold str in *. rewrite Ez in E. clear Ez. destruct (Nat.le_gt_cases (length (lit "Content-Disposition")) (length b)) as [L|L].
    - symmetry in E. apply app_split in E as (l & Eb & E); [|exact L]. destruct l as [|c l].
      + discriminate.
      + injection E as <- _. destruct (F 58) as [_ N]; [rewrite Eb; apply in_or_app; right; now left|]. apply N. now left.
    - apply app_split in E as (l & Eb & E); [|lia]. destruct l as [|c l]; [rewrite app_nil_r in Eb; rewrite Eb in L; lia|]. cbn [app] in E. destruct l as [|c2 l].
      + injection E as <- E. discriminate.
      + injection E as <- <- _. exact (find_str_none (lit "--") (lit "Content-Disposition") b l eq_refl Eb).
  Qed.
  Lemma parts_read : forall fs acc, Forall (proper_field b) fs ->
    parse_parts b (map piece fs ++ [lit "--" ++ crlf]) acc = Ok (fold_left (fun m nv => minsert (fst nv) (snd nv) m) (map (fun f => (ff_name f, read_field f)) fs) acc).
  Proof.
    intros fs acc F. revert acc. induction F as [|f fs P F IH]; intros acc; cbn [map app fold_left].
    - cbn [parse_parts]. change (trim (lit "--" ++ crlf)) with (lit "--"). change (split_once [13; 10; 13; 10] (lit "--")) with (@None (str * str)). change (split_once [10; 10] (lit "--")) with (@None (str * str)). cbn iota. now destruct (_ || _).
    - cbn [parse_parts]. rewrite piece_trimmed by assumption. rewrite piece_not_end. cbn [orb]. assert (exists c s, request (part_lines f) (ff_content f) = c :: s) as (c & s & E). { unfold request. destruct (disposition f) as [|d0 d] eqn:Ed; [discriminate|]. unfold part_lines. rewrite Ed. destruct (ff_type f); cbn [join app]; eauto. }
      rewrite E. rewrite <- E. change [13; 10; 13; 10] with crlf2. rewrite once_request by (try (now apply part_a_lines); discriminate). rewrite field_read by assumption. cbn [bind fst snd]. apply IH.
  Qed.
  Lemma form_read : forall fs, Forall (proper_field b) fs -> parse_multipart_data (form_body b fs) b = Ok (fold_left (fun m nv => minsert (fst nv) (snd nv) m) (map (fun f => (ff_name f, read_field f)) fs) []).
  Proof. intros fs F. unfold parse_multipart_data. change (lit "--" ++ b) with mark_of. rewrite body_parts by assumption. now apply parts_read. Qed.
End Form.
