(** The extension registry. *)
From Coq Require Import String List ZArith NArith Bool Lia.
From Verif Require Import Base F64 Syntax Methods Traits Spec_traits Base_proofs.
Import ListNotations.
Local Open Scope N_scope.

Lemma last_such_snoc : forall A (p : A -> Prop) rs q r, last_such p (rs ++ [q]) r <-> (q = r /\ p q) \/ (~ p q /\ last_such p rs r).
Proof.
  intros A p rs q r. split.
  - intros (a & b & E & P & F). destruct b as [|x b _] using rev_ind.
    + apply app_inj_tail in E as [_ <-]. now left.
    + rewrite app_comm_cons, app_assoc in E. apply app_inj_tail in E as [-> <-]. apply Forall_app in F as [F G]. inversion G; subst. right. split; [assumption|]. now exists a, b.
  - intros [[-> P]|[N (a & b & -> & P & F)]].
    + exists rs, []. now repeat split.
    + exists a, (b ++ [q]). split; [now rewrite <- app_assoc|]. split; [assumption|]. apply Forall_app. split; [assumption|now repeat constructor].
Qed.
Lemma extended_snoc : forall rs r, extended (rs ++ [r]) = register_one (extended rs) r.
Proof. intros. unfold extended. now rewrite fold_left_app. Qed.
Lemma last_nil : forall A (p : A -> Prop) r, ~ last_such p [] r.
Proof. intros A p r ([|? ?] & b & E & _); discriminate. Qed.

Lemma extension_function : forall rs n f, ext_function (extended rs) n = Some f <-> last_such (function_named n) rs (Function f).
Proof.
  intros rs n f. induction rs as [|r rs IH] using rev_ind; [split; [discriminate|intros H; now apply last_nil in H]|].
  rewrite extended_snoc, last_such_snoc, <- IH. unfold ext_function. destruct r as [g|c|h|s]; cbn [register_one ext_register_function ext_register_converter ext_register_handler ext_register_source x_functions function_named].
  - rewrite mget_minsert. destruct (str_eqb n (xf_name g)) eqn:E.
    + apply str_eqb_eq in E. split; [intros K; injection K as ->; now left|]. intros [[K _]|[K _]]; [now injection K as ->|]. now symmetry in E.
    + apply str_eqb_neq in E. split; [intros K; right; split; [congruence|assumption]|]. intros [[_ K]|[_ K]]; [congruence|assumption].
  - split; [intros K; right; now split|]. intros [[K _]|[_ K]]; [discriminate|assumption].
  - split; [intros K; right; now split|]. intros [[K _]|[_ K]]; [discriminate|assumption].
  - split; [intros K; right; now split|]. intros [[K _]|[_ K]]; [discriminate|assumption].
Qed.
Lemma extension_converter : forall rs n c, ext_converter (extended rs) n = Some c <-> last_such (converter_to n) rs (Converter c).
Proof.
  intros rs n f. induction rs as [|r rs IH] using rev_ind; [split; [discriminate|intros H; now apply last_nil in H]|].
  rewrite extended_snoc, last_such_snoc, <- IH. unfold ext_converter. destruct r as [g|g|h|s]; cbn [register_one ext_register_function ext_register_converter ext_register_handler ext_register_source x_converters converter_to].
  - split; [intros K; right; now split|]. intros [[K _]|[_ K]]; [discriminate|assumption].
  - rewrite mget_minsert. destruct (str_eqb n (cv_target g)) eqn:E.
    + apply str_eqb_eq in E. split; [intros K; injection K as ->; now left|]. intros [[K _]|[K _]]; [now injection K as ->|]. now symmetry in E.
    + apply str_eqb_neq in E. split; [intros K; right; split; [congruence|assumption]|]. intros [[_ K]|[_ K]]; [congruence|assumption].
  - split; [intros K; right; now split|]. intros [[K _]|[_ K]]; [discriminate|assumption].
  - split; [intros K; right; now split|]. intros [[K _]|[_ K]]; [discriminate|assumption].
Qed.
Lemma extension_source : forall rs n s, ext_source (extended rs) n = Some s <-> last_such (source_named n) rs (Source s).
Proof.
  intros rs n f. induction rs as [|r rs IH] using rev_ind; [split; [discriminate|intros H; now apply last_nil in H]|].
  rewrite extended_snoc, last_such_snoc, <- IH. unfold ext_source. destruct r as [g|c|h|g]; cbn [register_one ext_register_function ext_register_converter ext_register_handler ext_register_source x_sources source_named].
  - split; [intros K; right; now split|]. intros [[K _]|[_ K]]; [discriminate|assumption].
  - split; [intros K; right; now split|]. intros [[K _]|[_ K]]; [discriminate|assumption].
  - split; [intros K; right; now split|]. intros [[K _]|[_ K]]; [discriminate|assumption].
  - rewrite mget_minsert. destruct (str_eqb n (so_name g)) eqn:E.
    + apply str_eqb_eq in E. split; [intros K; injection K as ->; now left|]. intros [[K _]|[K _]]; [now injection K as ->|]. now symmetry in E.
    + apply str_eqb_neq in E. split; [intros K; right; split; [congruence|assumption]|]. intros [[_ K]|[_ K]]; [congruence|assumption].
Qed.
Lemma first_cons : forall A (p : A -> Prop) q rs r, first_such p (q :: rs) r <-> (q = r /\ p q) \/ (~ p q /\ first_such p rs r).
Proof.
  intros A p q rs r. split.
  - intros ([|x a] & b & E & P & F); cbn in E; injection E as -> ->; [now left|]. inversion F; subst. right. split; [assumption|]. now exists a, b.
  - intros [[-> P]|[N (a & b & -> & P & F)]]; [exists [], rs; now repeat split|]. exists (q :: a), b. repeat split; auto.
Qed.
Lemma extended_handlers : forall rs, x_handlers (extended rs) = flat_map (fun r => match r with Handler h => [h] | _ => [] end) rs.
Proof.
  induction rs as [|r rs IH] using rev_ind; [reflexivity|]. rewrite extended_snoc, flat_map_app, <- IH. destruct r; cbn; now rewrite ?app_nil_r.
Qed.
Lemma extension_handler : forall rs v m h, ext_handler (extended rs) v m = Some h <-> first_such (handles v m) rs (Handler h).
Proof.
  intros rs v m h. unfold ext_handler. rewrite extended_handlers. induction rs as [|r rs IH].
  - split; [discriminate|]. intros ([|? ?] & b & E & _); discriminate.
  - rewrite first_cons, <- IH. destruct r as [g|c|g|s]; cbn [flat_map app handles].
    + split; [intros K; right; now split|]. intros [[K _]|[_ K]]; [discriminate|assumption].
    + split; [intros K; right; now split|]. intros [[K _]|[_ K]]; [discriminate|assumption].
    + cbn [find]. destruct (hd_can g v m) eqn:E.
      * split; [intros K; injection K as ->; now left|]. intros [[K _]|[K _]]; [now injection K as ->|congruence].
      * split; [intros K; right; now split|]. intros [[_ K]|[_ K]]; [discriminate|assumption].
    + split; [intros K; right; now split|]. intros [[K _]|[_ K]]; [discriminate|assumption].
Qed.
Lemma validates : forall f args, validate_args f args = Ok tt <-> (forall n, xf_arity f = Some n -> N.of_nat (length args) = n).
Proof.
  intros f args. unfold validate_args. destruct (xf_arity f) as [n|]; [|split; [discriminate|reflexivity]]. cbv zeta. destruct (N.eqb_spec (N.of_nat (length args)) n) as [E|E]; cbn [negb].
  - split; [intros _ m K; injection K as <-; assumption|reflexivity].
  - split; [discriminate|]. intros H. exfalso. apply E. now apply H.
Qed.
Lemma source_fetch : forall name data key, (forall v, so_fetch (constant_source name data) key = Ok v <-> mget key data = Some v)
  /\ (so_exists (constant_source name data) key = true <-> exists v, so_fetch (constant_source name data) key = Ok v).
Proof.
  intros name data key. cbn [constant_source so_fetch so_exists]. unfold mhas. destruct (mget key data) as [w|].
  - split; [intros v; split; intros K; injection K as ->; reflexivity|]. split; [intros _; now exists w|reflexivity].
  - split; [intros v; split; discriminate|]. split; [discriminate|]. intros [v K]. discriminate.
Qed.
Lemma mget_pair : forall V (m : smap V) k v, mget k m = Some v -> In (k, v) m.
Proof.
  intros V m k v. induction m as [|[j w] m IH]; [discriminate|]. cbn [mget]. destruct (str_eqb k j) eqn:E; intros H; [|right; auto]. apply str_eqb_eq in E. injection H as ->. subst j. now left.
Qed.
Lemma resolver_has : forall vars name, has_variable vars name = true <-> exists v, resolve vars name = Ok (Some v) /\ In (name, v) (get_all_variables vars).
Proof.
  intros vars name. unfold has_variable, resolve, mhas, get_all_variables. destruct (mget name vars) as [w|] eqn:E.
  - split; [intros _; exists w; split; [reflexivity|now apply mget_pair]|reflexivity].
  - split; [discriminate|]. intros (v & K & _). discriminate.
Qed.
