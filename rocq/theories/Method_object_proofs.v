(** Number and object methods; unknown methods; missing arguments; comparison with the functions. *)
From Coq Require Import String List ZArith NArith Bool Lia QArith Qabs Qround Lqa.
From Coq Require Import Floats.SpecFloat.
From Verif Require Import Base Base_proofs F64 F64Text Syntax Ext Json Utils Arrays Arith Utf8 Strings Dispatch Methods Registry Core Evaluator Api Spec Spec_syntax Spec_text Spec_numbers Spec_json Spec_http Spec_methods Spec_stats.
From Verif Require Import Float_proofs Display_proofs Cast_proofs Value_proofs DateFn_proofs Rounding_proofs Number_proofs Json_proofs Object_proofs Eval_proofs Compare_proofs Stats_proofs Sqrt_proofs Method_proofs Method_array_proofs Method_value_proofs.
Import ListNotations.
Local Open Scope Z_scope.

Section NumberMethods.
  Context {X : Ext}.
  Lemma number_whole : forall c t x n args name f, In (name, f) whole_methods -> spelled name n -> (name = "round"%string -> args = []) -> eval t c = Ok (VNumber x) -> representable x -> is_finite x = true ->
    exists y, eval (method t n args) c = Ok (VNumber y) /\ is_exactly y (inject_Z (f (exact x))).
  Proof.
    intros c t x n args name f I S0 A Hv R F.
    repeat (destruct I as [I|I]; [injection I as <- <-; try (rewrite (A eq_refl)); eexists; (split; [method_call Hv S0; reflexivity|])|]); [..|contradiction]; unfold is_exactly.
    - now apply floor_exact.
    - now apply ceil_exact.
    - now apply ceil_exact.
    - now apply round_exact_half.
    - now apply trunc_exactly.
  Qed.
  Lemma number_not_finite : forall c t x n args name, In name ["floor"; "ceil"; "ceiling"; "int"]%string -> spelled name n -> eval t c = Ok (VNumber x) -> is_finite x = false -> eval (method t n args) c = Ok (VNumber x).
  Proof. intros c t x n args name I S0 Hv F. repeat (destruct I as [<-|I]; [method_call Hv S0; destruct x as [?|[]| |? ? ?]; try discriminate; reflexivity|]). contradiction. Qed.
  Lemma number_abs : forall c t x n args, spelled "abs" n -> eval t c = Ok (VNumber x) -> representable x -> is_finite x = true -> exists y, eval (method t n args) c = Ok (VNumber y) /\ is_exactly y (Qabs (exact x)).
  Proof. intros c t x n args S0 Hv R F. eexists. split; [method_call Hv S0; reflexivity|]. now apply abs_exact. Qed.
  Lemma number_sqrt : forall c t x n args, spelled "sqrt" n -> eval t c = Ok (VNumber x) -> representable x -> is_finite x = true ->
    ((exact x < 0)%Q -> fails (eval (method t n args) c)) /\
    ((0 < exact x)%Q -> exists r, eval (method t n args) c = Ok (VNumber r) /\ nearest_root r (exact x)) /\ ((exact x == 0)%Q -> eval (method t n args) c = Ok (VNumber x)).
  Proof.
    intros c t x n args S0 Hv R F. pose proof (ltb_exact x f_zero R eq_refl F eq_refl) as L. change (exact f_zero) with 0%Q in L. split; [|split]; intros H.
    - method_call Hv S0. apply L in H. rewrite H. eexists. reflexivity.
    - exists (f_sqrt x). split; [|now apply sqrt_nearest]. method_call Hv S0. destruct (f_ltb x f_zero); [|reflexivity]. assert (exact x < 0)%Q by now apply L. exfalso. lra.
    - method_call Hv S0. destruct (f_ltb x f_zero). { assert (exact x < 0)%Q by now apply L. exfalso. lra. }
      destruct x as [s|s| |s m e]; try discriminate; [reflexivity|]. exfalso. destruct (Z.leb_spec 0 e) as [K|K].
      + rewrite exact_int in H by assumption. apply (proj1 (inject_Z_injective _ 0)) in H. assert (0 < 2 ^ e) by (apply Z.pow_pos_nonneg; lia). destruct s; cbn [signed] in H; nia.
      + rewrite exact_frac in H by assumption. unfold Qeq in H. destruct s; cbn in H; lia.
  Qed.
  Lemma number_between : forall c t x n a b va vb lo hi, spelled "between" n -> eval t c = Ok (VNumber x) -> argument c a va -> argument c b vb -> va = VNumber lo \/ va = VCurrency lo -> vb = VNumber hi \/ vb = VCurrency hi ->
    decides (eval (method t n [a; b]) c) (number_relation BLe lo x /\ number_relation BLe x hi).
  Proof.
    intros c t x n a b va vb lo hi S0 Hv Ha Hb Ka Kb. method_call Hv S0. cbn [margs_of map m_eval]. unfold argument in *. rewrite Ha. cbn [bind]. rewrite Hb. cbn [bind].
    assert (La : bound_of va (err "between min must be a number") = Ok lo) by (destruct Ka as [-> | ->]; reflexivity). assert (Lb : bound_of vb (err "between max must be a number") = Ok hi) by (destruct Kb as [-> | ->]; reflexivity). rewrite La, Lb. cbn [bind].
    apply decides_reflect. rewrite andb_true_iff. unfold f_leb, SFleb, number_relation. destruct (SFcompare lo x) as [[]|], (SFcompare x hi) as [[]|]; intuition congruence.
  Qed.
  Lemma number_between_arguments : forall c t x n args, spelled "between" n -> eval t c = Ok (VNumber x) -> length args <> 2%nat -> fails (eval (method t n args) c).
  Proof. intros c t x n args S0 Hv L. method_call Hv S0. destruct args as [|a [|b [|d args]]]; cbn [margs_of map]; try (eexists; reflexivity). now destruct L. Qed.
  (** ** Objects *)
  Lemma object_keys : forall c t s kvs n args, spelled "keys" n -> eval t c = Ok (VJson s) -> json_parse s = Some (JObj kvs) ->
    eval (method t n args) c = Ok (VArray (map (fun kv => VString (fst kv)) kvs)) /\ in_key_order (map fst kvs).
  Proof.
    intros c t s kvs n args S0 Hv Hj. split; [method_call Hv S0; unfold parse_json; rewrite Hj; reflexivity|]. apply parse_keyed in Hj. inversion Hj; subst; [contradiction|assumption].
  Qed.
  Lemma object_values : forall c t s kvs n args, spelled "values" n -> eval t c = Ok (VJson s) -> json_parse s = Some (JObj kvs) ->
    exists vs, eval (method t n args) c = Ok (VArray vs) /\ Forall2 stands_for (map snd kvs) vs.
  Proof.
    intros c t s kvs n args S0 Hv Hj. eexists. split; [method_call Hv S0; unfold parse_json; rewrite Hj; reflexivity|]. clear. induction kvs as [|kv kvs IH]; constructor; [|assumption]. now apply stands_iff.
  Qed.
  Lemma object_has : forall c t s j n a k more, any_of ["has_key"; "has"]%string n -> eval t c = Ok (VJson s) -> json_parse s = Some j -> argument c a (VString k) ->
    decides (eval (method t n (a :: more)) c) (exists kvs v, j = JObj kvs /\ In (k, v) kvs).
  Proof.
    intros c t s j n a k more (name & I & S0) Hv Hj Ha. assert (K : forall kvs : list (str * json), mhas k kvs = true <-> exists v, In (k, v) kvs).
    { intros kvs. unfold mhas. induction kvs as [|[k' v'] kvs IH]; cbn [mget].
      - split; [discriminate|]. intros (v & []).
      - destruct (str_eqb k k') eqn:E.
        + apply str_eqb_eq in E. subst k'. split; [|reflexivity]. intros _. exists v'. now left.
        + rewrite IH. split; intros (v & H); exists v; [now right|]. destruct H as [H|H]; [|assumption]. injection H as -> ->. rewrite str_eqb_refl in E. discriminate. }
    destruct I as [<-|[<-|[]]]; method_call Hv S0; first_arg Ha; unfold parse_json; rewrite Hj; cbn [ok_or bind]; destruct j; apply decides_reflect; try (split; [discriminate|intros (kvs & v & H & _); discriminate]);
      rewrite K; (split; [intros (v & H); eauto|intros (kvs' & v & H & H2); injection H as <-; eauto]).
  Qed.
  Lemma object_dig_found : forall c t s j path j' v n a more, spelled "dig" n -> eval t c = Ok (VJson s) -> json_parse s = Some j -> argument c a (VArray path) -> (more = [] \/ exists b w r, more = b :: r /\ argument c b w) ->
    Forall good_segment path -> path_to j path j' -> stands_for j' v -> eval (method t n (a :: more)) c = Ok v.
  Proof.
    intros c t s j path j' v n a more S0 Hv Hj Ha Hm G P St. method_call Hv S0. first_arg Ha. assert (K : exists o, (match map (fun a0 => mkMarg a0 (ev a0) (match c_reg c with Some reg => ev_custom reg a0 | None => fun vars => ev a0 (Some vars) end)) more with
      | [] => Ok None | a1 :: _ => v0 <- m_eval a1 (Some (c_vars c)) ;; Ok (Some v0) end) = Ok o).
    { destruct Hm as [->|(b & w & r & -> & Hb)]; [now exists None|]. cbn [map m_eval]. unfold argument in Hb. rewrite Hb. eexists. reflexivity. }
    destruct K as [o K]. rewrite K. cbn [bind]. unfold parse_json. rewrite Hj. cbn [ok_or bind]. apply dig_spec in P; [|now apply parse_keyed in Hj|assumption]. rewrite P. apply stands_iff in St. now rewrite St.
  Qed.
  Lemma object_dig_missing : forall c t s j path n a more d, spelled "dig" n -> eval t c = Ok (VJson s) -> json_parse s = Some j -> argument c a (VArray path) -> (more = [] /\ d = VNull \/ exists b r, more = b :: r /\ argument c b d) ->
    Forall good_segment path -> (forall j', ~ path_to j path j') -> eval (method t n (a :: more)) c = Ok d.
  Proof.
    intros c t s j path n a more d S0 Hv Hj Ha Hm G P. method_call Hv S0. first_arg Ha. assert (Q : dig_path j path = None).
    { destruct (dig_path j path) as [j'|] eqn:E; [|reflexivity]. apply dig_spec in E; [|now apply parse_keyed in Hj|assumption]. now apply P in E. }
    destruct Hm as [[-> ->]|(b & r & -> & Hb)]; cbn [map m_eval bind]; unfold argument in *; rewrite ?Hb; cbn [bind]; unfold parse_json; rewrite Hj; cbn [ok_or bind]; rewrite Q; reflexivity.
  Qed.
  Lemma object_only : forall c t s j n args, any_of ["keys"; "values"]%string n -> eval t c = Ok (VJson s) -> json_parse s = Some j -> (forall kvs, j <> JObj kvs) -> fails (eval (method t n args) c).
  Proof.
    intros c t s j n args (name & I & S0) Hv Hj N0. destruct I as [<-|[<-|[]]]; method_call Hv S0; unfold parse_json; rewrite Hj; cbn [ok_or bind]; destruct j; try (eexists; reflexivity); exfalso; eapply N0; reflexivity.
  Qed.
  (** ** Unknown methods and missing arguments *)
  Ltac unknown N0 A := repeat match goal with
    | |- context [one_of ?l (to_lowercase ?n)] => let E := fresh "E" in destruct (one_of l (to_lowercase n)) eqn:E;
        [exfalso; apply N0; apply one_of_spelled in E; [|exact A]; destruct E as (nm & J & E); exists nm; split; [cbn in J |- *; tauto|exact E]|clear E]
    | |- context [is (to_lowercase ?n) ?s] => let E := fresh "E" in destruct (is (to_lowercase n) s) eqn:E; [exfalso; apply N0; exists s; split; [cbn; tauto|now apply is_spelled]|clear E] end.
  Lemma method_unknown : forall c t v n args, ascii n -> ~ any_of (methods_of v) n -> eval t c = Ok v -> fails (eval (method t n args) c).
  Proof.
    intros c t v n args A N0 Hv. rewrite (method_run _ _ _ _ _ Hv). unfold exec_method. cbv zeta. destruct v; cbn [methods_of] in N0; unfold exec_string_method, exec_array_method, exec_number_method, exec_json_method; cbv zeta; unknown N0 A; eexists; reflexivity.
  Qed.
  Lemma argument_needed : forall c t v n args name k, In (name, k) needs_arguments -> spelled name n -> eval t c = Ok v -> (length args < k v)%nat -> fails (eval (method t n args) c).
  Proof.
    intros c t v n args name k I S0 Hv L.
    repeat (destruct I as [I|I]; [injection I as <- <-; destruct v; cbn in L; try lia; method_call Hv S0; destruct args as [|? [|? ?]]; cbn in L; try lia; cbn [margs_of map arg0]; eexists; reflexivity|]). contradiction.
  Qed.
End NumberMethods.
