(** What evaluation keeps: a predicate on numbers that arithmetic preserves holds
    of every number in every value, and crashes only come from a few functions. *)
From Coq Require Import String List ZArith NArith Bool Lia.
From Coq Require Import Floats.SpecFloat.
From Verif Require Import Base F64 Syntax Ext F64Text Json Utils Arith Logic Arrays Utf8 Strings Dates Financial Stats Dispatch Registry Cast Methods Core Evaluator.
From Verif Require Import Spec Spec_numbers Spec_dates Spec_stats Base_proofs Value_proofs Json_proofs String_proofs Stats_proofs Date_proofs DateFn_proofs Spec_crash.
Import ListNotations.

(** [Ok] results satisfy [V]; panics only when [F] *)
Definition sat {A} (V : A -> Prop) (F : Prop) (r : res A) : Prop :=
  match r with Ok a => V a | Err _ => True | Panic _ => F end.
Lemma sat_bind : forall A B (V : A -> Prop) (W : B -> Prop) (F : Prop) r k,
  sat V F r -> (forall a, r = Ok a -> V a -> sat W F (k a)) -> sat W F (bind r k).
Proof. intros A B V W F [a|e|w] k H K; cbn in *; auto. Qed.
Lemma sat_weak : forall A (V W : A -> Prop) (F G : Prop) r, sat V F r -> (forall a, V a -> W a) -> (F -> G) -> sat W G r.
Proof. intros A V W F G [a|e|w]; cbn; auto. Qed.
Lemma sat_ok_or : forall A (V : A -> Prop) F o e, (forall a, o = Some a -> V a) -> sat V F (ok_or o e).
Proof. intros A V F [a|] e H; cbn; auto. Qed.
Lemma sat_mapM : forall A B (V : A -> Prop) (W : B -> Prop) F (f : A -> res B) xs,
  (forall x, In x xs -> sat W F (f x)) -> sat (Forall W) F (mapM f xs).
Proof.
  intros A B V W F f xs. induction xs as [|x xs IH]; intros H; cbn; [constructor|].
  apply sat_bind with (V := W); [apply H; now left|]. intros y _ Hy. apply sat_bind with (V := Forall W); [apply IH; intros; apply H; now right|]. intros ys _ Hys. cbn. now constructor.
Qed.
Lemma sat_foldM : forall A B (V : A -> Prop) (f : A -> B -> res A) F xs acc,
  V acc -> (forall a x, In x xs -> V a -> sat V F (f a x)) -> sat V F (foldM f xs acc).
Proof.
  intros A B V f F xs. induction xs as [|x xs IH]; intros acc Ha H; cbn; [assumption|].
  apply sat_bind with (V := V); [apply H; [now left|assumption]|]. intros a _ Va. apply IH; [assumption|]. intros; apply H; [now right|assumption].
Qed.

(** every number in the value satisfies [N] *)
Fixpoint made (N : f64 -> Prop) (v : value) : Prop :=
  match v with
  | VNumber n | VCurrency n => N n
  | VArray xs => (fix all xs := match xs with [] => True | x :: r => made N x /\ all r end) xs
  | _ => True
  end.
Lemma made_array : forall N xs, made N (VArray xs) <-> Forall (made N) xs.
Proof.
  intros N xs. cbn. split.
  - induction xs as [|x xs IH]; intros H; constructor; [apply H|]. apply IH, H.
  - intros F. induction F; [exact I|now split].
Qed.

(** what [N] has to be preserved by *)
Record closed {X : Ext} (N : f64 -> Prop) : Prop := mkClosed {
  c_nan : N f_nan;
  c_zero : forall s, N (S754_zero s);
  c_Z : forall z, N (f_of_Z z);
  c_add : forall x y, N x -> N y -> N (f_add x y);
  c_sub : forall x y, N x -> N y -> N (f_sub x y);
  c_mul : forall x y, N x -> N y -> N (f_mul x y);
  c_div : forall x y, N x -> N y -> N (f_div x y);
  c_rem : forall x y, N x -> N y -> N (f_rem x y);
  c_neg : forall x, N x -> N (f_neg x);
  c_abs : forall x, N x -> N (f_abs x);
  c_sqrt : forall x, N x -> N (f_sqrt x);
  c_text : forall s x, f_from_str s = Some x -> N x;
  c_json : forall s j, json_parse s = Some j -> json_made N j;
  c_powf : forall x y, N x -> N y -> N (x_powf x y);
  c_sin : forall x, N x -> N (x_sin x);
  c_cos : forall x, N x -> N (x_cos x);
  c_tan : forall x, N x -> N (x_tan x);
  c_path : forall j p rs, x_jsonpath j p = inl rs -> json_made N j -> Forall (json_made N) rs;
  c_disorder : forall d l l', x_sort_nan d l = Ok l' -> Forall N l -> Forall N l'
}.

Section Closed.
  Context {X : Ext} (N : f64 -> Prop) (C : closed N).
  Notation V := (made N).
  Let k_nan := c_nan N C.
  Let k_zero := c_zero N C.
  Let k_Z := c_Z N C.
  Let k_add := c_add N C.
  Let k_sub := c_sub N C.
  Let k_mul := c_mul N C.
  Let k_div := c_div N C.
  Let k_rem := c_rem N C.
  Let k_neg := c_neg N C.
  Let k_abs := c_abs N C.
  Let k_sqrt := c_sqrt N C.
  Let k_powf := c_powf N C.
  Let k_sin := c_sin N C.
  Let k_cos := c_cos N C.
  Let k_tan := c_tan N C.
  Hint Resolve k_nan k_zero k_Z k_add k_sub k_mul k_div k_rem k_neg k_abs k_sqrt k_powf k_sin k_cos k_tan : closed.
  Hint Extern 1 (N f_zero) => exact (k_zero false) : closed.
  Hint Extern 1 (N f_one) => exact (k_Z 1) : closed.

  Lemma c_Zs : forall s z, N (f_of_Z_signed s z).
  Proof. intros s z. unfold f_of_Z_signed. destruct z; auto with closed. Qed.
  Lemma c_floor : forall x, N x -> N (f_floor x).
  Proof. intros [s|s| |s m e] H; cbn; auto. destruct (0 <=? e)%Z; [assumption|apply c_Zs]. Qed.
  Lemma c_ceil : forall x, N x -> N (f_ceil x).
  Proof. intros x H. unfold f_ceil. apply k_neg. apply c_floor. auto with closed. Qed.
  Lemma c_trunc : forall x, N x -> N (f_trunc x).
  Proof. intros [s|s| |s m e] H; cbn; auto. destruct (0 <=? e)%Z; [assumption|apply c_Zs]. Qed.
  Lemma c_round : forall x, N x -> N (f_round x).
  Proof. intros [s|s| |s m e] H; cbn -[Z.mul Z.div]; auto. destruct (0 <=? e)%Z; [assumption|apply c_Zs]. Qed.
  Lemma c_min : forall x y, N x -> N y -> N (f_min x y).
  Proof. intros x y Hx Hy. unfold f_min. destruct x, y; auto; destruct (f_ltb _ _); auto. Qed.
  Lemma c_max : forall x y, N x -> N y -> N (f_max x y).
  Proof. intros x y Hx Hy. unfold f_max. destruct x, y; auto; destruct (f_ltb _ _); auto. Qed.
  Lemma c_powi_loop : forall k a r b, N a -> N r -> N (powi_loop k a r b).
  Proof.
    induction k as [|k IH]; intros a r b Ha Hr; cbn [powi_loop]; [assumption|]. cbv zeta.
    assert (N (if Z.odd b then f_mul r a else r)) by (destruct (Z.odd b); auto with closed).
    destruct (_ =? _)%Z; [assumption|]. apply IH; auto with closed.
  Qed.
  Lemma c_powi : forall a b, N a -> N (f_powi a b).
  Proof.
    intros a b H. unfold f_powi. cbv zeta. assert (N (powi_loop 32 a f_one b)) by (apply c_powi_loop; auto with closed).
    destruct (b <? 0)%Z; auto with closed.
  Qed.
  Hint Resolve c_floor c_ceil c_trunc c_round c_min c_max c_powi : closed.
  Lemma c_arith : forall op x y, N x -> N y -> N (arith op x y).
  Proof. intros op x y Hx Hy. destruct op; cbn [arith]; auto with closed. Qed.

  (** ** Values *)
  Lemma made_cons : forall x xs, V x -> Forall V xs -> Forall V (x :: xs).
  Proof. now constructor. Qed.
  Lemma made_map : forall A (f : A -> value) xs, (forall x, V (f x)) -> V (VArray (map f xs)).
  Proof. intros A f xs H. apply made_array, Forall_forall. intros v Hv. apply in_map_iff in Hv as (x & <- & _). apply H. Qed.
  Lemma made_numbers : forall xs, Forall N xs -> V (VArray (map VNumber xs)).
  Proof. intros xs H. apply made_array. induction H; constructor; auto. Qed.
  Lemma to_value_made : forall j, json_made N j -> V (json_to_value j).
  Proof.
    intros j. induction j as [|b|n|s|xs IH|kvs IH] using json_ind'; intros K; try exact I.
    - now inversion K.
    - cbn [json_to_value]. apply made_array. inversion K as [| | | |? F|]; subst. clear K. induction IH as [|x xs Hx IH IH2]; [constructor|]. inversion F; subst. constructor; auto.
  Qed.
  Lemma nth_made : forall xs i v, Forall V xs -> nth_error xs i = Some v -> V v.
  Proof. intros xs i v F E. apply nth_error_In in E. rewrite Forall_forall in F. auto. Qed.
  Lemma num_arg_made : forall args i d, Forall V args -> N d -> N (num_arg args i d).
  Proof. intros args i d F D. unfold num_arg. destruct (nth_error args i) as [v|] eqn:E; [|assumption]. apply nth_made in E; [|assumption]. destruct v; assumption. Qed.
  Lemma opt_num_made : forall args i d, Forall V args -> N d -> N (opt_num args i d).
  Proof. exact num_arg_made. Qed.
  Lemma req_num_made : forall args i m F, Forall V args -> sat N F (req_num args i m).
  Proof. intros args i m F H. unfold req_num. destruct (nth_error args i) as [v|] eqn:E; [|exact I]. apply nth_made in E; [|assumption]. destruct v; exact E || exact I. Qed.
  Lemma fold_made : forall (f : f64 -> value -> f64), (forall v a, V v -> N a -> N (f a v)) -> forall xs a, Forall V xs -> N a -> N (fold_left f xs a).
  Proof. intros f H xs. induction xs as [|x xs IH]; intros a F Ha; cbn; [assumption|]. inversion F; subst. apply IH; auto. Qed.
  Lemma fold_numbers : forall (f : f64 -> f64 -> f64), (forall a b, N a -> N b -> N (f a b)) -> forall xs a, Forall N xs -> N a -> N (fold_left f xs a).
  Proof. intros f H xs. induction xs as [|x xs IH]; intros a F Ha; cbn; [assumption|]. inversion F; subst. apply IH; auto. Qed.
  Lemma sum_value_made : forall v a, V v -> N a -> N (sum_value a v).
  Proof.
    induction v as [n|xs IH| | | |n| |] using value_ind'; intros a Hv Ha; cbn [sum_value]; auto with closed; try (apply k_add; assumption).
    apply made_array in Hv. revert a Ha. induction IH as [|x xs Hx IH IH2]; intros a Ha; cbn [fold_left]; [assumption|]. inversion Hv; subst. apply IH2; auto.
  Qed.
  Lemma mul_value_made : forall v a, V v -> N a -> N (mul_value a v).
  Proof.
    induction v as [n|xs IH| | | |n| |] using value_ind'; intros a Hv Ha; cbn [mul_value]; auto with closed; try (apply k_mul; assumption).
    apply made_array in Hv. revert a Ha. induction IH as [|x xs Hx IH IH2]; intros a Ha; cbn [fold_left]; [assumption|]. inversion Hv; subst. apply IH2; auto.
  Qed.
  Lemma avg_value_made : forall v a, V v -> N (fst a) -> N (fst (avg_value a v)).
  Proof.
    induction v as [n|xs IH| | | |n| |] using value_ind'; intros a Hv Ha; cbn [avg_value]; auto with closed; try (cbn [fst]; apply k_add; assumption).
    apply made_array in Hv. revert a Ha. induction IH as [|x xs Hx IH IH2]; intros a Ha; cbn [fold_left]; [assumption|]. inversion Hv; subst. apply IH2; auto.
  Qed.
  Definition some_made (o : option f64) : Prop := match o with Some x => N x | None => True end.
  Lemma minmax_made : forall pick, (forall x y, N x -> N y -> N (pick x y)) -> forall v a, V v -> some_made a -> some_made (minmax_value pick a v).
  Proof.
    intros pick P. assert (O : forall a n, some_made a -> N n -> some_made (pick_opt pick a n)) by (intros [a|] n Ha Hn; cbn in *; auto).
    induction v as [n|xs IH| | | |n| |] using value_ind'; intros a Hv Ha; cbn [minmax_value]; auto.
    apply made_array in Hv. revert a Ha. induction IH as [|x xs Hx IH IH2]; intros a Ha; cbn [fold_left]; [assumption|]. inversion Hv; subst. apply IH2; auto.
  Qed.

  (** ** Functions *)
  Ltac name_cases := repeat match goal with |- sat _ _ (if ?b then _ else _) => destruct b eqn:?; [|] end.
  Lemma arithmetic_sat : forall name args F, Forall V args -> sat V F (exec_arithmetic name args).
  Proof.
    intros name args F H. unfold exec_arithmetic.
    assert (n1 : forall f, (forall x, N x -> N (f x)) -> sat V F (num1 f args)) by (intros f Hf; unfold num1; cbn; apply Hf, num_arg_made; auto with closed).
    name_cases; auto with closed.
    - cbn. apply (fold_made sum_value); auto with closed. apply sum_value_made.
    - destruct args as [|[n|xs|b|s| |n|t|s] r]; cbn -[f_powi f_of_Z f_div f_mul f_round f_zero]; auto with closed. inversion H; subst.
      assert (N (f_powi (f_of_Z 10) (Z.max match r with VNumber d :: _ => f_to_i32 d | _ => 0 end 0))) by auto with closed. auto with closed.
    - cbn. apply k_powf; auto using num_arg_made with closed.
    - cbn -[f_one f_zero f_rem]. apply k_rem; auto using num_arg_made with closed.
    - unfold fn_avg. destruct (fold_left avg_value args (f_zero, 0%Z)) as [acc count] eqn:E. cbn.
      assert (N acc). { change acc with (fst (acc, count)). rewrite <- E. clear E acc count n1. assert (N (fst (f_zero, 0%Z))) by (cbn; auto with closed). revert H0. generalize (f_zero, 0%Z). induction H; intros a Ha; cbn [fold_left]; [assumption|]. apply IHForall, avg_value_made; assumption. }
      destruct (count =? 0)%Z; auto with closed.
    - cbn. assert (G : some_made (fold_left (minmax_value f_min) args None)). { assert (some_made None) by exact I. revert H0. generalize (@None f64). clear n1. induction H; intros a Ha; cbn [fold_left]; [assumption|]. apply IHForall, minmax_made; auto using c_min. }
      destruct (fold_left _ args None); cbn in *; auto with closed.
    - cbn. assert (G : some_made (fold_left (minmax_value f_max) args None)). { assert (some_made None) by exact I. revert H0. generalize (@None f64). clear n1. induction H; intros a Ha; cbn [fold_left]; [assumption|]. apply IHForall, minmax_made; auto using c_max. }
      destruct (fold_left _ args None); cbn in *; auto with closed.
    - cbn -[f_one]. apply (fold_made mul_value); auto with closed. apply mul_value_made.
    - exact I.
  Qed.
  Lemma logical_sat : forall name args F, Forall V args -> sat V F (exec_logical name args).
  Proof.
    intros name args F H. unfold exec_logical. name_cases; try exact I.
    - unfold fn_ternary. destruct args as [|c [|a [|b [|? ?]]]]; try exact I. destruct c; try exact I. inversion H as [|? ? _ H1]; subst. inversion H1 as [|? ? Ha H2]; subst. inversion H2; subst. cbn. destruct b0; assumption.
    - unfold fn_xor. destruct args as [|a [|b [|? ?]]]; exact I.
    - unfold fn_if. destruct args as [|c [|a r]]; try exact I. inversion H as [|? ? _ H1]; subst. inversion H1 as [|? ? Ha H2]; subst. cbn. destruct (truthy c); [assumption|]. destruct r; [exact I|]. now inversion H2.
    - unfold fn_ifs. destruct (Nat.even _); [|exact I]. cbn. clear -H.
      assert (G : forall n args, (length args <= n)%nat -> Forall V args -> V (ifs_loop args)).
      { induction n as [|n IH]; intros [|c [|v r]] L Fa; try exact I; [cbn in L; lia|]. cbn [ifs_loop]. inversion Fa as [|? ? _ F1]; subst. inversion F1; subst. destruct (truthy c); [assumption|]. apply IH; [cbn in L; lia|assumption]. }
      exact (G (length args) args (le_n _) H).
    - unfold fn_between. destruct args as [|a [|b [|c [|? ?]]]]; try exact I. destruct a, b, c; exact I.
  Qed.
  Lemma slice_to_sat : forall s k F, sat (fun _ => True) F (slice_to s (char_byte_offset s k)).
  Proof. intros s k F. rewrite slice_to_offset. exact I. Qed.
  Lemma slice_from_sat : forall s k F, sat (fun _ => True) F (slice_from s (char_byte_offset s k)).
  Proof. intros s k F. rewrite slice_from_offset. exact I. Qed.
  Lemma slice_range_sat : forall s a b F, (a <= b)%N -> sat (fun _ => True) F (slice_range s (char_byte_offset s a) (char_byte_offset s b)).
  Proof. intros s a b F H. rewrite slice_range_offset by assumption. exact I. Qed.
  Lemma string_sat : forall name args F, Forall V args -> sat V F (exec_string name args).
  Proof.
    intros name args F H. unfold exec_string.
    assert (S1 : forall w f, sat V F (str1 w f args)) by (intros w f; unfold str1; destruct args as [|[]]; exact I).
    assert (SB : forall w, sat V F (fn_substitute w args)) by (intros w; unfold fn_substitute; destruct args as [|[] [|[] [|[] ?]]]; exact I).
    assert (CA : forall w, sat (fun _ => True) F (count_arg w args)) by (intros w; unfold count_arg; destruct (nth_error args 1) as [[]|]; exact I).
    name_cases; auto; try exact I.
    - unfold fn_left. destruct args as [|[] r]; try exact I. eapply sat_bind; [apply CA|]. intros n _ _. eapply sat_bind; [apply slice_to_sat|]. intros; exact I.
    - unfold fn_right. destruct args as [|[] r]; try exact I. eapply sat_bind; [apply CA|]. intros n _ _. cbv zeta. eapply sat_bind; [apply slice_from_sat|]. intros; exact I.
    - unfold fn_mid. destruct args as [|a [|b r]]; try exact I; [destruct a; exact I|]. destruct a; try exact I. destruct b; try exact I.
      apply sat_bind with (V := fun _ => True). { destruct r as [|[] ?]; exact I. } intros lo _ _. cbv zeta. destruct (_ || _) eqn:E; [exact I|].
      apply orb_false_iff in E as [_ E]. apply N.leb_gt in E. eapply sat_bind; [apply slice_range_sat; lia|]. intros; exact I.
    - unfold fn_length. destruct args as [|[] r]; cbn; auto with closed.
    - unfold fn_substring. destruct args as [|a [|b r]]; try exact I; [destruct a; exact I|]. destruct a; try exact I. destruct b; try exact I.
      cbv zeta. destruct (_ <=? _)%N; [exact I|]. eapply sat_bind; [apply slice_range_sat; lia|]. intros; exact I.
    - unfold fn_split. destruct args as [|[] [|[] r]]; try exact I; apply made_map; intros; exact I.
    - unfold fn_replace. destruct args as [|a0 [|a1 [|a2 [|a3 [|? ?]]]]]; try exact I. destruct a0; try exact I. destruct a1; try exact I. destruct a2; try exact I. destruct a3; try exact I.
      cbv zeta. eapply sat_bind; [apply slice_to_sat|]. intros ? _ _. eapply sat_bind; [apply slice_from_sat|]. intros; exact I.
    - apply S1.
    - unfold fn_includes. destruct args as [|[] [|[] [|? ?]]]; exact I.
  Qed.

  (** ** Arrays *)
  Lemma flatten_made : forall v, V v -> Forall V (flatten v).
  Proof.
    induction v as [n|xs IH| | | |n| |] using value_ind'; intros Hv; cbn [flatten]; try (constructor; [exact Hv|constructor]).
    apply made_array in Hv. induction IH as [|x xs Hx IH IH2]; cbn [flat_map]; [constructor|]. inversion Hv; subst. apply Forall_app. auto.
  Qed.
  Lemma flat_made : forall xs, Forall V xs -> Forall V (flat_map flatten xs).
  Proof. intros xs H. induction H; cbn [flat_map]; [constructor|]. apply Forall_app. auto using flatten_made. Qed.
  Lemma last_made : forall xs v, Forall V xs -> last_opt xs = Some v -> V v.
  Proof. induction xs as [|x xs IH]; intros v H E; [discriminate|]. inversion H; subst. cbn in E. destruct xs; [injection E as <-; assumption|auto]. Qed.
  Lemma unique_made : forall xs seen, Forall V xs -> Forall V (unique_loop seen xs).
  Proof. induction xs as [|x xs IH]; intros seen H; cbn [unique_loop]; [constructor|]. inversion H; subst. destruct x; auto. destruct (existsb _ _); [auto|]. constructor; auto. Qed.
  Lemma insert_made : forall x xs, N x -> Forall N xs -> Forall N (insert_num x xs).
  Proof. intros x xs Hx H. induction H; cbn [insert_num]; [now constructor|]. destruct (f_leb _ _); constructor; auto. Qed.
  Lemma sort_made : forall xs, Forall N xs -> Forall N (insertion_sort xs).
  Proof. intros xs H. unfold insertion_sort. induction H; cbn; [constructor|]. now apply insert_made. Qed.
  Lemma nan_in : forall xs, (2 <=? length xs)%nat && existsb is_nan xs = true -> unsortable xs.
  Proof.
    intros xs E. apply andb_true_iff in E as [L E]. apply Nat.leb_le in L. split; [assumption|]. apply existsb_exists in E as (x & I1 & E). destruct x; try discriminate. exact I1.
  Qed.
  Lemma sort_nums_sat : forall xs, Forall N xs -> sat (Forall N) (unsortable xs) (sort_nums xs).
  Proof. intros xs H. unfold sort_nums. destruct (_ && _) eqn:E; cbn; [now apply nan_in|now apply sort_made]. Qed.
  Lemma numbers_of_shape : forall xs ns, numbers_of xs = Ok ns -> xs = map VNumber ns.
  Proof.
    unfold numbers_of. induction xs as [|x xs IH]; intros ns E; cbn in E; [injection E as <-; reflexivity|]. destruct x; try discriminate. cbn in E.
    destruct (mapM _ xs) as [ns'|e|w] eqn:M; try discriminate. injection E as <-. cbn. f_equal. auto.
  Qed.
  Lemma map_numbers_made : forall ns, Forall V (map VNumber ns) -> Forall N ns.
  Proof. induction ns as [|n ns IH]; intros H; constructor; inversion H; subst; [assumption|auto]. Qed.
  Lemma numbers_of_sat : forall xs F, sat (fun _ => True) F (numbers_of xs).
  Proof. intros xs F. unfold numbers_of. eapply sat_weak with (F := F); [apply (sat_mapM _ _ (fun _ => True) (fun _ => True))|auto|auto]. intros x _. destruct x; exact I. Qed.
  Lemma is_name : forall name s, is name s = true -> name = lit s.
  Proof. intros name s E. unfold is in E. now apply str_eqb_eq in E. Qed.
  Lemma array_sat : forall name args, Forall V args -> sat V (crashing_call name args) (exec_array name args).
  Proof.
    intros name args H. unfold exec_array. name_cases; try exact I.
    - apply made_array. exact H.
    - apply made_array. now apply flat_made.
    - unfold fn_first. destruct args as [|[ | [|x xs] | | | | | | ] r]; try exact I. inversion H as [|? ? Ha _]; subst. apply made_array in Ha. now inversion Ha.
    - unfold fn_last. destruct args as [|[ | xs | | | | | | ] r]; try exact I. inversion H as [|? ? Ha _]; subst. apply made_array in Ha. apply sat_ok_or. intros a E. eapply last_made; eassumption.
    - unfold fn_contains. destruct args as [|[] r]; exact I.
    - unfold fn_in. destruct args as [|[] [|? [|? ?]]]; exact I.
    - unfold fn_count. destruct args as [|[] [|? ?]]; cbn; auto with closed.
    - unfold fn_unique. destruct args as [|[ | xs | | | | | | ] r]; try exact I. inversion H as [|? ? Ha _]; subst. apply made_array in Ha. apply made_array. now apply unique_made.
    - unfold fn_sort. destruct args as [|[ | xs | | | | | | ] r]; try exact I. inversion H as [|? ? Ha _]; subst. apply made_array in Ha. cbv zeta.
      eapply sat_bind; [apply numbers_of_sat|]. intros ns E _. apply numbers_of_shape in E. subst xs. apply map_numbers_made in Ha.
      apply sat_bind with (V := Forall N).
      + eapply sat_weak; [apply sort_nums_sat; assumption|auto|]. intros U. match goal with E : is name "SORT" = true |- _ => apply is_name in E as -> end. now constructor.
      + intros l _ Hl. apply made_numbers. match goal with |- context [if ?b then _ else _] => destruct b end; [now apply Forall_rev|assumption].
    - unfold fn_reverse_array. destruct args as [|[ | xs | | | | | | ] r]; try exact I. inversion H as [|? ? Ha _]; subst. apply made_array in Ha. apply made_array. now apply Forall_rev.
    - unfold fn_join. destruct args as [|[ | xs | | | | | | ] r]; try exact I. cbv zeta. apply sat_bind with (V := fun _ => True); [|intros; exact I].
      eapply sat_weak with (F := False); [apply (sat_mapM _ _ (fun _ => True) (fun _ => True))|auto|tauto]. intros x _. destruct x; exact I.
  Qed.

  (** ** Money *)
  Lemma iter_made : forall f z x, (forall a, N a -> N (f a)) -> N x -> N (iterZ z f x).
  Proof. intros f z x Hf Hx. unfold iterZ. induction (Z.to_nat z); cbn; auto. Qed.
  Lemma annuity_made : forall a b c d e, N a -> N b -> N c -> N d -> N (annuity_payment a b c d e).
  Proof. intros a b c d e Ha Hb Hc Hd. unfold annuity_payment. cbv zeta. destruct e; auto 10 with closed. Qed.
  Lemma k12 : N f_12.
  Proof. apply k_Z. Qed.
  Hint Resolve k12 annuity_made iter_made : closed.
  Lemma financial_sat : forall name args F, Forall V args -> sat V F (exec_financial name args).
  Proof.
    intros name args F H. unfold exec_financial.
    assert (R : forall i m, sat N F (req_num args i m)) by (intros; now apply req_num_made).
    assert (O : forall i d, N d -> N (opt_num args i d)) by (intros; now apply opt_num_made).
    Local Ltac req := eapply sat_bind; [match goal with R : forall i m, sat _ _ (req_num _ i m) |- _ => apply R end|intros ? _ ?].
    name_cases; try exact I.
    - unfold fn_pmt. destruct (negb _); [exact I|]. req. req. req. cbv zeta. destruct (f_leb _ _); [exact I|]. cbn -[f_zero f_div f_neg f_add annuity_payment]. destruct (f_eqb _ _); auto 10 with closed.
    - unfold fn_db. destruct (negb _); [exact I|]. req. req. req. req. cbv zeta. destruct (_ || _); [exact I|]. assert (N (opt_num args 4 f_12)) by auto with closed.
      destruct (f_ltb _ _); [cbn; auto with closed|].
      set (rate := f_sub f_one _). assert (N rate) by (unfold rate; auto 10 with closed).
      destruct (f_eqb _ _); [cbn -[f_mul f_div f_12]; auto 10 with closed|]. cbn -[f_mul f_div f_12 f_max f_zero f_sub].
      set (book := iterZ _ _ _). assert (N book) by (unfold book; auto 10 with closed).
      destruct (_ && _); auto 10 with closed.
    - unfold fn_fv. destruct (negb _); [exact I|]. req. req. req. cbv zeta. destruct (f_ltb _ _); [exact I|]. assert (N (opt_num args 3 f_zero)) by auto with closed.
      destruct (f_eqb _ _); [cbn -[f_zero]; auto 10 with closed|]. cbn -[f_zero f_one f_mul f_sub f_div f_add]. destruct (f_eqb _ f_zero); cbn -[f_zero f_one f_mul f_sub f_div f_add]; auto 12 with closed.
    - unfold fn_ipmt. destruct (negb _); [exact I|]. req. req. req. req. cbv zeta. destruct (_ || _); [exact I|]. destruct (f_eqb _ _); [cbn; auto with closed|]. cbn -[f_zero f_one f_mul f_sub f_div f_add annuity_payment].
      match goal with |- N (if ?b then _ else f_mul (iterZ _ _ _) _) => destruct b end; [auto with closed|]. apply k_mul; [|assumption]. apply iter_made; [|assumption].
      intros b Hb. match goal with |- context [annuity_payment ?a ?b ?c ?d ?e] => assert (N (annuity_payment a b c d e)) by auto with closed end.
      match goal with |- context [if ?c then f_sub _ (f_div _ _) else _] => destruct c end; auto 10 with closed.
  Qed.

  (** ** Figures *)
  Lemma collect_made : forall v, V v -> Forall N (collect_nums v).
  Proof.
    induction v as [n|xs IH| | | |n| |] using value_ind'; intros Hv; cbn [collect_nums]; try constructor; try exact Hv; try constructor.
    apply made_array in Hv. induction IH as [|x xs Hx IH IH2]; cbn [flat_map]; [constructor|]. inversion Hv; subst. apply Forall_app. auto.
  Qed.
  Lemma all_nums_made : forall args, Forall V args -> Forall N (all_nums args).
  Proof. intros args H. unfold all_nums. induction H; cbn [flat_map]; [constructor|]. apply Forall_app. auto using collect_made. Qed.
  Lemma fnth_made : forall xs i, Forall N xs -> N (fnth xs i).
  Proof. intros xs i H. unfold fnth. generalize (Z.to_nat i). induction H; intros [|k]; cbn; auto with closed. Qed.
  Hint Resolve fnth_made : closed.
  Lemma f_sum_made : forall xs, Forall N xs -> N (f_sum xs).
  Proof. intros xs H. unfold f_sum. apply fold_numbers; auto with closed. Qed.
  Hint Resolve f_sum_made : closed.
  Lemma variance_made : forall xs, Forall N xs -> N (variance xs).
  Proof. intros xs H. unfold variance. cbv zeta. apply k_div; [|auto with closed]. apply f_sum_made. apply Forall_forall. intros y Hy. apply in_map_iff in Hy as (x & <- & Hx). rewrite Forall_forall in H. assert (Forall N xs) by now apply Forall_forall. auto 10 with closed. Qed.
  Lemma interpolate_made : forall xs p, Forall N xs -> N p -> N (interpolate xs p).
  Proof. intros xs p H Hp. unfold interpolate. cbv zeta. destruct (_ || _)%bool; auto 12 with closed. Qed.
  Lemma removelast_app : forall (args : list value) v, last_opt args = Some v -> args = removelast args ++ [v].
  Proof. induction args as [|x args IH]; intros v E; [discriminate|]. cbn in E. destruct args as [|y args]; [injection E as <-; reflexivity|]. cbn [removelast app]. f_equal. now apply IH. Qed.
  Lemma statistical_sat : forall name args, Forall V args -> sat V (crashing_call name args) (exec_statistical name args).
  Proof.
    intros name args H. unfold exec_statistical.
    assert (A := all_nums_made args H).
    assert (P : forall p, last_opt args = Some (VNumber p) -> (2 <= length args)%nat -> Forall N (all_nums (removelast args)) /\ N p
      /\ forall n, In n (percentile_names ++ quartile_names) -> unsortable (all_nums (removelast args)) -> crashing_call (lit n) args).
    { intros p E L. pose proof (removelast_app _ _ E) as Q. rewrite Q in H. apply Forall_app in H as [H1 H2]. inversion H2; subst. split; [now apply all_nums_made|]. split; [assumption|].
      intros n I1 U. rewrite Q. apply (percentile_crashes n _ (all_nums (removelast args))); [assumption| |now apply all_nums_collects|assumption].
      intros Z0. rewrite Q, Z0 in L. cbn in L. lia. }
    name_cases; try exact I.
    - unfold fn_median. cbv zeta. destruct (all_nums args) as [|x xs] eqn:E; [cbn; auto with closed|]. rewrite <- E in *.
      apply sat_bind with (V := Forall N).
      + eapply sat_weak; [apply sort_nums_sat; assumption|auto|]. intros U. match goal with E : is name "MEDIAN" = true |- _ => apply is_name in E as -> end. apply (median_crashes _ (all_nums args)); [now apply all_nums_collects|assumption].
      + intros l _ Hl. cbn -[f_div f_add f_of_Z Z.div]. destruct (Z.even _); auto 10 with closed.
    - unfold fn_mode. cbv zeta. destruct (all_nums args) as [|x xs] eqn:E; [cbn; auto with closed|]. destruct (mode_spec (ltac:(repeat decide equality)) (x :: xs)) as (a & m & b & M & Q & _); [discriminate|]. rewrite M. cbn. rewrite Q in A. apply Forall_app in A as [_ A]. now inversion A.
    - unfold fn_stdevp. destruct (all_nums args) as [|x xs] eqn:E; [cbn; auto with closed|]. rewrite <- E in *. cbn. apply k_sqrt, variance_made, A.
    - unfold fn_varp. destruct (all_nums args) as [|x xs] eqn:E; [cbn; auto with closed|]. rewrite <- E in *. cbn. apply variance_made, A.
    - unfold fn_percentile. destruct (_ <? _)%nat eqn:L; [exact I|]. apply Nat.ltb_ge in L. cbv zeta. destruct (last_opt args) as [[p| | | | | | | ]|] eqn:E; try exact I. destruct (P p eq_refl L) as (P1 & P2 & P3).
      destruct (all_nums (removelast args)) as [|x xs] eqn:Q; [cbn; auto with closed|]. rewrite <- Q in *. match goal with |- sat _ _ (if ?b then _ else _) => destruct b; [exact I|] end.
      apply sat_bind with (V := Forall N).
      + eapply sat_weak; [apply sort_nums_sat; assumption|auto|]. intros U. match goal with E : (_ || is name _)%bool = true |- _ => apply orb_true_iff in E as [E|E]; [apply orb_true_iff in E as [E|E]|]; apply is_name in E as -> end; apply P3; auto; cbn; tauto.
      + intros l _ Hl. now apply interpolate_made.
    - unfold fn_quartile. destruct (_ <? _)%nat eqn:L; [exact I|]. apply Nat.ltb_ge in L. cbv zeta. destruct (last_opt args) as [[p| | | | | | | ]|] eqn:E; try exact I. destruct (P p eq_refl L) as (P1 & P2 & P3).
      destruct (all_nums (removelast args)) as [|x xs] eqn:Q; [cbn; auto with closed|]. rewrite <- Q in *. match goal with |- sat _ _ (if ?b then _ else _) => destruct b; [exact I|] end.
      apply sat_bind with (V := Forall N).
      + eapply sat_weak; [apply sort_nums_sat; assumption|auto|]. intros U. match goal with E : (_ || is name _)%bool = true |- _ => apply orb_true_iff in E as [E|E]; [apply orb_true_iff in E as [E|E]|]; apply is_name in E as -> end; apply P3; auto; cbn; tauto.
      + intros l _ Hl. apply interpolate_made; auto with closed.
  Qed.

  (** ** Dates *)
  Definition unit_size (u : unit_name) : option Z :=
    match u with UDays => Some 86400 | UHours => Some 3600 | UMinutes => Some 60 | USeconds => Some 1 | UWeeks => Some 604800 | _ => None end%Z.
  Definition unit_months (u : unit_name) : option Z := match u with UMonths => Some 1 | UYears => Some 12 | _ => None end%Z.
  Lemma unit_named : forall s u, unit_of s = Some u ->
    (forall len, unit_size u = Some len -> exists name, In (name, len) fixed_units /\ s = lit name)
    /\ (forall len, unit_months u = Some len -> exists name, In (name, len) month_units /\ s = lit name).
  Proof.
    intros s u E. unfold unit_of in E.
    repeat match type of E with
    | (if ?b then _ else _) = _ => destruct b eqn:?; [injection E as <-; (split; intros len L; [cbn in L|cbn in L]; try discriminate L; injection L as <-);
        repeat match goal with H : (_ || _)%bool = true |- _ => apply orb_true_iff in H as [H|H] end;
        match goal with H : is s ?n = true |- _ => apply is_name in H; exists n; split; [cbn; tauto|exact H] end|]
    end. discriminate.
  Qed.
  Lemma wrap_range : forall z, (- 2 ^ 31 <= wrap_i32 z < 2 ^ 31)%Z /\ (wrap_i32 z mod 2 ^ 32 = z mod 2 ^ 32)%Z.
  Proof.
    intros z. unfold wrap_i32. pose proof (Z.mod_pos_bound (z + 2 ^ 31) (2 ^ 32) ltac:(lia)) as B. split; [lia|].
    rewrite Zminus_mod, Z.mod_mod by lia. rewrite <- Zminus_mod. f_equal. lia.
  Qed.
  Lemma later_exists : forall y m d k y' m', (1 <= m' <= 12)%Z -> (12 * y' + m' = 12 * y + m + k)%Z -> exists d', months_later (y, m, d) (y', m', d') k.
  Proof.
    intros y m d k y' m' M E. exists (if (d <=? days_in_month y' m')%Z then d else 28%Z). unfold months_later. split; [assumption|]. split; [assumption|]. exists (days_in_month y' m'). split; [now apply length_of_iff|reflexivity].
  Qed.
  Lemma date_add_sat : forall t n u, on_calendar t -> sat (fun _ => True) (leaves_calendar t n u) (date_add (t / 86400, t mod 86400)%Z (f_to_i64 n) (to_lowercase u)).
  Proof.
    intros t n u T. unfold date_add. destruct (unit_of (to_lowercase u)) as [un|] eqn:U; [|exact I]. apply unit_named in U as [UF UM].
    assert (Fx : forall len, unit_size un = Some len -> (1 <= len <= 604800)%Z ->
      sat (fun _ => True) (leaves_calendar t n u) (s <- duration len (f_to_i64 n) ;; dt_add (t / 86400, t mod 86400)%Z s)).
    { intros len Q L. destruct (UF len Q) as (name & I1 & E). destruct (add_fixed len t (f_to_i64 n) L T) as [[R _]|[(w & R) O]]; rewrite R; [exact I|]. cbn. now apply (by_time _ _ _ name len). }
    assert (W := wrap_range (f_to_i64 n)). set (k := wrap_i32 (f_to_i64 n)) in *. destruct W as [W1 W2].
    assert (Ts : exists y m d, instant t (y, m, d) (t mod 86400)). { destruct T as ([[y m] d] & s & K). exists y, m, d. pose proof K as (_ & B & dn & _ & Q). replace (t mod 86400)%Z with s; [exact K|]. rewrite Q. symmetry. rewrite Z.add_comm, Z.mul_comm, Z.mod_add by lia. now apply Z.mod_small. }
    destruct Ts as (y & m & d & K). destruct (on_parts t y m d _ K) as (Ft & Ey & Em & Ed & M & D & Y & S0).
    assert (Mo : forall mult y' m', unit_months un = Some mult -> (1 <= m' <= 12)%Z -> (12 * y' + m' = 12 * y + m + mult * k)%Z -> ~ year_in_range y' -> leaves_calendar t n u).
    { intros mult y' m' Q M' E O. destruct (UM mult Q) as (name & I1 & E'). destruct (later_exists y m d (mult * k) y' m' M' E) as (d' & L). exact (by_months _ _ _ name mult k (y, m, d) _ y' m' d' I1 E' W1 W2 K L O). }
    assert (Y2 : forall y' m' mult, unit_months un = Some mult -> (1 <= m' <= 12)%Z -> (12 * y' + m' = 12 * y + m + mult * k)%Z -> sat (fun _ => True) (leaves_calendar t n u) (day <- ymd_or_28 y' m' d ;; Ok (timestamp (day, snd (t / 86400, t mod 86400)%Z)))).
    { intros y' m' mult Q M' E. destruct (ymd28_spec y' m' d M' D) as [A B].
      assert (Dec : year_in_range y' \/ ~ year_in_range y') by (unfold year_in_range; lia). destruct Dec as [R|R]; [rewrite (A R); exact I|]. destruct (B R) as (w & ->). cbn. eapply Mo; eassumption. }
    unfold year_in_range in Y.
    destruct un; try (apply Fx; [reflexivity|lia]).
    - unfold add_months. rewrite Em, Ey, Ed. fold k. unfold add_i32. destruct (_ && _) eqn:O; cbn [bind].
      + cbv zeta. apply (Y2 _ _ 1%Z); [reflexivity| |]; pose proof (Z.mod_pos_bound (m + k - 1) 12 ltac:(lia)); [lia|]. pose proof (Z.div_mod (m + k - 1) 12 ltac:(lia)). lia.
      + cbn. apply (Mo 1%Z (y + (m + k - 1) / 12)%Z ((m + k - 1) mod 12 + 1)%Z); [reflexivity| | |].
        * pose proof (Z.mod_pos_bound (m + k - 1) 12 ltac:(lia)); lia.
        * pose proof (Z.div_mod (m + k - 1) 12 ltac:(lia)). lia.
        * unfold year_in_range. apply andb_false_iff in O. rewrite Z.leb_gt, Z.ltb_ge in O. pose proof (Z.div_mod (m + k - 1) 12 ltac:(lia)). pose proof (Z.mod_pos_bound (m + k - 1) 12 ltac:(lia)). lia.
    - unfold add_years. rewrite Em, Ey, Ed. fold k. unfold add_i32. destruct (_ && _) eqn:O; cbn [bind].
      + apply (Y2 _ _ 12%Z); [reflexivity|assumption|lia].
      + cbn. apply (Mo 12%Z (y + k)%Z m); [reflexivity|assumption|lia|]. unfold year_in_range. apply andb_false_iff in O. rewrite Z.leb_gt, Z.ltb_ge in O. lia.
  Qed.
  Lemma stamp_on : forall t dt, from_timestamp t = Some dt -> on_calendar t /\ dt = (t / 86400, t mod 86400)%Z.
  Proof.
    intros t dt E. unfold from_timestamp in E. cbv zeta in E. destruct (_ && _) eqn:B; [|discriminate]. injection E as <-. split; [|reflexivity].
    apply on_calendar_iff. unfold from_timestamp. cbv zeta. rewrite B. eauto.
  Qed.
  Lemma datetime_sat : forall name args, Forall V args -> sat V (crashing_call name args) (exec_datetime name args).
  Proof.
    intros name args H. unfold exec_datetime.
    assert (P : forall w f, sat V (crashing_call name args) (date_part w f args)).
    { intros w f. unfold date_part. destruct args as [|[] r]; try exact I. apply sat_bind with (V := fun _ => True); [now apply sat_ok_or|]. intros; cbn; auto with closed. }
    name_cases; try exact I; auto.
    - unfold fn_date. destruct args as [|a [|b [|c [|? ?]]]]; try exact I. destruct a; try exact I. destruct b; try exact I. destruct c; try exact I. apply sat_bind with (V := fun _ => True); [now apply sat_ok_or|]. intros; exact I.
    - cbn. auto with closed.
    - unfold fn_dateadd. destruct args as [|a [|b [|c r]]]; try exact I. destruct a; try exact I. destruct b; try exact I. destruct c; try exact I.
      apply sat_bind with (V := fun dt => on_calendar t /\ dt = (t / 86400, t mod 86400)%Z); [apply sat_ok_or; intros dt E; exact (stamp_on _ _ E)|]. intros dt _ [T ->].
      apply sat_bind with (V := fun _ => True); [|intros; exact I]. eapply sat_weak; [apply date_add_sat; exact T|auto|]. intros L. match goal with E : is name "DATEADD" = true |- _ => apply is_name in E as -> end. now constructor.
    - unfold fn_datediff. destruct args as [|a [|b [|c r]]]; try exact I. destruct a; try exact I. destruct b; try exact I. destruct c; try exact I.
      apply sat_bind with (V := fun _ => True); [now apply sat_ok_or|]. intros d1 _ _. apply sat_bind with (V := fun _ => True); [now apply sat_ok_or|]. intros d2 _ _.
      apply sat_bind with (V := fun _ => True); [|intros; cbn; auto with closed]. unfold date_diff. destruct (unit_of _) as [[]|]; exact I.
  Qed.

  (** ** Documents *)
  Lemma parse_json_sat : forall s F, sat (json_made N) F (parse_json s).
  Proof. intros s F. unfold parse_json. apply sat_ok_or. intros j E. exact (c_json N C s j E). Qed.
  Lemma get_made : forall kvs k j, Forall (fun kv => json_made N (snd kv)) kvs -> mget k kvs = Some j -> json_made N j.
  Proof. induction kvs as [|[k' j'] kvs IH]; intros k j H E; [discriminate|]. inversion H; subst. cbn [mget] in E. destruct (str_eqb k k'); [injection E as <-; assumption|eauto]. Qed.
  Lemma dig_made : forall path j j', json_made N j -> dig_path j path = Some j' -> json_made N j'.
  Proof.
    induction path as [|seg path IH]; intros j j' H E; cbn [dig_path] in E; [injection E as <-; assumption|]. destruct (dig_step j seg) as [next|] eqn:S1; [|discriminate]. apply IH in E; [assumption|].
    unfold dig_step in S1. destruct seg; try discriminate; destruct j; try discriminate; inversion H; subst.
    - cbv zeta in S1. destruct (_ && _)%bool; [|discriminate]. unfold znth in S1. apply nth_error_In in S1. match goal with F : Forall _ xs |- _ => rewrite Forall_forall in F; auto end.
    - eapply get_made; eassumption.
  Qed.
  Lemma json_sat : forall name args F, Forall V args -> sat V F (exec_json name args).
  Proof.
    intros name args F H. unfold exec_json. name_cases; [|exact I]. unfold fn_dig. destruct args as [|a0 [|a1 r]]; try exact I. destruct a0; try exact I. destruct a1; try exact I.
    eapply sat_bind; [apply parse_json_sat|]. intros j _ J. cbn. destruct (dig_path j xs) as [j'|] eqn:D; [apply to_value_made; eapply dig_made; eassumption|].
    destruct r as [|d r]; [exact I|]. inversion H as [|? ? _ H1]; subst. inversion H1 as [|? ? _ H2]; subst. now inversion H2.
  Qed.

  (** ** Calls of built-in functions *)
  Lemma builtin_sat : forall name args, Forall V args -> sat V (crashing_call name args) (exec_builtin name args).
  Proof.
    intros name args H. unfold exec_builtin.
    assert (T : forall r k F, sat V F r -> sat V F k -> sat V F (try_else r k)) by (intros [] k F; cbn; auto).
    repeat (apply T; [first [apply arithmetic_sat|apply logical_sat|apply string_sat|apply array_sat]; assumption|]).
    destruct (is_datetime_function name); [now apply datetime_sat|]. repeat (apply T; [first [apply financial_sat|apply statistical_sat]; assumption|]). exact I.
  Qed.
  Lemma builtin_fast_sat : forall name args, Forall V args -> sat V (crashing_call name args) (exec_builtin_fast name args).
  Proof.
    intros name args H. unfold exec_builtin_fast.
    name_cases; first [now apply array_sat|now apply arithmetic_sat|now apply logical_sat|now apply string_sat|now apply datetime_sat|now apply financial_sat|now apply statistical_sat|now apply json_sat|exact I].
  Qed.

  (** ** Operators *)
  Lemma unary_sat : forall op v F, V v -> sat V F (unary op v).
  Proof. intros op v F H. destruct op, v; cbn -[f_neg]; auto with closed. Qed.
  Lemma compare_sat : forall op a b F, sat V F (compare_values op a b).
  Proof. intros op a b F. unfold compare_values. destruct a, b; try exact I; destruct op; exact I. Qed.
  Lemma compare_numeric_sat : forall op a b F, sat V F (compare_numeric op a b).
  Proof. intros op a b F. unfold compare_numeric. destruct a; try exact I; destruct b; exact I. Qed.
  Lemma binary_sat : forall cmp op a b F, (forall F, sat V F (cmp op a b)) -> V a -> V b -> sat V F (binary cmp op a b).
  Proof.
    intros cmp op a b F K Ha Hb. unfold binary.
    destruct op; auto; destruct a; try exact I; destruct b; try exact I; try (apply c_arith; assumption); try exact I.
  Qed.
  Lemma property_sat : forall er v p safe F, sat V F (property er v p safe).
  Proof.
    intros er v p safe F. unfold property. destruct v; try exact I; [destruct safe; exact I|]. eapply sat_bind; [apply parse_json_sat|]. intros j _ J. destruct (jget p j) as [x|] eqn:G; [|destruct safe; exact I].
    cbn. apply to_value_made. unfold jget in G. destruct j; try discriminate. inversion J; subst. eapply get_made; eassumption.
  Qed.
  Lemma to_json_sat : forall v F, sat (fun _ => True) F (value_to_json v).
  Proof.
    intros v F. induction v as [n|xs IH| | | |n| |s] using value_ind'; try exact I.
    - cbn [value_to_json]. apply sat_bind with (V := fun _ => True); [|intros; exact I]. eapply sat_weak with (F := F); [apply (sat_mapM _ _ (fun _ => True) (fun _ => True))|auto|auto]. intros x Hx. rewrite Forall_forall in IH. auto.
    - cbn [value_to_json]. eapply sat_weak; [apply parse_json_sat|auto|intros K; exact K].
  Qed.
  Lemma object_sat : forall vs F, Forall (fun kv => sat V F (snd kv)) vs -> sat V F (build_object vs).
  Proof.
    intros vs F H. unfold build_object. apply sat_bind with (V := fun _ => True); [|intros; exact I].
    apply sat_foldM; [exact I|]. intros a kv I1 _. rewrite Forall_forall in H. apply sat_bind with (V := V); [now apply H|]. intros v _ _. apply sat_bind with (V := fun _ => True); [apply to_json_sat|intros; exact I].
  Qed.
  Lemma index_sat : forall er recv idx (F : Prop), V recv -> (forall n, idx = VNumber n -> too_negative n -> F) -> sat V F (index_value er recv idx).
  Proof.
    intros er recv idx F H K. unfold index_value. destruct idx as [n| | | | | | | ]; try exact I. cbn [as_number ok_or bind]. destruct recv as [|xs| | | | | | ]; try exact I. apply made_array in H.
    unfold index_array, clamp_index. destruct (0 <=? f_to_isize n)%Z eqn:E0.
    - cbn [bind]. destruct (f_to_isize n <? zlen xs)%Z eqn:L; [|exact I]. apply Z.leb_le in E0. apply Z.ltb_lt in L. unfold zlen in L. destruct (znth xs _) as [v|] eqn:G; [cbn; unfold znth in G; eapply nth_made; eassumption|].
      unfold znth in G. apply nth_error_None in G. lia.
    - apply Z.leb_gt in E0. destruct (f_to_isize n =? i64_min)%Z eqn:M.
      + cbn. apply Z.eqb_eq in M. apply (K n eq_refl). assert (T : trunc_Z n = whole_part n) by (destruct n as [| | |[] m e]; reflexivity).
        unfold f_to_isize, f_to_i64, f_to_int in M. unfold too_negative, finite. rewrite <- T. clear T E0 K. generalize dependent (trunc_Z n). intros z M.
        destruct n as [s|s| |s m e]; cbn [is_finite] in *; unfold i64_min, i64_max in M; try (exfalso; lia).
        * right. split; [reflexivity|lia].
        * destruct s; [now left|exfalso; lia].
        * right. split; [reflexivity|lia].
      + cbn [bind]. destruct (- f_to_isize n <=? zlen xs)%Z eqn:L; [|exact I]. apply Z.leb_le in L. unfold zlen in *. destruct (znth xs _) as [v|] eqn:G; [cbn; unfold znth in G; eapply nth_made; eassumption|].
        unfold znth in G. apply nth_error_None in G. lia.
  Qed.
  Lemma firstn_made : forall k (xs : list value), Forall V xs -> Forall V (firstn k xs).
  Proof. induction k; intros xs H; [constructor|]. destruct H; cbn; constructor; auto. Qed.
  Lemma skipn_made : forall k (xs : list value), Forall V xs -> Forall V (skipn k xs).
  Proof. induction k; intros xs H; [exact H|]. destruct H; cbn; auto. Qed.
  Lemma slice_sat : forall er recv s t F, V recv -> (forall r, s = Some r -> sat V F r) -> (forall r, t = Some r -> sat V F r) -> sat V F (slice_value er recv s t).
  Proof.
    intros er recv s t F H Hs Ht. unfold slice_value. destruct recv as [|xs| | | | | | ]; try exact I. apply made_array in H.
    apply sat_bind with (V := fun _ => True). { destruct s as [r|]; [|exact I]. eapply sat_bind; [now apply Hs|intros; exact I]. } intros sv _ _.
    apply sat_bind with (V := fun _ => True). { destruct t as [r|]; [|exact I]. eapply sat_bind; [now apply Ht|intros; exact I]. } intros tv _ _.
    unfold slice_array. cbv zeta. apply sat_bind with (V := fun _ => True); [destruct sv as [[]|]; exact I|]. intros a _ _. apply sat_bind with (V := fun _ => True); [destruct tv as [[]|]; exact I|]. intros b _ _.
    match goal with |- sat _ _ (if ?b then _ else _) => destruct b end; [exact I|]. apply made_array. auto using firstn_made, skipn_made.
  Qed.
  Lemma index_custom_sat : forall recv idx F, V recv -> sat V F (index_custom recv idx).
  Proof.
    intros recv idx F H. unfold index_custom. destruct recv as [|xs| | | | | | ]; try exact I. apply made_array in H. apply sat_bind with (V := fun _ => True); [now apply sat_ok_or|]. intros n _ _. cbv zeta.
    match goal with |- sat _ _ (if ?b then _ else _) => destruct b eqn:E end; [exact I|]. apply orb_false_iff in E as [E1 E2]. apply Z.ltb_ge in E1. apply Z.leb_gt in E2. unfold zlen in *.
    destruct (znth xs _) as [v|] eqn:G; [cbn; unfold znth in G; eapply nth_made; eassumption|]. unfold znth in G. apply nth_error_None in G. lia.
  Qed.
  Lemma slice_custom_sat : forall recv s t F, V recv -> (forall r, s = Some r -> sat V F r) -> (forall r, t = Some r -> sat V F r) -> sat V F (slice_custom recv s t).
  Proof.
    intros recv s t F H Hs Ht. unfold slice_custom. destruct recv as [|xs| | | | | | ]; try exact I. apply made_array in H. cbv zeta.
    assert (B : forall o d m, (forall r, o = Some r -> sat V F r) -> sat (fun _ => True) F (bound_custom (zlen xs) o d m)).
    { intros [r|] d m K; [|exact I]. unfold bound_custom. eapply sat_bind; [now apply K|]. intros v _ _. apply sat_bind with (V := fun _ => True); [now apply sat_ok_or|]. intros; exact I. }
    eapply sat_bind; [now apply B|]. intros a _ _. eapply sat_bind; [now apply B|]. intros b _ _. apply made_array. match goal with |- context [if ?b then _ else _] => destruct b end; [auto using firstn_made, skipn_made|constructor].
  Qed.
  Lemma bool_made : forall b, N (f_of_bool b).
  Proof. intros []; unfold f_of_bool; auto with closed. Qed.
  Lemma cast_sat : forall v ty F, V v -> sat V F (cast_value v ty).
  Proof.
    intros v ty F H. destruct ty; cbn [cast_value]; try exact I.
    - destruct v; try exact I; cbn -[f_of_bool f_trunc]; auto using bool_made with closed. apply c_trunc. destruct (f_from_str _) eqn:E; [exact (c_text N C _ _ E)|auto with closed].
    - destruct v; try exact I; cbn -[f_of_bool]; auto using bool_made with closed. unfold ok_or. destruct (f_from_str _) eqn:E; cbn; [exact (c_text N C _ _ E)|exact I].
    - cbn [sat]. destruct v; apply made_array; try (constructor; [exact H|constructor]). now apply made_array.
    - destruct v; try exact I; cbn -[f_of_bool]; auto using bool_made with closed. unfold ok_or. destruct (f_from_str _) eqn:E; cbn; [exact (c_text N C _ _ E)|exact I].
    - destruct v; try exact I. cbn [cast_datetime]. apply sat_bind with (V := fun _ => True); [now apply sat_ok_or|]. intros; exact I.
  Qed.
  Lemma jsonpath_sat : forall v p F, V v -> sat V F (apply_jsonpath v p).
  Proof.
    assert (I6 : forall z, json_made N (json_of_i64 z)). { intros z. unfold json_of_i64. destruct (0 <=? z)%Z; constructor; cbn -[f_of_Z]; auto with closed. }
    assert (J6 : forall n e F, N n -> sat (json_made N) F (ok_or (jnum_of_f64 n) e)). { intros n e F H. apply sat_ok_or. intros j E. unfold jnum_of_f64 in E. destruct (is_finite n); [|discriminate]. injection E as <-. constructor. exact H. }
    assert (P : forall v F, V v -> sat (json_made N) F (value_to_json_path v)).
    { intros v F. induction v as [n|xs IH| | | |n| |s] using value_ind'; intros H; cbn [value_to_json_path]; try constructor; auto.
      - destruct (_ && _)%bool; [apply I6|now apply J6].
      - apply made_array in H. apply sat_bind with (V := Forall (json_made N)); [|intros; now constructor]. apply (sat_mapM _ _ (fun _ => True)). intros x Hx. rewrite Forall_forall in IH, H. auto.
      - apply I6.
      - apply sat_ok_or. intros j E. exact (c_json N C s j E). }
    intros v p F H. unfold apply_jsonpath. eapply sat_bind; [now apply P|]. intros j _ J. destruct (x_jsonpath j p) as [rs|e] eqn:E; [|exact I]. apply (c_path N C) in E; [|assumption].
    destruct rs as [|r [|r' rs]]; [exact I| |]; cbn [sat]; [apply to_value_made; now inversion E|]. apply made_array. apply Forall_forall. intros x Hx. apply in_map_iff in Hx as (y & <- & Hy). apply to_value_made. rewrite Forall_forall in E. auto.
  Qed.

  (** ** Methods *)
  Lemma text_made : forall s, N (or_default (f_from_str s)).
  Proof. intros s. unfold or_default. destruct (f_from_str s) eqn:E; [exact (c_text N C _ _ E)|auto with closed]. Qed.
  Lemma to_f_made : forall v, V v -> N (to_f v).
  Proof. intros v H. destruct v; cbn -[f_one f_of_Z]; auto using text_made with closed. destruct b; auto with closed. Qed.
  Lemma to_i_made : forall v, V v -> N (to_i v).
  Proof. intros v H. assert (T := to_f_made v H). destruct v; cbn -[f_one f_of_Z f_trunc to_f]; auto using c_trunc. Qed.
  Lemma json_text_sat : forall v F, sat (fun _ => True) F (to_json_text v).
  Proof.
    assert (P : forall v F, sat (fun _ => True) F (value_to_json_value v)).
    { intros v F. induction v as [n|xs IH| | | |n| |s] using value_ind'; cbn [value_to_json_value]; try exact I; try (now apply sat_ok_or).
      - apply sat_bind with (V := fun _ => True); [|intros; exact I]. eapply sat_weak with (F := F); [apply (sat_mapM _ _ (fun _ => True) (fun _ => True))|auto|auto]. intros x Hx. rewrite Forall_forall in IH. auto. }
    intros v F. destruct v; cbn [to_json_text]; try exact I.
    - apply sat_bind with (V := fun _ => True); [now apply sat_ok_or|intros; exact I].
    - apply sat_bind with (V := fun _ => True); [|intros; exact I]. eapply sat_weak with (F := F); [apply (sat_mapM _ _ (fun _ => True) (fun _ => True)); intros; apply P|auto|auto].
    - apply sat_bind with (V := fun _ => True); [now apply sat_ok_or|intros; exact I].
  Qed.
  Lemma conversion_sat : forall name v F, V v -> sat V F (exec_conversion name v).
  Proof.
    intros name v F H. unfold exec_conversion. cbv zeta. repeat match goal with |- sat _ _ (if ?b then _ else _) => destruct b end; try exact I.
    - cbn [sat]. apply to_i_made, H.
    - cbn [sat]. apply to_f_made, H.
    - cbn [sat]. destruct v; cbn [to_a]; [|exact H| |apply made_map; intros; exact I|exact I| | |]; apply made_array; auto.
    - apply sat_bind with (V := fun _ => True); [apply json_text_sat|intros; exact I].
  Qed.
  Lemma predicate_sat : forall name v F, sat V F (exec_predicate name v).
  Proof.
    intros name v F. unfold exec_predicate. cbv zeta. repeat match goal with |- sat _ _ (if ?b then _ else _) => destruct b end; exact I.
  Qed.

  Section Arguments.
    Variable F : Prop.
    Variable bv : option env.
    Let good (a : marg) := sat V F (m_eval a bv).

    Lemma arg0_sat : forall args e, Forall good args -> sat V F (arg0 args bv e).
    Proof. intros args e H. destruct H; [exact I|assumption]. Qed.
    Lemma with_text : forall args e e' k, Forall good args -> (forall p, sat V F (k p)) ->
      sat V F (v <- arg0 args bv e ;; p <- str_of v e' ;; k p).
    Proof. intros args e e' k H K. eapply sat_bind; [now apply arg0_sat|]. intros v _ _. destruct v; cbn [str_of bind]; try exact I. apply K. Qed.
    Lemma string_method_sat : forall name s args, Forall good args -> sat V F (exec_string_method name s args bv).
    Proof.
      intros name s args H. unfold exec_string_method. cbv zeta.
      repeat match goal with |- sat _ _ (if ?b then _ else _) => destruct b end; try exact I.
      - cbn [sat]. cbn [made]. auto with closed.
      - apply with_text; [assumption|intros; exact I].
      - apply with_text; [assumption|intros; exact I].
      - apply with_text; [assumption|intros; exact I].
      - apply with_text; [assumption|intros; cbn [sat]]. apply made_map. intros; exact I.
      - destruct args as [|a0 [|a1 r]]; try exact I. inversion H; subst. inversion H3; subst. eapply sat_bind; [eassumption|]. intros f _ _. eapply sat_bind; [eassumption|]. intros t _ _. destruct f; try exact I. destruct t; exact I.
      - unfold m_substring. eapply sat_bind; [now apply arg0_sat|]. intros v _ _. destruct v; cbn [num_of bind]; try exact I. destruct args as [|a0 [|a1 r]]; try exact I. inversion H; subst. inversion H3; subst. eapply sat_bind; [eassumption|]. intros l _ _. destruct l; exact I.
    Qed.
    Lemma unique_debug_made : forall xs seen, Forall V xs -> Forall V (unique_debug seen xs).
    Proof. intros xs seen H. revert seen. induction H; intros seen; cbn; [constructor|]. destruct (existsb _ _); auto. Qed.
    Lemma insert_desc_made : forall x xs, N x -> Forall N xs -> Forall N (insert_desc x xs).
    Proof. intros x xs Hx H. induction H; cbn; [auto|]. destruct (f_leb _ _); auto. Qed.
    Lemma nums_of_sat : forall e xs, Forall V xs -> sat (Forall N) F (nums_of e xs).
    Proof. intros e xs H. unfold nums_of. apply (sat_mapM _ _ (fun _ => True)). intros v Hv. rewrite Forall_forall in H. specialize (H v Hv). destruct v; try exact I; exact H. Qed.
    Lemma pick_made : forall pick nums, (forall a b, N a -> N b -> N (pick a b)) -> Forall N nums -> N (or_default (pick_method pick nums)).
    Proof.
      intros pick nums K H. unfold pick_method. assert (G : forall acc, match acc with Some a => N a | None => True end ->
        match fold_left (fun cur n => Some (match cur with None => n | Some c => pick n c end)) nums acc with Some a => N a | None => True end).
      { clear -H K. induction H as [|x xs Hx H IH]; intros acc A; [exact A|]. cbn [fold_left]. apply IH. destruct acc; auto. }
      specialize (G None I). destruct (fold_left _ _ _); cbn; auto with closed.
    Qed.
    Lemma array_method_sat : forall name xs args, Forall V xs -> Forall good args ->
      (forall ns desc w, xs = map VNumber ns -> to_lowercase name = lit "sort" -> unsortable ns -> x_sort_nan desc ns = Panic w -> F) ->
      sat V F (exec_array_method name xs args bv).
    Proof.
      intros name xs args H A K. unfold exec_array_method. cbv zeta.
      repeat match goal with |- sat _ _ (if ?b then _ else _) => match type of b with bool => destruct b eqn:? end end; try exact I.
      - cbn [sat made]. auto with closed.
      - destruct H; [exact I|assumption].
      - destruct (last_opt xs) eqn:L; [cbn [sat]; eapply last_made; eassumption|exact I].
      - apply made_array. now apply Forall_rev.
      - apply made_array. now apply unique_debug_made.
      - apply sat_bind with (V := fun _ => True). { destruct A; [exact I|]. eapply sat_bind; [eassumption|intros; exact I]. } intros desc _ _.
        destruct (mapM _ xs) as [ns|e|w] eqn:M; [|exact I|].
        + assert (S : xs = map VNumber ns). { revert ns M. clear. induction xs as [|x xs IH]; intros ns M; [now injection M as <-|]. cbn [mapM] in M. destruct x; cbn [num_of bind] in M; try discriminate. destruct (mapM _ xs) as [r| |] eqn:E; try discriminate. injection M as <-. cbn. now rewrite (IH r eq_refl). }
          subst xs. apply map_numbers_made in H. cbn [bind]. eapply sat_bind with (V := Forall N); [|intros l _ Hl; now apply made_numbers]. unfold sort_method. destruct (_ && _)%bool eqn:B.
          * destruct (x_sort_nan desc ns) as [l|e|w] eqn:E; cbn [sat]; [exact (c_disorder N C _ _ _ E H)|exact I|]. eapply K; [reflexivity|apply is_name; eassumption|now apply nan_in|exact E].
          * cbn [sat]. destruct desc; [|now apply sort_made]. clear -H. induction H; cbn; [constructor|]. now apply insert_desc_made.
        + exfalso. revert w M. clear. induction xs as [|x xs IH]; intros w M; [discriminate|]. cbn [mapM] in M. destruct x; cbn [num_of bind] in M; try discriminate. destruct (mapM _ xs) as [r| |] eqn:E; try discriminate. eapply IH; reflexivity.
      - eapply sat_bind; [now apply nums_of_sat|]. intros ns _ Hn. cbn [sat made]. apply fold_numbers; auto with closed.
      - destruct xs as [|x xs]; [cbn [sat made]; auto with closed|]. eapply sat_bind; [now apply nums_of_sat|]. intros ns _ Hn. cbn [sat made]. apply (c_div N C); [apply fold_numbers; auto with closed|auto with closed].
      - destruct xs as [|x xs]; [exact I|]. eapply sat_bind; [now apply nums_of_sat|]. intros ns _ Hn. cbn [sat made]. apply pick_made; [exact c_min|assumption].
      - destruct xs as [|x xs]; [exact I|]. eapply sat_bind; [now apply nums_of_sat|]. intros ns _ Hn. cbn [sat made]. apply pick_made; [exact c_max|assumption].
      - apply sat_bind with (V := fun _ => True). { destruct A; [exact I|]. eapply sat_bind; [eassumption|intros; exact I]. } intros sep _ _. apply sat_bind with (V := fun _ => True); [|intros; exact I].
        eapply sat_weak with (F := F); [apply (sat_mapM _ _ (fun _ => True) (fun _ => True))|auto|auto]. intros x _. destruct x; exact I.
      - eapply sat_bind; [now apply arg0_sat|intros; exact I].
      - apply made_array. now apply flat_made.
      - apply made_array. apply Forall_forall. intros x Hx. apply filter_In in Hx as [Hx _]. rewrite Forall_forall in H. auto.
    Qed.
    Lemma number_method_sat : forall name n args, N n -> Forall good args -> sat V F (exec_number_method name n args bv).
    Proof.
      intros name n args H A. unfold exec_number_method. cbv zeta.
      repeat match goal with |- sat _ _ (if ?b then _ else _) => match type of b with bool => destruct b eqn:? end end; try exact I.
      - cbn [sat made]. auto with closed.
      - cbn [sat made]. now apply c_ceil.
      - cbn [sat made]. now apply c_floor.
      - destruct A as [|a r Ha]; [cbn [sat made]; now apply c_round|]. eapply sat_bind; [exact Ha|]. intros v _ Hv. destruct v as [p| | | | | | | ]; cbn [num_of bind]; try exact I. destruct (_ =? 0)%Z; cbn [sat made]; [now apply c_round|].
        assert (N (f_powi (f_of_Z 10) (f_to_i32 p))) by (apply c_powi; auto with closed). apply (c_div N C); [apply c_round, (c_mul N C)|]; assumption.
      - cbn [sat made]. auto with closed.
      - cbn [sat made]. auto with closed.
      - cbn [sat made]. auto with closed.
      - cbn [sat made]. auto with closed.
      - cbn [sat made]. now apply c_trunc.
      - destruct A as [|a0 r H0 A]; [exact I|]. destruct A as [|a1 r H1 A]; [exact I|]. destruct r; [|exact I]. eapply sat_bind; [exact H0|]. intros lo _ _. eapply sat_bind; [exact H1|]. intros hi _ _. destruct lo; cbn [bound_of bind]; try exact I; destruct hi; exact I.
    Qed.
    Lemma json_method_sat : forall name s args, Forall good args -> sat V F (exec_json_method name s args bv).
    Proof.
      intros name s args A. unfold exec_json_method. cbv zeta.
      repeat match goal with |- sat _ _ (if ?b then _ else _) => match type of b with bool => destruct b eqn:? end end; try exact I.
      - eapply sat_bind; [apply parse_json_sat|]. intros j _ J. destruct j; try exact I. cbn [sat]. apply made_map. intros; exact I.
      - eapply sat_bind; [apply parse_json_sat|]. intros j _ J. destruct j; try exact I. cbn [sat]. apply made_array. inversion J; subst. apply Forall_forall. intros x Hx. apply in_map_iff in Hx as (y & <- & Hy). apply to_value_made. rewrite Forall_forall in H0. auto.
      - apply with_text; [assumption|]. intros k. eapply sat_bind; [apply parse_json_sat|]. intros j _ J. destruct j; exact I.
      - eapply sat_bind; [now apply arg0_sat|]. intros pv _ _. apply sat_bind with (V := fun o => match o with Some d => V d | None => True end).
        { destruct A as [|a0 r H0 A]; [exact I|]. destruct A as [|a1 r H1 A]; [exact I|]. eapply sat_bind; [exact H1|]. intros v _ Hv. exact Hv. } intros dv _ Hd.
        destruct pv as [|path| | | | | | ]; try exact I. eapply sat_bind; [apply parse_json_sat|]. intros j _ J. cbn [sat]. destruct (dig_path j path) eqn:D; [apply to_value_made; eapply dig_made; eassumption|]. destruct dv; [assumption|exact I].
    Qed.
  End Arguments.

  Definition env_made (vars : env) : Prop := forall k v, mget k vars = Some v -> V v.
  Lemma insert_env : forall k v vars, V v -> env_made vars -> env_made (minsert k v vars).
  Proof. intros k v vars Hv H k' v' G. rewrite mget_minsert in G. destruct (str_eqb _ _); [now injection G as <-|eapply H; eassumption]. Qed.
  Lemma empty_env : env_made [].
  Proof. intros k v H. discriminate. Qed.

  Section Lambdas.
    Variable F : Prop.
    Variable f : env -> res value.
    Hypothesis f_ok : forall vars, env_made vars -> sat V F (f vars).
    Lemma filter_sat : forall p items vars, env_made vars -> Forall V items -> sat (Forall V) F (filter_loop f p vars items).
    Proof.
      intros p items vars E H. revert vars E. induction H as [|x xs Hx H IH]; intros vars E; cbn [filter_loop]; [constructor|]. cbv zeta. assert (E' := insert_env p x vars Hx E).
      eapply sat_bind; [now apply f_ok|]. intros v _ _. eapply sat_bind; [now apply IH|]. intros out _ Ho. cbn [sat]. destruct (is_true v); auto.
    Qed.
    Lemma map_sat : forall p items vars, env_made vars -> Forall V items -> sat (Forall V) F (map_loop f p vars items).
    Proof.
      intros p items vars E H. revert vars E. induction H as [|x xs Hx H IH]; intros vars E; cbn [map_loop]; [constructor|]. cbv zeta. assert (E' := insert_env p x vars Hx E).
      eapply sat_bind; [now apply f_ok|]. intros v _ Hv. eapply sat_bind; [now apply IH|]. intros out _ Ho. cbn [sat]. auto.
    Qed.
    Lemma find_sat : forall p items vars, env_made vars -> Forall V items -> sat V F (find_loop f p vars items).
    Proof.
      intros p items vars E H. revert vars E. induction H as [|x xs Hx H IH]; intros vars E; cbn [find_loop]; [exact I|]. cbv zeta. assert (E' := insert_env p x vars Hx E).
      eapply sat_bind; [now apply f_ok|]. intros v _ Hv. destruct (is_true v); [exact Hx|now apply IH].
    Qed.
    Lemma reduce_sat : forall p q items vars acc, env_made vars -> V acc -> Forall V items -> sat V F (reduce_loop f p q vars acc items).
    Proof.
      intros p q items vars acc E Ha H. revert vars acc Ha E. induction H as [|x xs Hx H IH]; intros vars acc Ha E; cbn [reduce_loop]; [exact Ha|]. cbv zeta. assert (E' := insert_env q acc _ Ha (insert_env p x vars Hx E)).
      eapply sat_bind; [now apply f_ok|]. intros v _ Hv. now apply IH.
    Qed.
    Lemma addend_made : forall v n, V v -> addend v = Some n -> N n.
    Proof. intros v n H E. destruct v; try discriminate; injection E as <-; exact H. Qed.
    Lemma sumif_loop_sat : forall items vars acc, env_made vars -> N acc -> Forall V items -> sat N F (sumif_loop f vars acc items).
    Proof.
      intros items vars acc E Ha H. revert vars acc Ha E. induction H as [|x xs Hx H IH]; intros vars acc Ha E; cbn [sumif_loop]; [exact Ha|]. cbv zeta. assert (E' := insert_env (lit "x") x vars Hx E).
      eapply sat_bind; [now apply f_ok|]. intros v _ Hv. apply IH; [|assumption]. destruct (is_true v); [|assumption]. destruct (addend x) eqn:D; [|assumption]. apply (c_add N C); [assumption|]. exact (addend_made _ _ Hx D).
    Qed.
    Lemma avgif_loop_sat : forall items vars acc n, env_made vars -> N acc -> Forall V items -> sat (fun p => N (fst p)) F (avgif_loop f vars acc n items).
    Proof.
      intros items vars acc n E Ha H. revert vars acc n Ha E. induction H as [|x xs Hx H IH]; intros vars acc n Ha E; cbn [avgif_loop]; [exact Ha|]. cbv zeta. assert (E' := insert_env (lit "x") x vars Hx E).
      eapply sat_bind; [now apply f_ok|]. intros v _ Hv. destruct (is_true v); [|now apply IH]. destruct (addend x) eqn:D; [|now apply IH]. apply IH; [|assumption]. apply (c_add N C); [assumption|]. exact (addend_made _ _ Hx D).
    Qed.
    Lemma countif_loop_sat : forall items vars n, env_made vars -> Forall V items -> sat (fun _ => True) F (countif_loop f vars n items).
    Proof.
      intros items vars n E H. revert vars n E. induction H as [|x xs Hx H IH]; intros vars n E; cbn [countif_loop]; [exact I|]. cbv zeta. assert (E' := insert_env (lit "x") x vars Hx E).
      eapply sat_bind; [now apply f_ok|]. intros v _ Hv. now apply IH.
    Qed.
    Lemma as_array_sat : forall v e, V v -> sat (Forall V) F (as_array v e).
    Proof. intros v e H. destruct v; try exact I. now apply made_array. Qed.
    Lemma sumif_with_sat : forall vars v, env_made vars -> V v -> sat V F (sumif_with f vars v).
    Proof. intros vars v E H. unfold sumif_with. eapply sat_bind; [now apply as_array_sat|]. intros xs _ Hx. eapply sat_bind; [apply sumif_loop_sat; auto with closed|]. intros n _ Hn. exact Hn. Qed.
    Lemma avgif_with_sat : forall vars v, env_made vars -> V v -> sat V F (avgif_with f vars v).
    Proof. intros vars v E H. unfold avgif_with. eapply sat_bind; [now apply as_array_sat|]. intros xs _ Hx. eapply sat_bind; [apply avgif_loop_sat; auto with closed|]. intros [a n] _ Hn. cbn [fst] in Hn. cbn [sat made]. destruct (n =? 0)%Z; auto with closed. Qed.
    Lemma countif_with_sat : forall vars v, env_made vars -> V v -> sat V F (countif_with f vars v).
    Proof. intros vars v E H. unfold countif_with. eapply sat_bind; [now apply as_array_sat|]. intros xs _ Hx. eapply sat_bind; [apply countif_loop_sat; auto with closed|]. intros n _ Hn. cbn [sat made]. auto with closed. Qed.
  End Lambdas.

  (** the arguments of methods *)
  Definition marg_ok (F : Prop) (bv : option env) (a : marg) : Prop :=
    sat V F (m_eval a bv) /\ (forall vars, env_made vars -> sat V F (m_lambda a vars)).
  Definition base_ok (bv : option env) : Prop := match bv with Some vars => env_made vars | None => True end.
  Lemma base_of_ok : forall bv, base_ok bv -> env_made (base_of bv).
  Proof. intros [vars|] H; [exact H|exact empty_env]. Qed.
  Lemma method_sat : forall (F : Prop) name p recv args bv, V recv -> base_ok bv -> Forall (marg_ok F bv) args ->
    (forall ns desc w, recv = VArray (map VNumber ns) -> to_lowercase name = lit "sort" -> unsortable ns -> x_sort_nan desc ns = Panic w -> F) ->
    sat V F (exec_method name p recv args bv).
  Proof.
    intros F name p recv args bv H B A K. unfold exec_method. destruct p; [apply predicate_sat|]. cbv zeta. destruct (one_of _ _); [now apply conversion_sat|].
    assert (A' : Forall (fun a => sat V F (m_eval a bv)) args) by (eapply Forall_impl; [|exact A]; intros a Q; apply Q). assert (B' := base_of_ok bv B).
    destruct recv as [n|xs| |s| | | |s]; try exact I.
    - now apply number_method_sat.
    - apply made_array in H. repeat match goal with |- sat _ _ (if ?b then _ else _) => destruct b eqn:? end.
      + unfold m_filter. destruct A as [|a r [_ Ha] A]; [exact I|]. eapply sat_bind; [now apply filter_sat|]. intros out _ Ho. now apply made_array.
      + unfold m_map. destruct A as [|a r [_ Ha] A]; [exact I|]. eapply sat_bind; [now apply map_sat|]. intros out _ Ho. now apply made_array.
      + unfold m_find. destruct A as [|a r [_ Ha] A]; [exact I|]. now apply find_sat.
      + unfold m_reduce. destruct A as [|a r [_ Ha] A]; [exact I|]. destruct A as [|a1 r [_ Ha1] A]; [exact I|]. eapply sat_bind; [now apply Ha1|]. intros i _ Hi. now apply reduce_sat.
      + apply array_method_sat; try assumption. intros ns desc w -> L U E. eapply K; eauto.
    - now apply string_method_sat.
    - now apply json_method_sat.
  Qed.

  (** ** Functions that take expressions *)
  Section Higher.
    Context {T : Type}.
    Variable good : T -> Prop.
    Variable F : Prop.
    Definition arg_ok (a : arg T) : Prop :=
      (forall c, good c -> sat V F (a_eval a c)) /\
      match a_spread a with Some f => forall c, good c -> sat V F (f c) | None => True end.
    Lemma ternary_sat : forall c args, good c -> Forall arg_ok args -> sat V F (ternary c args).
    Proof.
      intros c args G A. unfold ternary. destruct A as [|a0 r [H0 _] A]; [exact I|]. destruct A as [|a1 r [H1 _] A]; [exact I|]. destruct A as [|a2 r [H2 _] A]; [exact I|]. destruct r; [|exact I].
      eapply sat_bind; [now apply H0|]. intros v _ _. apply sat_bind with (V := fun _ => True); [now apply sat_ok_or|]. intros [] _ _; auto.
    Qed.
    Lemma get_param_sat : forall c o d, good c -> match o with Some a => arg_ok a | None => True end -> sat (fun _ => True) F (get_param c o d).
    Proof. intros c [a|] d G A; [|exact I]. cbn [get_param]. eapply sat_bind; [now apply A|]. intros; exact I. Qed.
    Lemma nth_ok : forall args i, Forall arg_ok args -> match nth_error args i with Some a => arg_ok a | None => True end.
    Proof. intros args i H. destruct (nth_error args i) eqn:E; [|exact I]. apply nth_error_In in E. rewrite Forall_forall in H. auto. Qed.
    Lemma two_args_sat : forall c args m k, good c -> Forall arg_ok args -> (forall v a, V v -> arg_ok a -> sat V F (k v a)) -> sat V F (two_args c args m k).
    Proof.
      intros c args m k G A K. unfold two_args. destruct A as [|a0 r [H0 _] A]; [exact I|]. destruct A as [|a1 r H1 A]; [exact I|]. destruct r; [|exact I]. eapply sat_bind; [now apply H0|]. intros v _ Hv. auto.
    Qed.
  End Higher.
  Lemma unwrap_sat : forall A (W : A -> Prop) F r d, sat W F r -> W d -> sat W F (unwrap_or r d).
  Proof. intros A W F [a|e|w] d H D; auto. Qed.

  Lemma core_higher_sat : forall F name vars args, env_made vars -> Forall (arg_ok base_ok F) args -> sat V F (core_higher_order name vars args).
  Proof.
    intros F name vars args E A. assert (G : base_ok (Some vars)) by exact E.
    assert (L : forall a, arg_ok base_ok F a -> forall vs, env_made vs -> sat V F (lambda_of Some a vs)).
    { intros a [Ha Hs] vs Ev. unfold lambda_of. destruct (a_spread a); [exact I|]. now apply Ha. }
    assert (P : forall a, arg_ok base_ok F a -> forall vs, env_made vs -> sat V F (plain_lambda Some a vs)).
    { intros a [Ha Hs] vs Ev. now apply Ha. }
    assert (Q : forall i d, sat (fun _ => True) F (get_param (Some vars) (nth_error args i) d)).
    { intros i d. eapply get_param_sat; [exact G|]. now apply nth_ok. }
    unfold core_higher_order. repeat match goal with |- sat _ _ (if ?b then _ else _) => destruct b eqn:? end; try exact I.
    - unfold core_filter. specialize (Q 2%nat). inversion A as [|a0 r H0 A0]; subst; [exact I|]. inversion A0 as [|a1 r1 H1 A1]; subst; [exact I|].
      eapply sat_bind; [now apply H0|]. intros v _ Hv. eapply sat_bind; [apply Q|]. intros p _ _. eapply sat_bind; [now apply as_array_sat|]. intros xs _ Hx. eapply sat_bind; [apply filter_sat; auto|]. intros out _ Ho. now apply made_array.
    - unfold core_find. specialize (Q 2%nat). inversion A as [|a0 r H0 A0]; subst; [exact I|]. inversion A0 as [|a1 r1 H1 A1]; subst; [exact I|].
      eapply sat_bind; [now apply H0|]. intros v _ Hv. eapply sat_bind; [apply Q|]. intros p _ _. eapply sat_bind; [now apply as_array_sat|]. intros xs _ Hx. apply find_sat; auto.
    - unfold core_map. specialize (Q 2%nat). inversion A as [|a0 r H0 A0]; subst; [exact I|]. inversion A0 as [|a1 r1 H1 A1]; subst; [exact I|].
      eapply sat_bind; [now apply H0|]. intros v _ Hv. eapply sat_bind; [apply Q|]. intros p _ _. eapply sat_bind; [now apply as_array_sat|]. intros xs _ Hx. eapply sat_bind; [apply map_sat; auto|]. intros out _ Ho. now apply made_array.
    - unfold core_reduce. assert (Q4 := Q 4%nat). specialize (Q 3%nat). inversion A as [|a0 r H0 A0]; subst; [exact I|]. inversion A0 as [|a1 r1 H1 A1]; subst; [exact I|]. inversion A1 as [|a2 r2 H2 A2]; subst; [exact I|].
      eapply sat_bind; [now apply H0|]. intros v _ Hv. eapply sat_bind; [now apply H2|]. intros i _ Hi. eapply sat_bind; [apply (unwrap_sat _ (fun _ => True)); [apply Q|exact I]|]. intros p _ _. eapply sat_bind; [apply (unwrap_sat _ (fun _ => True)); [apply Q4|exact I]|]. intros q _ _.
      eapply sat_bind; [now apply as_array_sat|]. intros xs _ Hx. apply reduce_sat; auto.
    - unfold core_sumif. eapply two_args_sat; [exact G|exact A|]. intros v a Hv Ha. apply sumif_with_sat; auto.
    - unfold core_avgif. eapply two_args_sat; [exact G|exact A|]. intros v a Hv Ha. apply avgif_with_sat; auto.
    - unfold core_countif. eapply two_args_sat; [exact G|exact A|]. intros v a Hv Ha. apply countif_with_sat; auto.
  Qed.
  Lemma custom_higher_sat : forall F name vars args, env_made vars -> Forall (arg_ok env_made F) args -> sat V F (custom_higher_order name vars args).
  Proof.
    intros F name vars args E A. assert (P : forall a, arg_ok env_made F a -> forall vs, env_made vs -> sat V F (a_eval a vs)) by (intros a [Ha _]; exact Ha).
    unfold custom_higher_order. repeat match goal with |- sat _ _ (if ?b then _ else _) => destruct b eqn:? end; try exact I.
    - unfold custom_filter. inversion A as [|a0 r H0 A0]; subst; [exact I|]. inversion A0 as [|a1 r1 H1 A1]; subst; [exact I|].
      eapply sat_bind; [now apply H0|]. intros v _ Hv. eapply sat_bind; [now apply as_array_sat|]. intros xs _ Hx. eapply sat_bind; [apply filter_sat; auto|]. intros out _ Ho. now apply made_array.
    - unfold custom_find. inversion A as [|a0 r H0 A0]; subst; [exact I|]. inversion A0 as [|a1 r1 H1 A1]; subst; [exact I|].
      eapply sat_bind; [now apply H0|]. intros v _ Hv. eapply sat_bind; [now apply as_array_sat|]. intros xs _ Hx. apply find_sat; auto.
    - unfold custom_map. inversion A as [|a0 r H0 A0]; subst; [exact I|]. inversion A0 as [|a1 r1 H1 A1]; subst; [exact I|].
      eapply sat_bind; [now apply H0|]. intros v _ Hv. eapply sat_bind; [now apply as_array_sat|]. intros xs _ Hx. eapply sat_bind; [apply map_sat; auto|]. intros out _ Ho. now apply made_array.
    - unfold custom_reduce. inversion A as [|a0 r H0 A0]; subst; [exact I|]. inversion A0 as [|a1 r1 H1 A1]; subst; [exact I|]. inversion A1 as [|a2 r2 H2 A2]; subst; [exact I|].
      eapply sat_bind; [now apply H0|]. intros v _ Hv. eapply sat_bind; [now apply H2|]. intros i _ Hi. eapply sat_bind; [now apply as_array_sat|]. intros xs _ Hx. apply reduce_sat; auto.
    - unfold custom_sumif. eapply two_args_sat; [exact E|exact A|]. intros v a Hv Ha. apply sumif_with_sat; auto.
    - unfold custom_avgif. eapply two_args_sat; [exact E|exact A|]. intros v a Hv Ha. apply avgif_with_sat; auto.
    - unfold custom_countif. eapply two_args_sat; [exact E|exact A|]. intros v a Hv Ha. apply countif_with_sat; auto.
  Qed.

  (** ** Expressions *)
  Definition fault (reg : registry) (e : expr) : Prop := exists s, part s e /\ faulty reg s.
  Definition lits (e : expr) : Prop := forall n, part (ENumber n) e -> N n.
  Definition keeps (reg : registry) : Prop := forall name f vs v, reg_get reg name = Some f -> Forall V vs -> cf_exec f vs = Ok v -> V v.
  Lemma fault_in : forall reg a e, inside a e -> fault reg a -> fault reg e.
  Proof. intros reg a e H (s & P & Fs). exists s. split; [eapply part_inside; eassumption|assumption]. Qed.
  Lemma lits_in : forall a e, inside a e -> lits e -> lits a.
  Proof. intros a e H L n P. apply L. eapply part_inside; eassumption. Qed.
  Lemma fault_self : forall reg e, faulty reg e -> fault reg e.
  Proof. intros reg e H. exists e. split; [constructor|assumption]. Qed.
  Lemma execute_sat : forall reg name vs, keeps reg -> Forall V vs ->
    sat V (exists f w, reg_get reg name = Some f /\ cf_exec f vs = Panic w) (reg_execute reg name vs).
  Proof.
    intros reg name vs K H. unfold reg_execute. destruct (reg_get reg name) as [f|] eqn:G; [|exact I]. cbv zeta. destruct (_ <? _)%N; [exact I|]. match goal with |- sat _ _ (if ?b then _ else _) => destruct b end; [exact I|].
    destruct (cf_exec f vs) as [v|e|w] eqn:E; cbn [sat]; [eapply K; eassumption|exact I|]. now exists f, w.
  Qed.

  Section Evaluators.
    Variable reg : registry.
    Hypothesis kept : keeps reg.

    Section Calls.
      Context {T : Type}.
      Variable good : T -> Prop.
      Variable f : expr -> T -> res value.
      Hypothesis gives : forall e c v, f e c = Ok v -> may_give e v.
      Definition mk (a : expr) : arg T := mkArg (f a) (match a with ESpread i => Some (f i) | _ => None end).
      Definition fine (e : expr) : Prop :=
        lits e -> (forall c, good c -> sat V (fault reg e) (f e c)) /\
        match e with ESpread i => forall c, good c -> sat V (fault reg e) (f i c) | _ => True end.
      Lemma mk_ok : forall (F : Prop) args, Forall fine args -> (forall a, In a args -> lits a /\ (fault reg a -> F)) -> Forall (arg_ok good F) (map mk args).
      Proof.
        intros F args H K. apply Forall_forall. intros x Hx. apply in_map_iff in Hx as (a & <- & Ha). rewrite Forall_forall in H. destruct (K a Ha) as [L W]. destruct (H a Ha L) as [H1 H2]. split.
        - intros c G. eapply sat_weak; [now apply H1|auto|exact W].
        - destruct a; cbn [mk a_spread]; auto. intros c G. eapply sat_weak; [now apply H2|auto|exact W].
      Qed.
      Lemma collect_sat : forall (F : Prop) c args, good c -> Forall fine args -> (forall a, In a args -> lits a /\ (fault reg a -> F)) ->
        sat (fun vs => Forall V vs /\ may_be_given args vs) F (collect_args c (map mk args)).
      Proof.
        intros F c args G H K. induction H as [|a args Ha H IH]; cbn [map collect_args]; [split; constructor|]. destruct (K a (or_introl eq_refl)) as [L W]. destruct (Ha L) as [H1 H2].
        assert (IH' := IH (fun a Q => K a (or_intror Q))).
        destruct a; cbn [mk a_spread a_eval];
          try (destruct (f _ c) as [v|e|w] eqn:E; [|exact I|apply W; specialize (H1 c G); rewrite E in H1; exact H1]; specialize (H1 c G); rewrite E in H1; cbn [bind];
               eapply sat_bind; [exact IH'|]; intros vs _ [Hvs Gs]; cbn [sat]; split; [now constructor|]; constructor; [eapply gives; eassumption|assumption]).
        destruct (f a c) as [v|e|w] eqn:E; [|exact I|apply W; specialize (H2 c G); rewrite E in H2; exact H2]. specialize (H2 c G). rewrite E in H2. cbn [bind].
        destruct v as [|xs| | | | | | ]; try exact I. apply made_array in H2. eapply sat_bind; [exact IH'|]. intros vs _ [Hvs Gs]. cbn [sat]. split; [now apply Forall_app|]. constructor; [eapply gives; eassumption|assumption].
      Qed.
      Lemma builtin_call_sat : forall exec c name args, good c -> Forall fine args -> lits (EFunctionCall name args) ->
        (forall vs, Forall V vs -> sat V (crashing_call name vs) (exec vs)) ->
        sat V (fault reg (EFunctionCall name args)) (vs <- collect_args c (map mk args) ;; exec vs).
      Proof.
        intros exec c name args G H L K. eapply sat_bind; [apply collect_sat; try assumption|].
        - intros a Ha. split; [eapply lits_in; [|exact L]; now constructor|]. apply fault_in. now constructor.
        - intros vs _ [Hv Gv]. eapply sat_weak; [now apply K|auto|]. intros Cr. apply fault_self. eapply faulty_call; eassumption.
      Qed.
      Lemma custom_call_sat : forall c name args, good c -> Forall fine args -> lits (EFunctionCall name args) ->
        sat V (fault reg (EFunctionCall name args)) (vs <- collect_args c (map mk args) ;; reg_execute reg name vs).
      Proof.
        intros c name args G H L. eapply sat_bind; [apply collect_sat; try assumption|].
        - intros a Ha. split; [eapply lits_in; [|exact L]; now constructor|]. apply fault_in. now constructor.
        - intros vs _ [Hv Gv]. eapply sat_weak; [now apply execute_sat|auto|]. intros (g & w & Rg & E). apply fault_self. eapply faulty_function; eassumption.
      Qed.
      Lemma args_ok : forall name args, Forall fine args -> lits (EFunctionCall name args) ->
        Forall (arg_ok good (fault reg (EFunctionCall name args))) (map mk args).
      Proof. intros name args H L. apply mk_ok; [assumption|]. intros a Ha. split; [eapply lits_in; [|exact L]; now constructor|]. apply fault_in. now constructor. Qed.
      (** what the inductions use *)
      Lemma fine_in : forall a e, fine a -> inside a e -> lits e -> forall c, good c -> sat V (fault reg e) (f a c).
      Proof. intros a e H Hin L c G. destruct (H (lits_in _ _ Hin L)) as [H1 _]. eapply sat_weak; [now apply H1|auto|]. now apply fault_in. Qed.
      Lemma all_sat : forall args e c, Forall fine args -> (forall a, In a args -> inside a e) -> lits e -> good c -> sat (Forall V) (fault reg e) (mapM (fun a => f a c) args).
      Proof. intros args e c H K L G. apply (sat_mapM _ _ (fun _ => True)). intros a Ha. rewrite Forall_forall in H. eapply fine_in; eauto. Qed.
      Lemma sequence_sat : forall args e c, Forall fine args -> (forall a, In a args -> inside a e) -> lits e -> good c -> sat V (fault reg e) (foldM (fun _ a => f a c) args VNull).
      Proof. intros args e c H K L G. apply sat_foldM; [exact I|]. intros v a Ha _. rewrite Forall_forall in H. eapply fine_in; eauto. Qed.
      Lemma fields_sat : forall kvs c, Forall (fun kv => fine (snd kv)) kvs -> lits (EObjectLiteral kvs) -> good c ->
        sat V (fault reg (EObjectLiteral kvs)) (build_object (map (fun kv => (fst kv, f (snd kv) c)) kvs)).
      Proof.
        intros kvs c H L G. apply object_sat. apply Forall_forall. intros x Hx. apply in_map_iff in Hx as ((k, a) & <- & Hk). cbn [fst snd]. rewrite Forall_forall in H. eapply fine_in; [exact (H _ Hk)|econstructor; eassumption|assumption|assumption].
      Qed.
    End Calls.

    Ltac into := constructor; first [assumption | now left].
    Lemma margs_sat : forall (lam : expr -> env -> res value) (F : Prop) bv args, base_ok bv -> Forall (fine base_ok ev) args -> Forall (fine env_made lam) args ->
      (forall a, In a args -> lits a /\ (fault reg a -> F)) -> Forall (marg_ok F bv) (map (fun a => mkMarg a (ev a) (lam a)) args).
    Proof.
      intros lam F bv args B H1 H2 K. apply Forall_forall. intros x Hx. apply in_map_iff in Hx as (a & <- & Ha). rewrite Forall_forall in H1, H2. destruct (K a Ha) as [L W]. split; cbn [m_eval m_lambda].
      - eapply sat_weak; [now apply (H1 a Ha L)|auto|exact W].
      - intros vars E. eapply sat_weak; [now apply (H2 a Ha L)|auto|exact W].
    Qed.
    Lemma plain_fine : forall e, fine base_ok ev e -> fine env_made (fun a vars => ev a (Some vars)) e.
    Proof. intros e H L. destruct (H L) as [H1 H2]. split; [intros c G; now apply H1|]. destruct e; try exact I. intros c G. now apply (H2 (Some c)). Qed.
    Lemma gives_ev : forall e c v, ev e c = Ok v -> may_give e v.
    Proof. intros e c v H. eapply gives_argument; eassumption. Qed.
    Lemma gives_custom : forall e c v, ev_custom reg e c = Ok v -> may_give e v.
    Proof. intros e c v H. eapply gives_lambda; eassumption. Qed.
    Lemma gives_eval : forall e c v, eval e c = Ok v -> may_give e v.
    Proof. intros e c v H. eapply gives_whole; eassumption. Qed.

    Lemma ev_fine : forall e, fine base_ok ev e.
    Proof.
      induction e as [n|s| |op e IH|l op r IHl IHr|x|t p IH|t p IH|t n args IH A|n args A|e IH|es A|kvs A|t n args p IH A|t i IH IHi|t s u IH IHs IHu|e ty IH|x e IH|es A] using expr_ind';
        intros L; (split; [intros c G|try exact I]); cbn [ev]; try exact I.
      - apply L. constructor.
      - eapply sat_bind; [eapply fine_in; try eassumption; constructor|]. intros v _ Hv. now apply unary_sat.
      - eapply sat_bind; [eapply fine_in; try eassumption; constructor|]. intros v _ Hv. eapply sat_bind; [eapply fine_in; try eassumption; constructor|]. intros w _ Hw. apply binary_sat; try assumption. intros F. destruct c; [apply compare_sat|apply compare_numeric_sat].
      - destruct c as [vars|]; [|exact I]. apply sat_ok_or. intros v E. eapply G; eassumption.
      - destruct c as [vars|]; [|exact I]. eapply sat_bind; [eapply fine_in; try eassumption; constructor|]. intros v _ Hv. apply property_sat.
      - destruct c as [vars|]; [|exact I]. eapply sat_bind; [eapply fine_in; try eassumption; constructor|]. intros v _ Hv. apply property_sat.
      - destruct c as [vars|]; [|exact I]. eapply sat_bind; [eapply fine_in; try eassumption; constructor|]. intros v Ev Hv.
        assert (Q : sat V (fault reg (ESafeMethodCall t n args)) (exec_method n false v (map (fun a => mkMarg a (ev a) (fun vars => ev a (Some vars))) args) (Some vars))).
        { apply method_sat; [exact Hv|exact G| |].
          - apply (margs_sat (fun a vars => ev a (Some vars))); [exact G|exact A|eapply Forall_impl; [|exact A]; exact plain_fine|]. intros a Ha. split; [eapply lits_in; [|exact L]; now constructor|]. apply fault_in. now constructor.
          - intros ns desc w -> Sn U E. apply fault_self. eapply faulty_safe_sort; try eassumption. eapply gives_ev; eassumption. }
        destruct v; first [exact I|exact Q].
      - change (sat V (fault reg (EFunctionCall n args)) (core_call c n (map (mk ev) args))). unfold core_call. destruct (is n "__TERNARY__"); [eapply ternary_sat; [exact G|now apply args_ok]|].
        destruct (one_of _ _). { destruct c as [vars|]; [|exact I]. apply core_higher_sat; [exact G|now apply args_ok]. }
        eapply builtin_call_sat; [exact gives_ev|exact G|exact A|exact L|]. intros vs. apply builtin_sat.
      - destruct (IH (lits_in _ _ (in_spread e) L)) as [H1 _]. intros c G. eapply sat_weak; [now apply H1|auto|]. apply fault_in. constructor.
      - eapply sat_bind; [eapply all_sat; try eassumption; intros; now constructor|]. intros vs _ Hvs. now apply made_array.
      - eapply fields_sat; eassumption.
      - eapply sat_bind; [eapply fine_in; try eassumption; constructor|]. intros v Ev Hv. apply method_sat; [exact Hv|exact G| |].
        + apply (margs_sat (fun a vars => ev a (Some vars))); [exact G|exact A|eapply Forall_impl; [|exact A]; exact plain_fine|]. intros a Ha. split; [eapply lits_in; [|exact L]; now constructor|]. apply fault_in. now constructor.
        + intros ns desc w -> Sn U E. apply fault_self. eapply faulty_sort; try eassumption. eapply gives_ev; eassumption.
      - eapply sat_bind; [eapply fine_in; try eassumption; constructor|]. intros v Ev Hv. eapply sat_bind; [eapply fine_in; try eassumption; constructor|]. intros w Ew Hw. apply index_sat; [exact Hv|]. intros n -> Tn. apply fault_self. eapply faulty_position; [eapply gives_ev; exact Ew|exact Tn].
      - eapply sat_bind; [eapply fine_in; try eassumption; constructor|]. intros v Ev Hv. apply slice_sat; [exact Hv| |].
        + intros r E. destruct s as [x|]; [|discriminate]. injection E as <-. eapply fine_in; [now apply IHs|constructor|exact L|exact G].
        + intros r E. destruct u as [x|]; [|discriminate]. injection E as <-. eapply fine_in; [now apply IHu|constructor|exact L|exact G].
      - eapply sat_bind; [eapply fine_in; try eassumption; constructor|]. intros v _ Hv. now apply cast_sat.
      - destruct c as [vars|]; [|exact I]. eapply fine_in; try eassumption; constructor.
      - destruct c as [vars|]; [|exact I]. eapply sequence_sat; try eassumption. intros; now constructor.
    Qed.

    Lemma custom_fine : forall e, fine env_made (ev_custom reg) e.
    Proof.
      induction e as [n|s| |op e IH|l op r IHl IHr|x|t p IH|t p IH|t n args IH A|n args A|e IH|es A|kvs A|t n args p IH A|t i IH IHi|t s u IH IHs IHu|e ty IH|x e IH|es A] using expr_ind';
        intros L; (split; [intros c G|try exact I]); cbn [ev_custom]; try exact I.
      - apply L. constructor.
      - eapply sat_bind; [eapply fine_in; try eassumption; constructor|]. intros v _ Hv. now apply unary_sat.
      - eapply sat_bind; [eapply fine_in; try eassumption; constructor|]. intros v _ Hv. eapply sat_bind; [eapply fine_in; try eassumption; constructor|]. intros w _ Hw. apply binary_sat; try assumption. intros F. apply compare_sat.
      - apply sat_ok_or. intros v E. eapply G; eassumption.
      - eapply sat_bind; [eapply fine_in; try eassumption; constructor|]. intros v _ Hv. apply property_sat.
      - eapply sat_bind; [eapply fine_in; try eassumption; constructor|]. intros v _ Hv. apply property_sat.
      - eapply sat_bind; [eapply fine_in; try eassumption; constructor|]. intros v Ev Hv.
        assert (Q : sat V (fault reg (ESafeMethodCall t n args)) (exec_method n false v (map (fun a => mkMarg a (ev a) (ev_custom reg a)) args) (Some c))).
        { apply method_sat; [exact Hv|exact G| |].
          - apply (margs_sat (ev_custom reg)); [exact G|apply Forall_forall; intros; apply ev_fine|exact A|]. intros a Ha. split; [eapply lits_in; [|exact L]; now constructor|]. apply fault_in. now constructor.
          - intros ns desc w -> Sn U E. apply fault_self. eapply faulty_safe_sort; try eassumption. eapply gives_custom; eassumption. }
        destruct v; first [exact I|exact Q].
      - change (sat V (fault reg (EFunctionCall n args)) (custom_call reg c n (map (mk (ev_custom reg)) args))). unfold custom_call. destruct (is n "__TERNARY__"); [eapply ternary_sat; [exact G|now apply args_ok]|].
        destruct (reg_has reg n); [eapply custom_call_sat; [exact gives_custom|exact G|exact A|exact L]|].
        destruct (one_of _ _). { apply custom_higher_sat; [exact G|now apply args_ok]. }
        eapply builtin_call_sat; [exact gives_custom|exact G|exact A|exact L|]. intros vs. apply builtin_sat.
      - destruct (IH (lits_in _ _ (in_spread e) L)) as [H1 _]. intros c G. eapply sat_weak; [now apply H1|auto|]. apply fault_in. constructor.
      - eapply sat_bind; [eapply all_sat; try eassumption; intros; now constructor|]. intros vs _ Hvs. now apply made_array.
      - eapply fields_sat; eassumption.
      - eapply sat_bind; [eapply fine_in; try eassumption; constructor|]. intros v Ev Hv. apply method_sat; [exact Hv|exact G| |].
        + apply (margs_sat (ev_custom reg)); [exact G|apply Forall_forall; intros; apply ev_fine|exact A|]. intros a Ha. split; [eapply lits_in; [|exact L]; now constructor|]. apply fault_in. now constructor.
        + intros ns desc w -> Sn U E. apply fault_self. eapply faulty_sort; try eassumption. eapply gives_custom; eassumption.
      - eapply sat_bind; [eapply fine_in; try eassumption; constructor|]. intros v Ev Hv. eapply sat_bind; [eapply fine_in; try eassumption; constructor|]. intros w Ew Hw. now apply index_custom_sat.
      - eapply sat_bind; [eapply fine_in; try eassumption; constructor|]. intros v Ev Hv. apply slice_custom_sat; [exact Hv| |].
        + intros r E. destruct s as [x|]; [|discriminate]. injection E as <-. eapply fine_in; [now apply IHs|constructor|exact L|exact G].
        + intros r E. destruct u as [x|]; [|discriminate]. injection E as <-. eapply fine_in; [now apply IHu|constructor|exact L|exact G].
      - eapply sat_bind; [eapply fine_in; try eassumption; constructor|]. intros v _ Hv. now apply cast_sat.
      - eapply fine_in; try eassumption; constructor.
      - eapply sequence_sat; try eassumption. intros; now constructor.
    Qed.

    Definition ctx_ok (c : ctx) : Prop := env_made (c_vars c) /\ (c_reg c = None \/ c_reg c = Some reg).
    Lemma vars_ok : forall vars, env_made vars -> ctx_ok (vars_ctx vars).
    Proof. intros vars H. split; [exact H|now left]. Qed.
    Lemma sum_pairs_made : forall crit rs ss acc, N acc -> Forall V ss -> N (sum_pairs acc crit rs ss).
    Proof.
      intros crit rs. induction rs as [|x rs IH]; intros ss acc Ha H; [exact Ha|]. destruct H as [|y ss Hy H]; [exact Ha|]. cbn [sum_pairs]. apply IH; [|assumption]. destruct (meets_criteria x crit); [|assumption]. destruct (addend y) eqn:D; [|assumption]. apply (c_add N C); [assumption|]. exact (addend_made _ _ Hy D).
    Qed.
    Lemma sum_if_made : forall r s crit, V s -> N (sum_if r s crit).
    Proof.
      intros r s crit H. assert (K : N (if meets_criteria r crit then match addend s with Some n => n | None => f_zero end else f_zero)).
      { destruct (meets_criteria r crit); [|auto with closed]. destruct (addend s) eqn:D; [exact (addend_made _ _ H D)|auto with closed]. }
      unfold sum_if. destruct r; try exact K. destruct s; try exact K. apply made_array in H. apply sum_pairs_made; [auto with closed|assumption].
    Qed.
    Section Top.
      Variable F : Prop.
      Variable c : ctx.
      Variable args : list (arg ctx).
      Hypothesis G : ctx_ok c.
      Hypothesis O : Forall (arg_ok ctx_ok F) args.
      Let E : env_made (c_vars c) := proj1 G.
      Lemma lambda_sat : forall a, arg_ok ctx_ok F a -> forall vs, env_made vs -> sat V F (lambda_ctx a vs).
      Proof. intros a [Ha _] vs Ev. apply Ha. now apply vars_ok. Qed.
      Lemma param_sat : forall i d, sat (fun _ => True) F (get_param c (nth_error args i) d).
      Proof. intros i d. eapply get_param_sat; [exact G|]. now apply nth_ok. Qed.
      Lemma top_filter_sat : sat V F (top_filter c args).
      Proof.
        unfold top_filter. assert (Q := param_sat 2%nat "x"). assert (P := lambda_sat). inversion O as [|a0 r H0 A0 Eq]; [exact I|]. inversion A0 as [|a1 r1 H1 A1 Eq1]; [exact I|]. subst r. rewrite Eq.
        eapply sat_bind; [now apply H0|]. intros v _ Hv. eapply sat_bind; [apply Q|]. intros p _ _. eapply sat_bind; [now apply as_array_sat|]. intros xs _ Hx. eapply sat_bind; [apply filter_sat; auto|]. intros out _ Ho. now apply made_array.
      Qed.
      Lemma top_find_sat : sat V F (top_find c args).
      Proof.
        unfold top_find. assert (Q := param_sat 2%nat "x"). assert (P := lambda_sat). inversion O as [|a0 r H0 A0 Eq]; [exact I|]. inversion A0 as [|a1 r1 H1 A1 Eq1]; [exact I|]. subst r. rewrite Eq.
        eapply sat_bind; [now apply H0|]. intros v _ Hv. eapply sat_bind; [apply Q|]. intros p _ _. eapply sat_bind; [now apply as_array_sat|]. intros xs _ Hx. apply find_sat; auto.
      Qed.
      Lemma top_map_sat : sat V F (top_map c args).
      Proof.
        unfold top_map. assert (Q := param_sat 2%nat "x"). assert (P := lambda_sat). inversion O as [|a0 r H0 A0 Eq]; [exact I|]. inversion A0 as [|a1 r1 H1 A1 Eq1]; [exact I|]. subst r. rewrite Eq.
        eapply sat_bind; [now apply H0|]. intros v _ Hv. eapply sat_bind; [apply Q|]. intros p _ _. eapply sat_bind; [now apply as_array_sat|]. intros xs _ Hx. eapply sat_bind; [apply map_sat; auto|]. intros out _ Ho. now apply made_array.
      Qed.
      Lemma top_reduce_sat : sat V F (top_reduce c args).
      Proof.
        unfold top_reduce. assert (Q := param_sat 3%nat "x"). assert (Q4 := param_sat 4%nat "acc"). assert (P := lambda_sat). inversion O as [|a0 r H0 A0 Eq]; [exact I|]. inversion A0 as [|a1 r1 H1 A1 Eq1]; [exact I|]. inversion A1 as [|a2 r2 H2 A2 Eq2]; subst r; subst r1; [exact I|]. rewrite Eq.
        eapply sat_bind; [now apply H0|]. intros v _ Hv. eapply sat_bind; [now apply H2|]. intros i _ Hi. eapply sat_bind; [apply Q|]. intros p _ _. eapply sat_bind; [apply Q4|]. intros q _ _.
        eapply sat_bind; [now apply as_array_sat|]. intros xs _ Hx. apply reduce_sat; auto.
      Qed.
      Lemma sumif_tail_sat : forall v a o, V v -> arg_ok ctx_ok F a -> match o with Some s => V s | None => True end -> sat V F (sumif_tail c v a o).
      Proof.
        intros v a o Hv Ha Ho. unfold sumif_tail. cbv zeta.
        assert (B : sat V F (match o with None => sumif_with (lambda_ctx a) (c_vars c) v | Some _ => Err (err "Lambda-style SUMIF expects exactly (array, expr)") end)).
        { destruct o; [exact I|]. apply sumif_with_sat; [now apply lambda_sat|exact E|exact Hv]. }
        assert (S : forall crit, N (sum_if v (match o with Some s => s | None => v end) crit)). { intros crit. apply sum_if_made. destruct o; assumption. }
        destruct Ha as [Ha _]. specialize (Ha c G). destruct (a_eval a c) as [w|e|w]; [destruct w; first [exact B|exact (S _)]|exact B|exact Ha].
      Qed.
      Lemma top_sumif_sat : sat V F (top_sumif c args).
      Proof.
        unfold top_sumif. destruct O as [|a0 r H0 A0]; [exact I|]. destruct A0 as [|a1 r H1 A1]; [exact I|]. destruct A1 as [|a2 r H2 A2].
        - eapply sat_bind; [now apply H0|]. intros v _ Hv. now apply sumif_tail_sat.
        - destruct r; [|exact I]. eapply sat_bind; [now apply H0|]. intros v _ Hv. eapply sat_bind; [now apply H2|]. intros s _ Hs. now apply sumif_tail_sat.
      Qed.
      Lemma top_jq_sat : sat V F (top_jq c args).
      Proof.
        unfold top_jq. destruct O as [|a0 r H0 A0]; [exact I|]. destruct A0 as [|a1 r H1 A1]; [exact I|]. destruct r; [|exact I].
        eapply sat_bind; [now apply H0|]. intros v _ Hv. eapply sat_bind; [now apply H1|]. intros p _ _. destruct p; try exact I. destruct (is_jsonpath _); [|exact I]. now apply jsonpath_sat.
      Qed.
      Lemma top_avgif_sat : sat V F (top_avgif c args).
      Proof. unfold top_avgif. eapply two_args_sat; [exact G|exact O|]. intros v a Hv Ha. apply avgif_with_sat; [now apply lambda_sat|exact E|exact Hv]. Qed.
      Lemma top_countif_sat : sat V F (top_countif c args).
      Proof. unfold top_countif. eapply two_args_sat; [exact G|exact O|]. intros v a Hv Ha. apply countif_with_sat; [now apply lambda_sat|exact E|exact Hv]. Qed.
    End Top.
    Lemma top_call_sat : forall c n args, ctx_ok c -> Forall (fine ctx_ok eval) args -> lits (EFunctionCall n args) ->
      sat V (fault reg (EFunctionCall n args)) (top_call c n (map (mk eval) args)).
    Proof.
      intros c n args G A L. assert (O := args_ok ctx_ok eval n args A L). 
      unfold top_call. destruct (is n "__TERNARY__"); [eapply ternary_sat; eassumption|]. destruct (is n "__CONST_TRUE__"); [exact I|]. destruct (is n "__CONST_FALSE__"); [exact I|].
      destruct (custom_hit c n) as [r|] eqn:R.
      - unfold custom_hit in R. destruct (c_reg c) as [r'|] eqn:R'; [|discriminate]. destruct (reg_has r' n); [|discriminate]. injection R as ->. assert (r = reg) by (destruct G as [_ [G|G]]; congruence). subst r. eapply custom_call_sat; [exact gives_eval|exact G|exact A|exact L].
      - repeat match goal with |- sat _ _ (if ?b then _ else _) => destruct b end; eauto using top_filter_sat, top_find_sat, top_map_sat, top_reduce_sat, top_sumif_sat, top_avgif_sat, top_countif_sat, top_jq_sat.
        eapply builtin_call_sat; [exact gives_eval|exact G|exact A|exact L|]. intros vs. apply builtin_fast_sat.
    Qed.
    Lemma margs_of_sat : forall (F : Prop) c args, ctx_ok c -> (forall a, In a args -> lits a /\ (fault reg a -> F)) -> Forall (marg_ok F (Some (c_vars c))) (margs_of c args).
    Proof.
      intros F c args [E R] K. unfold margs_of. assert (Hev : Forall (fine base_ok ev) args) by (apply Forall_forall; intros; apply ev_fine).
      destruct R as [-> | ->].
      - apply (margs_sat (fun a vars => ev a (Some vars))); [exact E|exact Hev|eapply Forall_impl; [|exact Hev]; exact plain_fine|exact K].
      - apply (margs_sat (ev_custom reg)); [exact E|exact Hev|apply Forall_forall; intros; apply custom_fine|exact K].
    Qed.

    Lemma eval_fine : forall e, fine ctx_ok eval e.
    Proof.
      induction e as [n|s| |op e IH|l op r IHl IHr|x|t p IH|t p IH|t n args IH A|n args A|e IH|es A|kvs A|t n args p IH A|t i IH IHi|t s u IH IHs IHu|e ty IH|x e IH|es A] using expr_ind';
        intros L; (split; [intros c G|try exact I]); cbn [eval]; try exact I.
      - apply L. constructor.
      - eapply sat_bind; [eapply fine_in; try eassumption; constructor|]. intros v _ Hv. now apply unary_sat.
      - eapply sat_bind; [eapply fine_in; try eassumption; constructor|]. intros v _ Hv. eapply sat_bind; [eapply fine_in; try eassumption; constructor|]. intros w _ Hw. apply binary_sat; try assumption. intros F. apply compare_sat.
      - apply sat_ok_or. intros v E. destruct G as [G _]. eapply G; eassumption.
      - eapply sat_bind; [eapply fine_in; try eassumption; constructor|]. intros v _ Hv. apply property_sat.
      - eapply sat_bind; [eapply fine_in; try eassumption; constructor|]. intros v _ Hv. apply property_sat.
      - eapply sat_bind; [eapply fine_in; try eassumption; constructor|]. intros v Ev Hv.
        assert (Q : sat V (fault reg (ESafeMethodCall t n args)) (exec_method n false v (margs_of c args) (Some (c_vars c)))).
        { apply method_sat; [exact Hv|exact (proj1 G)| |].
          - apply margs_of_sat; [exact G|]. intros a Ha. split; [eapply lits_in; [|exact L]; now constructor|]. apply fault_in. now constructor.
          - intros ns desc w -> Sn U E. apply fault_self. eapply faulty_safe_sort; try eassumption. eapply gives_eval; eassumption. }
        destruct v; first [exact I|exact Q].
      - now apply top_call_sat.
      - destruct (IH (lits_in _ _ (in_spread e) L)) as [H1 _]. intros c G. eapply sat_weak; [now apply H1|auto|]. apply fault_in. constructor.
      - eapply sat_bind; [eapply all_sat; try eassumption; intros; now constructor|]. intros vs _ Hvs. now apply made_array.
      - eapply fields_sat; eassumption.
      - eapply sat_bind; [eapply fine_in; try eassumption; constructor|]. intros v Ev Hv. apply method_sat; [exact Hv|exact (proj1 G)| |].
        + apply margs_of_sat; [exact G|]. intros a Ha. split; [eapply lits_in; [|exact L]; now constructor|]. apply fault_in. now constructor.
        + intros ns desc w -> Sn U E. apply fault_self. eapply faulty_sort; try eassumption. eapply gives_eval; eassumption.
      - eapply sat_bind; [eapply fine_in; try eassumption; constructor|]. intros v Ev Hv. eapply sat_bind; [eapply fine_in; try eassumption; constructor|]. intros w Ew Hw. apply index_sat; [exact Hv|]. intros n -> Tn. apply fault_self. eapply faulty_position; [eapply gives_eval; exact Ew|exact Tn].
      - eapply sat_bind; [eapply fine_in; try eassumption; constructor|]. intros v Ev Hv. apply slice_sat; [exact Hv| |].
        + intros r E. destruct s as [x|]; [|discriminate]. injection E as <-. eapply fine_in; [now apply IHs|constructor|exact L|exact G].
        + intros r E. destruct u as [x|]; [|discriminate]. injection E as <-. eapply fine_in; [now apply IHu|constructor|exact L|exact G].
      - eapply sat_bind; [eapply fine_in; try eassumption; constructor|]. intros v _ Hv. now apply cast_sat.
      - eapply fine_in; try eassumption; constructor.
      - eapply sequence_sat; try eassumption. intros; now constructor.
    Qed.
    Lemma assign_sat : forall e vars, lits e -> env_made vars -> sat (fun p => V (fst p) /\ env_made (snd p)) (fault reg e) (eval_assign e vars).
    Proof.
      assert (P : forall e vars, lits e -> env_made vars -> sat (fun p => V (fst p) /\ env_made (snd p)) (fault reg e) (v <- eval e (vars_ctx vars) ;; Ok (v, vars))).
      { intros e vars L E. eapply sat_bind; [apply (eval_fine e L); now apply vars_ok|]. intros v _ Hv. now split. }
      induction e as [n|s| |op e IH|l op r IHl IHr|x|t p IH|t p IH|t n args IH A|n args A|e IH|es A|kvs A|t n args p IH A|t i IH IHi|t s u IH IHs IHu|e ty IH|x e IH|es A] using expr_ind';
        intros vars L E; try (apply P; assumption); cbn [eval_assign].
      - eapply sat_bind; [eapply fine_in; [exact (eval_fine e)|constructor|exact L|now apply vars_ok]|]. intros v _ Hv. split; [exact Hv|]. now apply insert_env.
      - apply sat_foldM; [split; [exact I|exact E]|]. intros [v vs] a Ha [Hv Hvs]. rewrite Forall_forall in A. eapply sat_weak; [apply (A a Ha); [eapply lits_in; [|exact L]; now constructor|exact Hvs]|auto|]. apply fault_in. now constructor.
    Qed.
  End Evaluators.
End Closed.
