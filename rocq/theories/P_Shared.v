(** Property theorems about objects shared between threads, and extension points. *)
From Coq Require Import String List ZArith NArith QArith Bool Permutation.
From Coq Require Import Floats.SpecFloat.
From Verif Require Import Base F64 Syntax Ext Methods Registry FnCache Cow Pool Traits Api Spec Spec_numbers Spec_json Spec_registry Spec_shared Spec_traits
  Registry_proofs Pool_proofs Shared_proofs Traits_proofs.
Import ListNotations.
Local Open Scope N_scope.

(** * C38 The function cache of a thread
    [answer h name]: what a lookup of [name] through the cache returns after
    the history [h], in which the registry is changed, functions are looked up
    and the cache is cleared.  [remembers h name f]: since the cache was last
    cleared, [f] is what was registered under [name] the first time a lookup
    of it succeeded. *)

(** the exact answer *)
Theorem C38_answer : forall (X : Ext) h name f, answer h name = Some f <-> remembers h name f \/ ((forall g, ~ remembers h name g) /\ registered (changes h) name f).
Proof. exact @cache_answer. Qed.
Print Assumptions C38_answer.

(** if no operation has concerned [name] since the cache was new or last cleared, the cache answers like the registry *)
Theorem C38_fresh : forall (X : Ext) h1 h2 name f, (h1 = [] \/ exists h0, h1 = h0 ++ [Clear]) -> Forall (fun e => match e with Change o => ~ concerns name o | _ => True end) h2 ->
  answer (h1 ++ h2) name = Some f <-> registered (changes (h1 ++ h2)) name f.
Proof. exact @cache_fresh. Qed.
Print Assumptions C38_fresh.

(** executing through the cache runs the function that a lookup answers *)
Theorem C38_executes : forall (X : Ext) h name f args, answer h name = Some f -> accepts f (length args) -> 
  fst (cache_execute (fst (cache_after h)) (snd (cache_after h)) name args) = cf_exec f args.
Proof. exact @cached_executes. Qed.
Print Assumptions C38_executes.

Theorem C38_refuses : forall (X : Ext) h name f args, answer h name = Some f -> ~ accepts f (length args) -> 
  exists e, fst (cache_execute (fst (cache_after h)) (snd (cache_after h)) name args) = Err e.
Proof. exact @cached_refuses. Qed.
Print Assumptions C38_refuses.

Theorem C38_unknown : forall (X : Ext) h name args, answer h name = None -> 
  exists e, fst (cache_execute (fst (cache_after h)) (snd (cache_after h)) name args) = Err e.
Proof. exact @cached_unknown. Qed.
Print Assumptions C38_unknown.

(** executing changes the cache as looking up does *)
Theorem C38_execute_looks : forall (X : Ext) r c name args, snd (cache_execute r c name args) = snd (cache_get r c name).
Proof. exact @execute_looks. Qed.
Print Assumptions C38_execute_looks.

(** the statistics *)
Theorem C38_stats_new : forall X : Ext, hits [] = 0 /\ misses [] = 0.
Proof. exact @hits_new. Qed.
Print Assumptions C38_stats_new.

Theorem C38_stats_clear : forall (X : Ext) h, hits (h ++ [Clear]) = 0 /\ misses (h ++ [Clear]) = 0.
Proof. exact @hits_clear. Qed.
Print Assumptions C38_stats_clear.

Theorem C38_stats_change : forall (X : Ext) h o, hits (h ++ [Change o]) = hits h /\ misses (h ++ [Change o]) = misses h.
Proof. exact @hits_change. Qed.
Print Assumptions C38_stats_change.

Theorem C38_stats_hit : forall (X : Ext) h n f, remembers h n f -> hits (h ++ [Look n]) = hits h + 1 /\ misses (h ++ [Look n]) = misses h.
Proof. exact @look_hit. Qed.
Print Assumptions C38_stats_hit.

Theorem C38_stats_miss : forall (X : Ext) h n f, (forall g, ~ remembers h n g) -> registered (changes h) n f -> hits (h ++ [Look n]) = hits h /\ misses (h ++ [Look n]) = misses h + 1.
Proof. exact @look_miss. Qed.
Print Assumptions C38_stats_miss.

Theorem C38_stats_unknown : forall (X : Ext) h n, (forall g, ~ remembers h n g) -> (forall f, ~ registered (changes h) n f) -> hits (h ++ [Look n]) = hits h /\ misses (h ++ [Look n]) = misses h.
Proof. exact @look_unknown. Qed.
Print Assumptions C38_stats_unknown.

Theorem C38_hit_rate : forall (X : Ext) h, (Z.of_N (hits h + misses h) <= 2 ^ 53)%Z -> is_percentage (snd (cache_stats (snd (cache_after h)))).
Proof. exact @hit_rate. Qed.
Print Assumptions C38_hit_rate.

(** the cache goes on answering with a function that was unregistered or
    replaced after it was first looked up *)
Theorem C38_same_as_registry_refuted : exists (X : Ext) h name f, (forall g, ~ registered (changes h) name g) /\ answer h name = Some f.
Proof.
  exists example_ext, [Change (Register (mkFn (lit "f") 0 None (fun _ => Ok VNull))); Look (lit "F"); Change (Unregister (lit "f"))], (lit "f"), (mkFn (lit "f") 0 None (fun _ => Ok VNull)). split.
  - intros g R. apply (@after_spec example_ext) in R. vm_compute in R. discriminate.
  - vm_compute. reflexivity.
Qed.
Print Assumptions C38_same_as_registry_refuted.
Example C38_nonvacuous :
  let X := example_ext in
  let one := mkFn (lit "f") 0 None (fun _ => Ok (num 1)) in
  let two := mkFn (lit "F") 0 (Some 0) (fun _ => Ok (num 2)) in
  let h := [Change (Register one); Look (lit "g"); Look (lit "F"); Change (Register two); Look (lit "f")] in
  remembers h (lit "f") one /\ registered (changes h) (lit "f") two /\ answer h (lit "f") = Some one /\ answer (h ++ [Clear]) (lit "f") = Some two
  /\ (forall g, ~ remembers (h ++ [Clear]) (lit "f") g) /\ hits h = 1 /\ misses h = 1
  /\ cache_stats (snd (cache_after h)) = (1, 1, f_of_Z 50)
  /\ fst (cache_execute (fst (cache_after h)) (snd (cache_after h)) (lit "f") [VNull]) = Ok (num 1).
Proof.
  intros X one two h. assert (W : well_formed two) by (split; [discriminate|intros m E; injection E as <-; discriminate]). assert (W1 : well_formed one) by (split; [discriminate|discriminate]).
  split; [|split; [|split; [vm_compute; reflexivity|split; [vm_compute; reflexivity|split; [|vm_compute; repeat split; reflexivity]]]]].
  - exists [Change (Register one); Look (lit "g")], (lit "F"), [Change (Register two); Look (lit "f")]. split; [reflexivity|]. split; [reflexivity|]. split; [repeat constructor; discriminate|].
    split; [exists [], []; repeat split; [discriminate|discriminate|constructor]|]. intros a m b g E S' _ R.
    destruct a as [|e1 a]; [discriminate|]. injection E as <- E. destruct a as [|e2 a]; [injection E as <- _; discriminate|]. injection E as _ E. destruct a; discriminate.
  - exists [Register one], []. split; [reflexivity|]. split; [now split|constructor].
  - intros g (a & n & b & E & _ & F & _). destruct b as [|x b _] using rev_ind; [apply app_inj_tail in E as [_ E]; discriminate|]. rewrite app_comm_cons, app_assoc in E. apply app_inj_tail in E as [_ <-]. apply Forall_app in F as [_ F]. inversion F as [|? ? K]. now apply K.
Qed.

(** * C50 The shared registry is the same map
    each call of the shared registry takes effect at one point, so the calls of
    any number of threads are a history [h] *)

Theorem C50_has : forall (X : Ext) h name, shared_has (shared_after h) name = true <-> exists f, registered h name f.
Proof. exact @shared_has_spec. Qed.
Print Assumptions C50_has.

Theorem C50_list : forall (X : Ext) h, NoDup (shared_list (shared_after h)) /\
  forall n, In n (shared_list (shared_after h)) <-> exists f, registered h (cf_name f) f /\ n = to_uppercase (cf_name f).
Proof. exact @shared_list_spec. Qed.
Print Assumptions C50_list.

Theorem C50_len : forall (X : Ext) h, shared_len (shared_after h) = length (shared_list (shared_after h)) /\ 
  (shared_is_empty (shared_after h) = true <-> forall name f, ~ registered h name f).
Proof. exact @shared_len_spec. Qed.
Print Assumptions C50_len.

Theorem C50_execute : forall (X : Ext) h name f args, registered h name f -> accepts f (length args) -> shared_execute (shared_after h) name args = cf_exec f args.
Proof. exact @shared_executes. Qed.
Print Assumptions C50_execute.

Theorem C50_refuses : forall (X : Ext) h name f args, registered h name f -> ~ accepts f (length args) -> exists e, shared_execute (shared_after h) name args = Err e.
Proof. exact @shared_refuses. Qed.
Print Assumptions C50_refuses.

Theorem C50_unknown : forall (X : Ext) h name args, (forall f, ~ registered h name f) -> exists e, shared_execute (shared_after h) name args = Err e.
Proof. exact @shared_unknown. Qed.
Print Assumptions C50_unknown.

Theorem C50_register : forall (X : Ext) h f, (exists r, shared_register (shared_after h) f = Ok r) <-> well_formed f.
Proof. exact @shared_register_spec. Qed.
Print Assumptions C50_register.

Theorem C50_unregister : forall (X : Ext) h name, fst (shared_unregister (shared_after h) name) = true <-> exists f, registered h name f.
Proof. exact @shared_unregister_spec. Qed.
Print Assumptions C50_unregister.
Example C50_nonvacuous :
  let X := example_ext in
  let sum := mkFn (lit "addUp") 1 (Some 3) (fun vs => Ok (num (Z.of_nat (length vs)))) in
  let other := mkFn (lit "other") 0 None (fun vs => Ok (VArray vs)) in
  let h := [Register other; Register sum; Unregister (lit "OTHER")] in
  registered h (lit "AddUp") sum /\ shared_list (shared_after h) = [lit "ADDUP"] /\ shared_len (shared_after h) = 1%nat
  /\ shared_execute (shared_after h) (lit "addup") [VNull; VNull] = Ok (num 2) /\ (exists e, shared_execute (shared_after h) (lit "addup") [] = Err e)
  /\ shared_has (shared_after h) (lit "other") = false.
Proof. intros X sum other h. split; [|vm_compute; repeat split; eexists; reflexivity]. exists [Register other], [Unregister (lit "OTHER")]. split; [reflexivity|]. split; [split; [split; [discriminate|intros m E; injection E as <-; discriminate]|reflexivity]|]. repeat constructor. discriminate. Qed.

(** * C39 The pool of contexts
    [reached max p]: some interleaving of the steps of any number of threads,
    which acquire contexts, insert variables, drop contexts and read the
    statistics, leads from a new pool of size [max] to [p].  [p_seen p] is what
    the callers have seen, the newest first. *)

Theorem C39_bounded : forall max p, reached max p -> (length (p_items p) <= max)%nat.
Proof. exact @pool_bounded. Qed.
Print Assumptions C39_bounded.

(** an acquired context holds no variables *)
Theorem C39_empty : forall max p t m, reached max p -> In (Acquired t m) (p_seen p) -> m = [].
Proof. exact @pool_empty. Qed.
Print Assumptions C39_empty.

(** at any moment the counters lie between the number of acquires that have returned and the number that were called *)
Theorem C39_counts : forall max p, reached max p -> (acquired (p_seen p) <= p_created p + p_reused p <= calls (p_seen p))%nat.
Proof. exact @pool_counts. Qed.
Print Assumptions C39_counts.

(** and are exact when no call is in progress *)
Theorem C39_counts_quiet : forall max p, reached max p -> quiet p -> (p_created p + p_reused p = acquired (p_seen p) /\ calls (p_seen p) = acquired (p_seen p))%nat.
Proof. exact @pool_counts_quiet. Qed.
Print Assumptions C39_counts_quiet.

(** a report of the statistics: the size is within the bound, and created plus reused lies between the number of acquires that had returned when [stats] was called and the number called when it returned *)
Theorem C39_stats : forall max p l2 t n c r rate l1, reached max p -> p_seen p = l2 ++ Stats t n c r rate :: l1 ->
  exists la lb, l1 = la ++ StatsCalled t :: lb /\ ~ In (StatsCalled t) la /\ (n <= max)%nat /\ (acquired lb <= c + r <= calls l1)%nat
  /\ rate = percentage (N.of_nat r) (N.of_nat c).
Proof. exact @pool_stats. Qed.
Print Assumptions C39_stats.

(** the reported rate is a percentage *)
Theorem C39_percentage : forall a b, (Z.of_N (a + b) <= 2 ^ 53)%Z -> is_percentage (percentage a b).
Proof. exact @percentage_range. Qed.
Print Assumptions C39_percentage.

(** there is no deadlock: while a call is in progress some thread can run *)
Theorem C39_progress : forall max p t, reached max p -> t_pc (p_threads p t) <> Idle -> exists u p', run p u = Some p'.
Proof. exact @pool_progress. Qed.
Print Assumptions C39_progress.

Example C39_nonvacuous :
  let r t := Run t in
  let es := [Acquire 0; Acquire 1; r 1; r 1; r 1; r 1; r 0; r 0; r 0; r 0; Insert 0 0 (lit "x") VNull; Insert 1 0 (lit "y") VNull;
             Drop 0 0; Drop 1 0; r 0; r 0; r 0; r 0; r 1; r 1; r 1; GetStats 1; r 1; Acquire 0; r 1; r 0; r 1; r 0; r 0; r 1; r 0]%nat in
  match steps (pool_new 1) es with
  | Some p => p_items p = [] /\ t_owned (p_threads p 0%nat) = [[]] /\ quiet p /\ acquired (p_seen p) = 3%nat
              /\ In (Stats 1 1 2 1 (percentage 1 2)) (p_seen p) /\ p_seen p <> []
  | None => False
  end
  /\ steps (pool_new 1) [Acquire 0; Acquire 1; r 0; r 1]%nat = None.
Proof.
  intros r es. split; [|vm_compute; reflexivity]. destruct (steps (pool_new 1) es) as [p|] eqn:E; [|vm_compute in E; discriminate]. vm_compute in E. injection E as <-.
  split; [reflexivity|]. split; [reflexivity|]. split; [intros [|[|t]]; reflexivity|]. split; [reflexivity|]. split; [cbn; tauto|discriminate].
Qed.

(** * C40 Copy-on-write variables are a map
    the variables after any sequence of inserts; the overlay is iterated in any order *)

Theorem C40_get : forall base kvs k v, cow_get (inserts (cow_new base) kvs) k = Some v <-> last_value kvs k v \/ (~ In k (map fst kvs) /\ mget k base = Some v).
Proof. exact @cow_lookup. Qed.
Print Assumptions C40_get.

Theorem C40_combined : forall base kvs k c order, c = inserts (cow_new base) kvs -> (forall o, cow_overlay c = Some o -> Permutation o order) -> 
  mget k (cow_combined (mkCow (cow_base c) (match cow_overlay c with Some _ => Some order | None => None end))) = cow_get c k.
Proof. exact @cow_combine. Qed.
Print Assumptions C40_combined.

Theorem C40_base : forall base kvs, cow_base (inserts (cow_new base) kvs) = base /\ (cow_modified (inserts (cow_new base) kvs) = true <-> kvs <> []).
Proof. exact @cow_shared. Qed.
Print Assumptions C40_base.

Example C40_nonvacuous :
  let base := [(lit "a", num 1); (lit "b", num 2)] in
  let kvs := [(lit "b", num 3); (lit "c", num 4); (lit "b", num 5)] in
  let c := inserts (cow_new base) kvs in
  last_value kvs (lit "b") (num 5) /\ cow_get c (lit "b") = Some (num 5) /\ cow_get c (lit "a") = Some (num 1) /\ cow_get c (lit "d") = None
  /\ mget (lit "b") (cow_combined c) = Some (num 5) /\ length (cow_combined c) = 3%nat /\ cow_modified c = true /\ cow_modified (cow_new base) = false.
Proof.
  intros base kvs c. split; [|vm_compute; repeat split; reflexivity]. exists [(lit "b", num 3); (lit "c", num 4)], []. split; [reflexivity|tauto].
Qed.

(** * C51 Extension points
    [extended rs]: the extension registry after the registrations [rs]; names are compared exactly *)

Theorem C51_function : forall rs n f, ext_function (extended rs) n = Some f <-> last_such (function_named n) rs (Function f).
Proof. exact @extension_function. Qed.
Print Assumptions C51_function.

Theorem C51_converter : forall rs n c, ext_converter (extended rs) n = Some c <-> last_such (converter_to n) rs (Converter c).
Proof. exact @extension_converter. Qed.
Print Assumptions C51_converter.

Theorem C51_source : forall rs n s, ext_source (extended rs) n = Some s <-> last_such (source_named n) rs (Source s).
Proof. exact @extension_source. Qed.
Print Assumptions C51_source.

(** of the handlers that can handle a method, the one registered first *)
Theorem C51_handler : forall rs v m h, ext_handler (extended rs) v m = Some h <-> first_such (handles v m) rs (Handler h).
Proof. exact @extension_handler. Qed.
Print Assumptions C51_handler.

(** by default arguments are accepted when their number is the declared one *)
Theorem C51_arity : forall f args, validate_args f args = Ok tt <-> (forall n, xf_arity f = Some n -> N.of_nat (length args) = n).
Proof. exact @validates. Qed.
Print Assumptions C51_arity.

Theorem C51_constant_source : forall name data key, (forall v, so_fetch (constant_source name data) key = Ok v <-> mget key data = Some v)
  /\ (so_exists (constant_source name data) key = true <-> exists v, so_fetch (constant_source name data) key = Ok v).
Proof. exact @source_fetch. Qed.
Print Assumptions C51_constant_source.

Theorem C51_resolver : forall vars name, has_variable vars name = true <-> exists v, resolve vars name = Ok (Some v) /\ In (name, v) (get_all_variables vars).
Proof. exact @resolver_has. Qed.
Print Assumptions C51_resolver.

Example C51_nonvacuous :
  let f := mkExtFn (lit "f") (Some 1) (fun _ => Ok VNull) in
  let f' := mkExtFn (lit "f") (Some 2) (fun _ => Ok VNull) in
  let any := mkHandler (fun _ _ => true) (fun v _ _ => Ok v) in
  let no := mkHandler (fun _ _ => false) (fun v _ _ => Ok v) in
  let s := constant_source (lit "s") [(lit "k", num 1)] in
  let rs := [Function f; Handler no; Source s; Function f'; Handler any; Handler no] in
  last_such (function_named (lit "f")) rs (Function f') /\ ext_function (extended rs) (lit "f") = Some f' /\ ext_function (extended rs) (lit "F") = None
  /\ first_such (handles VNull (lit "m")) rs (Handler any) /\ ext_handler (extended rs) VNull (lit "m") = Some any
  /\ validate_args f' [VNull; VNull] = Ok tt /\ (exists e, validate_args f' [VNull] = Err e)
  /\ so_fetch s (lit "k") = Ok (num 1) /\ (exists e, so_fetch s (lit "K") = Err e)
  /\ has_variable [(lit "k", num 1)] (lit "k") = true.
Proof.
  intros f f' any no s rs. split; [exists [Function f; Handler no; Source s], [Handler any; Handler no]; split; [reflexivity|]; split; [reflexivity|]; repeat constructor; intros []|].
  split; [vm_compute; reflexivity|]. split; [vm_compute; reflexivity|]. split; [exists [Function f; Handler no; Source s; Function f'], [Handler no]; split; [reflexivity|]; split; [reflexivity|]; repeat constructor; cbn; intros K; (exact K || discriminate K)|].
  split; [vm_compute; reflexivity|]. split; [vm_compute; reflexivity|]. split; [vm_compute; eexists; reflexivity|]. split; [vm_compute; reflexivity|]. split; [vm_compute; eexists; reflexivity|vm_compute; reflexivity].
Qed.
