(** Properties of covariates: C47, C48, C49, C50, C73, C74. *)
From Coq Require Import List Arith Bool Lia String Ascii Permutation.
From Verif Require Import Base Model_Cache Model_Strings Model_Choices Spec_Choices Model_Covariates Spec_Covariates
  Proof_Covariates Proof_Compute Proof_Necessary Proof_Groups Examples_Covariates.
Import ListNotations.
Open Scope string_scope.

(** ** C47 *)

Theorem C47_computes_everything_that_can_be_computed :
  forall V eval no_nans check_nans defs (df : frame V),
  NoDup (map fst defs) -> dependencies_complete V eval defs ->
  (forall c, In c (map fst defs) -> dict_get string_dec c (fr_index V df) = None) ->
  exists df',
    (forall x v, lookup V df' x = Some v <-> derives V eval no_nans check_nans defs df x v) /\
    compute_covariates V eval no_nans check_nans false defs df = Some (Ok df') /\
    ((forall c, In c (map fst defs) -> exists v, derives V eval no_nans check_nans defs df c v) ->
       compute_covariates V eval no_nans check_nans true defs df = Some (Ok df')) /\
    ((exists c, In c (map fst defs) /\ ~ exists v, derives V eval no_nans check_nans defs df c v) ->
       compute_covariates V eval no_nans check_nans true defs df = Some OtherError).
Proof. exact compute_covariates_ok. Qed.
Print Assumptions C47_computes_everything_that_can_be_computed.

Theorem C47_values_are_unique : forall V eval no_nans check_nans defs (df : frame V),
  NoDup (map fst defs) -> dependencies_complete V eval defs ->
  forall x v, derives V eval no_nans check_nans defs df x v ->
  forall w, derives V eval no_nans check_nans defs df x w -> v = w.
Proof. exact derives_unique. Qed.
Print Assumptions C47_values_are_unique.

Theorem C47_order_is_irrelevant : forall V eval no_nans check_nans defs defs' (df : frame V),
  NoDup (map fst defs) -> dependencies_complete V eval defs ->
  (forall c, In c (map fst defs) -> dict_get string_dec c (fr_index V df) = None) ->
  Permutation defs defs' ->
  exists df1 df2, compute_covariates V eval no_nans check_nans false defs df = Some (Ok df1) /\
    compute_covariates V eval no_nans check_nans false defs' df = Some (Ok df2) /\
    (forall x, lookup V df1 x = lookup V df2 x) /\
    (compute_covariates V eval no_nans check_nans true defs df = Some OtherError <->
     compute_covariates V eval no_nans check_nans true defs' df = Some OtherError).
Proof. exact compute_order. Qed.
Print Assumptions C47_order_is_irrelevant.

(** "b" uses "a", which uses the column "x"; "c" and "d" use each other. *)
Example c47_example :
  dependencies_complete nat ex_eval ex_defs /\ NoDup (map fst ex_defs) /\
  compute_covariates nat ex_eval (fun _ => true) false true (firstn 2 ex_defs) ex_frame =
    Some (Ok (mkFrame nat [] [("x", 3); ("a", 4); ("b", 8)])) /\
  compute_covariates nat ex_eval (fun _ => true) false true ex_defs ex_frame = Some OtherError /\
  compute_covariates nat ex_eval (fun _ => true) false false ex_defs ex_frame =
    Some (Ok (mkFrame nat [] [("x", 3); ("a", 4); ("b", 8)])).
Proof.
  split; [exact ex_complete|]. split; [repeat constructor; cbn; intuition discriminate|].
  vm_compute. auto.
Qed.

(** ** C48 *)

Theorem C48_smallest_closed_set : forall covs names, NoDup (map fst covs) ->
  exists result, remove_irrelevant_covariates covs names = Some result /\
    NoDup (map fst result) /\ incl result covs /\
    closed covs names (fun c => In c (map fst result)) /\
    (forall S, closed covs names S -> forall c, In c (map fst result) -> S c).
Proof. exact remove_irrelevant_ok. Qed.
Print Assumptions C48_smallest_closed_set.

Example c48_example :
  remove_irrelevant_covariates
    [("graduate", "edu >= 12"); ("edu", "exp_school + 6"); ("unused", "edu < 3"); ("bonus", "graduate * age");
     ("age", "period + 16")] ["constant"; "bonus"] =
  Some [("age", "period + 16"); ("edu", "exp_school + 6"); ("graduate", "edu >= 12"); ("bonus", "graduate * age")].
Proof. vm_compute. reflexivity. Qed.

(** ** C49 *)

Theorem C49_dependencies : forall covs core dense,
  NoDup (map fst covs) -> NoDup core -> NoDup dense -> (forall x, In x core -> ~ In x dense) ->
  (forall x f, In x core \/ In x dense \/ In x (map fst covs) -> In f (map snd covs) ->
     occurs x f -> word_of x f) ->
  exists r, separate_covariates covs core dense = Some (Ok r) /\
    map fst (sc_all r) = map fst covs /\
    (forall c f deps, In (c, (f, deps)) (sc_core r ++ sc_dense r ++ sc_mixed r ++ sc_all r) ->
       In (c, f) covs /\
       forall x, In x deps <-> (built_from covs core x \/ built_from covs dense x) /\ word_of x f).
Proof. exact words_ok. Qed.
Print Assumptions C49_dependencies.

Theorem C49_own_dependency_is_never_computed :
  forall V (eval : string -> (string -> option V) -> result V) no_nans check_nans defs c f deps,
  dict_get string_dec c defs = Some (f, deps) -> In c deps ->
  forall df df', lookup V df c = None ->
  compute_covariates V eval no_nans check_nans true defs df <> Some (Ok df').
Proof. exact own_never. Qed.
Print Assumptions C49_own_dependency_is_never_computed.

(** The formula of "edu" uses only the experience in education. *)
Theorem C49_acyclic_definitions_refuted : exists covs r c f deps,
  separate_covariates covs (core_variables ["edu"] 0) (dense_variables [] 1) = Some (Ok r) /\
  covs = [(c, f)] /\ ~ word_of c f /\ word_of "exp_edu" f /\
  sc_core r = [(c, (f, deps))] /\ In c deps.
Proof. exact own_name_example. Qed.
Print Assumptions C49_acyclic_definitions_refuted.

Example c49_example : exists r,
  separate_covariates [("graduate", "exp_edu > 12"); ("old", "period > 20")]
    (core_variables ["edu"] 0) (dense_variables ["region"] 2) = Some (Ok r) /\
  sc_core r = [("graduate", ("exp_edu > 12", ["exp_edu"])); ("old", ("period > 20", ["period"]))].
Proof. eexists. split; vm_compute; reflexivity. Qed.

(** ** C73 *)

Theorem C73_groups : forall covs core dense,
  NoDup (map fst covs) -> NoDup core -> NoDup dense -> (forall x, In x core -> ~ In x dense) ->
  exists r, separate_covariates covs core dense = Some (Ok r) /\
    (forall c, In c (map fst (sc_core r)) <-> In c (map fst covs) /\ ~ built_from covs dense c) /\
    (forall c, In c (map fst (sc_dense r)) <->
       In c (map fst covs) /\ built_from covs dense c /\ ~ built_from covs core c) /\
    (forall c, In c (map fst (sc_mixed r)) <-> built_from covs dense c /\ built_from covs core c) /\
    map fst (sc_all r) = map fst covs /\
    NoDup (map fst (sc_core r)) /\ NoDup (map fst (sc_dense r)) /\ NoDup (map fst (sc_mixed r)) /\
    (forall c f deps, In (c, (f, deps)) (sc_core r ++ sc_dense r ++ sc_mixed r ++ sc_all r) ->
       In (c, f) covs /\
       forall x, In x deps <-> (built_from covs core x \/ built_from covs dense x) /\ occurs x f).
Proof. exact separate_ok. Qed.
Print Assumptions C73_groups.

(** The variables to begin with. *)
Theorem C73_core_and_dense_variables : forall choices n_lags observables n_types x,
  (In x (core_variables choices n_lags) <->
     x = "period" \/ (exists c, In c choices /\ x = "exp_" ++ c) \/
     (exists i, 1 <= i /\ i <= n_lags /\ x = "lagged_choice_" ++ dec i)) /\
  (In x (dense_variables observables n_types) <->
     In x observables \/
     (2 <= n_types /\ (x = "type" \/ exists i, 2 <= i /\ i <= n_types /\ x = "type_" ++ dec i))) /\
  NoDup (core_variables choices n_lags) /\ NoDup (dense_variables observables n_types).
Proof.
  exact (fun choices n_lags observables n_types x =>
    conj (core_variables_iff choices n_lags x) (conj (dense_variables_iff observables n_types x)
      (conj (core_variables_NoDup choices n_lags) (dense_variables_NoDup observables n_types)))).
Qed.
Print Assumptions C73_core_and_dense_variables.

Example c73_example : exists r,
  separate_covariates [("one", "1"); ("rich", "region == 1"); ("old_rich", "rich and period > 20")]
    (core_variables ["edu"] 1) (dense_variables ["region"] 2) = Some (Ok r) /\
  map fst (sc_core r) = ["one"] /\ map fst (sc_dense r) = ["rich"] /\ map fst (sc_mixed r) = ["old_rich"].
Proof. eexists. split; [vm_compute; reflexivity|]. vm_compute. auto. Qed.

(** ** C74 *)

(** A covariate whose formula uses a covariate without variables: no dependency is recorded,
    and whether it can be computed depends on the order of the definitions. *)
Theorem C74_constant_dependencies_refuted : exists covs r c f d,
  separate_covariates covs (core_variables [] 0) (dense_variables [] 1) = Some (Ok r) /\
  In (c, f) covs /\ In d (map fst covs) /\ word_of d f /\
  (forall deps, In (c, (f, deps)) (sc_core r) -> ~ In d deps) /\
  exists (eval : string -> (string -> option nat) -> result nat) defs df df',
    Permutation defs (sc_core r) /\
    compute_covariates nat eval (fun _ => true) false true (sc_core r) df = Some (Ok df') /\
    compute_covariates nat eval (fun _ => true) false true defs df = Some NameError.
Proof. exact constant_example. Qed.
Print Assumptions C74_constant_dependencies_refuted.

(** Covariates that use variables of the state space are recorded as dependencies. *)
Theorem C74_other_dependencies : forall covs core dense r c f d,
  NoDup (map fst covs) -> NoDup core -> NoDup dense -> (forall x, In x core -> ~ In x dense) ->
  separate_covariates covs core dense = Some (Ok r) -> In (c, f) covs -> word_of d f ->
  built_from covs core d \/ built_from covs dense d ->
  exists deps, In (c, (f, deps)) (sc_all r) /\ In d deps.
Proof. exact recorded. Qed.
Print Assumptions C74_other_dependencies.

Example c74_example : exists r,
  separate_covariates [("age", "period + 16"); ("old", "age > 40")]
    (core_variables [] 0) (dense_variables [] 1) = Some (Ok r) /\
  sc_all r = [("age", ("period + 16", ["period"])); ("old", ("age > 40", ["age"]))].
Proof. eexists. split; vm_compute; reflexivity. Qed.

(** ** C50 *)

Theorem C50_result_if_any : forall definitions order,
  (forall l x, In x (order l) <-> In x l) ->
  forall requested fuel r,
  identify_necessary_covariates definitions order fuel requested = Some (Ok r) ->
  forall c, In c r <-> reachable definitions requested c /\ has_dependencies definitions c.
Proof. exact necessary_result. Qed.
Print Assumptions C50_result_if_any.

Theorem C50_covariates_of_variables_only : forall definitions order,
  (forall l, Permutation (order l) l) ->
  forall requested,
  (forall c, In c requested -> has_dependencies definitions c) ->
  (forall c d, In c requested -> In d (dependencies definitions c) -> dependencies definitions d = []) ->
  forall fuel, 2 <= fuel ->
  exists r, identify_necessary_covariates definitions order fuel requested = Some (Ok r).
Proof. exact flat_ok. Qed.
Print Assumptions C50_covariates_of_variables_only.

Theorem C50_order_matters_refuted : exists definitions requested order order' fuel r,
  (forall l, Permutation (order l) l) /\ (forall l, Permutation (order' l) l) /\
  identify_necessary_covariates definitions order fuel requested = Some (Ok r) /\
  identify_necessary_covariates definitions order' fuel requested = Some KeyError.
Proof.
  exists [("old", ["age"; "period"]); ("age", ["period"])], ["old"], (@rev string), (fun l => l), 10, ["old"; "age"].
  split; [intros l; symmetry; apply Permutation_rev|]. split; [reflexivity|]. vm_compute. auto.
Qed.
Print Assumptions C50_order_matters_refuted.

Theorem C50_self_reference_never_ends : forall definitions order,
  (forall l x, In x (order l) <-> In x l) ->
  forall c, In c (dependencies definitions c) ->
  forall fuel requested r, In c requested ->
  identify_necessary_covariates definitions order fuel requested <> Some (Ok r).
Proof. exact self_reference. Qed.
Print Assumptions C50_self_reference_never_ends.

Example c50_example :
  identify_necessary_covariates [("age", ["period"]); ("rich", ["region"])] (fun l => l) 3 ["age"; "rich"] =
    Some (Ok ["age"; "rich"]) /\
  (forall c d, In c ["age"; "rich"] -> In d (dependencies [("age", ["period"]); ("rich", ["region"])] c) ->
     dependencies [("age", ["period"]); ("rich", ["region"])] d = []).
Proof.
  split; [vm_compute; reflexivity|]. intros c d [<-|[<-|[]]] D; vm_compute in D; destruct D as [<-|[]]; reflexivity.
Qed.
