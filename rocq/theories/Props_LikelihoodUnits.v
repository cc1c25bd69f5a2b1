(** Property theorems: the likelihood of data whose wages are in other units. *)
From Coq Require Import List Arith Bool Reals Lra Lia Sorting.Permutation.
From Verif Require Import Base Model_StateSpace Model_Parallel Model_Solve Spec_Solve
  Model_ConditionalDraws Spec_ConditionalDraws Proof_Matrix Proof_ConditionalDraws
  Model_Likelihood Spec_Likelihood Spec_LikelihoodUnits Proof_LikelihoodUnits Examples_LikelihoodUnits.
Import ListNotations.
Open Scope R_scope.

(** ** C104 *)
Theorem C104_contributions : forall rc qr lam lk lk' locate locate' env env' n_types params x order_rows order_rows' order_types data v cs v' cs',
  usual_cholesky rc -> qr_routine qr -> 0 < lam -> spec_scaled lam lk lk' -> env_scaled lam lk env env' ->
  (forall i o t, locate' i (scaled_obs lam o) t = locate i o t) ->
  (1 <= n_types)%nat -> length params = n_types -> NoDup (map fst data) ->
  (forall l, Permutation (order_rows l) l) -> (forall l, Permutation (order_rows' l) l) ->
  all_evaluable lam lk lk' locate env n_types data ->
  log_like rc qr lk locate env n_types params x order_rows order_types data = Ok (v, cs) ->
  log_like rc qr lk' locate' env' n_types params x order_rows' order_types (scaled_data lam data) = Ok (v', cs') ->
  inside cs -> inside cs' ->
  length cs = length (evaluated_ids order_types n_types data) /\ length cs' = length cs /\
  forall k id c c', nth_error (evaluated_ids order_types n_types data) k = Some id ->
    nth_error cs k = Some c -> nth_error cs' k = Some c' -> c' = c - INR (observed_wages data id) * ln lam.
Proof. exact units_contributions. Qed.
Print Assumptions C104_contributions.

Theorem C104_value : forall rc qr lam lk lk' locate locate' env env' n_types params x order_rows order_rows' order_types data v cs v' cs',
  usual_cholesky rc -> qr_routine qr -> 0 < lam -> spec_scaled lam lk lk' -> env_scaled lam lk env env' ->
  (forall i o t, locate' i (scaled_obs lam o) t = locate i o t) ->
  (1 <= n_types)%nat -> length params = n_types -> NoDup (map fst data) -> data <> [] ->
  ((2 <= n_types)%nat -> forall id p ob, In ((id, p), ob) data -> exists first, In ((id, 0%nat), first) data) ->
  (forall l, Permutation (order_types l) l) ->
  (forall l, Permutation (order_rows l) l) -> (forall l, Permutation (order_rows' l) l) ->
  all_evaluable lam lk lk' locate env n_types data ->
  log_like rc qr lk locate env n_types params x order_rows order_types data = Ok (v, cs) ->
  log_like rc qr lk' locate' env' n_types params x order_rows' order_types (scaled_data lam data) = Ok (v', cs') ->
  inside cs -> inside cs' ->
  v' = v - INR (number_of_wages data) / INR (number_of_individuals data) * ln lam.
Proof. exact units_average. Qed.
Print Assumptions C104_value.

(** Which of two parameter vectors fits better does not depend on the units. *)
Theorem C104_ranking_of_parameters : forall rc qr lam n_types order_types data
    lk1 lk1' locate1 locate1' env1 env1' params1 x1 order1 order1' v1 cs1 v1' cs1'
    lk2 lk2' locate2 locate2' env2 env2' params2 x2 order2 order2' v2 cs2 v2' cs2',
  usual_cholesky rc -> qr_routine qr -> 0 < lam -> (1 <= n_types)%nat -> NoDup (map fst data) ->
  scaled_problem rc qr lam n_types order_types data lk1 lk1' locate1 locate1' env1 env1' params1 x1 order1 order1' v1 cs1 v1' cs1' ->
  scaled_problem rc qr lam n_types order_types data lk2 lk2' locate2 locate2' env2 env2' params2 x2 order2 order2' v2 cs2 v2' cs2' ->
  (v1 < v2 <-> v1' < v2').
Proof. exact units_ranking. Qed.
Print Assumptions C104_ranking_of_parameters.

(** The assumption about the Cholesky routine can be met. *)
Theorem C104_routine_exists : usual_cholesky cholesky.
Proof. exact cholesky_usual. Qed.
Print Assumptions C104_routine_exists.

(** Two individuals and three observations with one wage, in dollars and in units of half a
    dollar. *)
Example C104_example :
  exists v v' cs cs',
    scaled_problem cholesky lazy_qr 2 1 (fun l => l) unit_data (unit_lk 1) (unit_lk 2) unit_locate unit_locate
      (unit_env 1) (unit_env 2) [[]] (fun _ _ _ => 0) (fun l => l) (fun l => l) v cs v' cs' /\
    usual_cholesky cholesky /\ qr_routine lazy_qr /\ NoDup (map fst unit_data) /\
    number_of_wages unit_data = 1%nat /\ number_of_individuals unit_data = 2%nat /\
    v' = v - 1 / 2 * ln 2 /\ v' <> v.
Proof.
  exists ((- ln 2 + (- ln (2 * PI) / 2 - ln 1) + - ln 2 + - ln 2) / 2), ((- ln 2 + (- ln (2 * PI) / 2 - ln 2) + - ln 2 + - ln 2) / 2).
  exists [- ln 2 + (- ln (2 * PI) / 2 - ln 1) + - ln 2; - ln 2], [- ln 2 + (- ln (2 * PI) / 2 - ln 2) + - ln 2; - ln 2].
  split; [|split; [exact cholesky_usual|split; [exact lazy_qr_routine|split; [exact unit_unique|split; [reflexivity|split; [reflexivity|]]]]]].
  - split; [apply unit_spec|]. split; [apply unit_env_scaled|]. split; [reflexivity|]. split; [reflexivity|].
    split; [intros; apply Permutation_refl|]. split; [intros; apply Permutation_refl|]. split; [apply unit_evaluable; lra|].
    split; [|split; [apply unit_log_like; lra|split; apply unit_inside; lra]].
    pose proof (unit_log_like 1 ltac:(lra)) as H.
    replace (scaled_data 1 unit_data) with unit_data in H; [exact H|]. unfold scaled_data, unit_data, scaled_obs. cbn [map fst snd ob_code ob_wage option_map].
    rewrite Rmult_1_r. reflexivity.
  - rewrite ln_1. split; [lra|]. assert (0 < ln 2) by (rewrite <- ln_1; apply ln_increasing; lra). lra.
Qed.
