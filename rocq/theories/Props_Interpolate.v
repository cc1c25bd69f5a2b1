(** Properties C39, C40, C69 and C70: the approximate solution; C14 for such solutions. *)
From Coq Require Import List Arith Bool Reals Lra Lia.
From Verif Require Import Base Proof_Base Model_CoreStateSpace Spec_CoreStateSpace
  Proof_CoreStateSpace Model_StateSpace Spec_StateSpace Proof_StateSpace Props_StateSpace
  Model_Solve Spec_Solve Proof_Solve Proof_SolveProps Model_Calls Proof_Calls Model_ConditionalDraws
  Model_Interpolate Spec_Interpolate Proof_Interpolate Proof_InterpolatePredict Proof_InterpolateSolve Examples_Interpolate.
Import ListNotations.
Open Scope R_scope.

(** ** C39 *)
Theorem C39_points_are_feasible : forall choose ns points, draws_position choose ->
  (forall n, In n ns -> (1 <= n)%nat) -> (2 * length ns < points)%nat -> (points < list_sum ns)%nat ->
  exists ps warn, split_interpolation_points_evenly choose ns points = Ok (ps, warn) /\
    feasible_points ns ps /\ (list_sum ps + single_states ns = points)%nat.
Proof. exact split_ok. Qed.
Print Assumptions C39_points_are_feasible.

Theorem C39_two_per_key_fails : forall choose ns, ns <> [] ->
  split_interpolation_points_evenly choose ns (2 * length ns) = NameError.
Proof. exact split_fails. Qed.
Print Assumptions C39_two_per_key_fails.

(** The solver runs into this case. *)
Theorem C39_solver_fails : forall ss inp o ev0 p, (p < ss_nperiods ss)%nat ->
  p_delta (in_params inp) <> 0 ->
  in_points inp = (2 * length (keys_in ss p))%nat -> (in_points inp < states_in ss p)%nat ->
  forall ev, solve_with_backward_induction ss (with_interpolation ss o inp) ev0 <> Ok ev.
Proof. exact two_per_key_fails. Qed.
Print Assumptions C39_solver_fails.

Example C39_example :
  draws_position (fun _ => first_positive) /\ (forall n, In n [7; 1; 9]%nat -> (1 <= n)%nat) /\
  (2 * length [7; 1; 9]%nat < 12)%nat /\ (12 < list_sum [7; 1; 9]%nat)%nat /\
  (2 < ss_nperiods int_ss)%nat /\ in_points (int_inp 2) = (2 * length (keys_in int_ss 2))%nat /\
  (in_points (int_inp 2) < states_in int_ss 2)%nat.
Proof.
  split; [exact draws_first|]. split; [intros n [<-|[<-|[<-|[]]]]; lia|].
  split; [simpl; lia|]. split; [simpl; lia|]. split; [vm_compute; lia|].
  split; [reflexivity|]. vm_compute. lia.
Qed.

(** ** C40 *)
Theorem C40_interpolated_solution : forall nchoices nperiods core csf grid ss inp o,
  NoDup core -> closed_under_choices nperiods core csf -> collision_free core csf grid ->
  create_state_space nperiods core csf grid = Ok ss -> wf_inputs nchoices csf inp ->
  (forall s, In s core -> (cs_period s < nperiods)%nat) ->
  p_delta (in_params inp) <> 0 ->
  (forall d ctx s, dense_combination grid d ctx -> In s core -> exists c, available (csf ctx s) c) ->
  (forall p, draws_position (or_choose o p)) -> (forall k, draws_subset (or_subset o k)) ->
  (forall p, (p < nperiods)%nat ->
     solved_exactly ss (in_points inp) p \/ interpolated_period ss (in_points inp) p) ->
  forall ev0, ev_shape ss ev0 ->
  exists ev masks, solve_with_backward_induction ss (with_interpolation ss o inp) ev0 = Ok ev /\
    ev_shape ss ev /\
    (forall p, (p < nperiods)%nat -> simulated_states ss (in_points inp) masks p) /\
    forall k r s d ctx, located ss k r s d -> dense_combination grid d ctx ->
      exists v next, value_at ss ev s d v /\ successor_values nperiods ss ev (csf ctx s) s d next /\
        if nth r (masks k) false
        then v = simulated_value (model_problem csf inp ctx) (p_delta (in_params inp)) s next
        else above_mean_values inp ctx (csf ctx s) s next v.
Proof. exact interpolated_solution. Qed.
Print Assumptions C40_interpolated_solution.

(** The simulated states of one key are as many as points assigned to it. *)
Theorem C40_number_of_simulated_states : forall subset points n, draws_subset subset -> (points <= n)%nat ->
  exists mask, get_not_interpolated_indicator subset points n = Ok mask /\
    length mask = n /\ count_true mask = points.
Proof. exact indicator_ok. Qed.
Print Assumptions C40_number_of_simulated_states.

(** One key, whatever the coefficients. *)
Theorem C40_values_of_a_key : forall ols wages nonpecs conts draws shocks delta mask n,
  length wages = n -> length nonpecs = n -> length conts = n -> length mask = n ->
  (forall w, In w wages -> w <> []) ->
  exists arr, interpolate_key ols wages nonpecs conts draws shocks delta mask = Ok arr /\ length arr = n /\
    forall r, (r < n)%nat ->
      let det := deterministic_value (nth r wages []) (nth r nonpecs []) (nth r conts []) shocks delta in
      if nth r mask false
      then nth r arr 0 = emax (nth r wages []) (nth r nonpecs []) (nth r conts []) draws delta
      else det <= nth r arr 0.
Proof. exact interpolate_key_spec. Qed.
Print Assumptions C40_values_of_a_key.

(** A model whose last period is interpolated. *)
Example C40_example :
  NoDup (create_core_state_space int_sp) /\
  closed_under_choices 4 (create_core_state_space int_sp) int_csf /\
  collision_free (create_core_state_space int_sp) int_csf [] /\
  create_state_space 4 (create_core_state_space int_sp) int_csf [] = Ok int_ss /\
  wf_inputs 2 int_csf (int_inp 3) /\
  (forall s, In s (create_core_state_space int_sp) -> (cs_period s < 4)%nat) /\
  p_delta (in_params (int_inp 3)) <> 0 /\
  (forall d ctx s, dense_combination [] d ctx -> In s (create_core_state_space int_sp) ->
     exists c, available (int_csf ctx s) c) /\
  (forall p, draws_position (or_choose int_oracle p)) /\ (forall k, draws_subset (or_subset int_oracle k)) /\
  (forall p, (p < 4)%nat -> solved_exactly int_ss 3 p \/ interpolated_period int_ss 3 p) /\
  interpolated_period int_ss 3 3 /\ ev_shape int_ss (initial_ev int_ss).
Proof.
  assert (W : wf_spec int_sp) by (unfold int_sp; solve_wf).
  split; [apply core_nodup|]. split; [apply (model_closed int_sp); [exact W|simpl; lia|reflexivity]|].
  split; [intros vec s1 s2 []|]. split; [exact int_created|].
  split; [split; [reflexivity|split; [intros; reflexivity|reflexivity]]|].
  split; [intros s Hs; apply (core_periods int_sp); [exact W|simpl; lia|exact Hs]|].
  split; [simpl; lra|]. split; [exact int_available|]. split; [intros p; exact draws_first|].
  split; [intros k; exact draws_first_positions|].
  assert (I : interpolated_period int_ss 3 3) by (split; vm_compute; lia).
  split; [|split; [exact I|apply initial_ev_shape]].
  intros p Hp. destruct p as [|[|[|[|p]]]]; [left; left; vm_compute; lia|left; left; vm_compute; lia| |right; exact I|lia].
  left; left; vm_compute; lia.
Qed.

(** ** C14 for the approximate solution *)
Theorem C14_history_irrelevant_with_interpolation : forall nperiods core csf grid ss inp o h1 h2 hist1 hist2,
  create_state_space nperiods core csf grid = Ok ss ->
  (forall s, In s core -> (cs_period s < nperiods)%nat) ->
  let i := with_interpolation ss o inp in
  let g1 := get_solve_func ss h1 in let g2 := get_solve_func ss h2 in
  let c1 := solve_call ss i (fst (solve_calls ss hist1 (fst g1) (snd g1))) (snd g1) in
  let c2 := solve_call ss i (fst (solve_calls ss hist2 (fst g2) (snd g2))) (snd g2) in
  (result_bind (snd c1) (fun _ => Ok tt) = result_bind (snd c2) (fun _ => Ok tt)) /\
  (forall a1 a2, snd c1 = Ok a1 -> snd c2 = Ok a2 ->
     nth_error (fst c1) a1 = nth_error (fst c2) a2).
Proof.
  exact (fun nperiods core csf grid ss inp o h1 h2 hist1 hist2 C P =>
           history_irrelevant nperiods core csf grid ss (with_interpolation ss o inp) h1 h2 hist1 hist2
             C P (with_interpolation_keys ss o inp)).
Qed.
Print Assumptions C14_history_irrelevant_with_interpolation.

(** ** C69 *)
Theorem C69_warning_with_a_single_key : forall choose n points ps warn, (1 <= n)%nat ->
  split_interpolation_points_evenly choose [n] points = Ok (ps, warn) ->
  (warn = true <-> few_points [n] ps).
Proof. exact single_key_warning. Qed.
Print Assumptions C69_warning_with_a_single_key.

Theorem C69_no_warning_refuted :
  exists choose ns points ps, draws_position choose /\
    split_interpolation_points_evenly choose ns points = Ok (ps, false) /\ few_points ns ps.
Proof. exact missing_warning. Qed.
Print Assumptions C69_no_warning_refuted.

Theorem C69_needless_warning_refuted :
  exists choose ns points ps, draws_position choose /\
    split_interpolation_points_evenly choose ns points = Ok (ps, true) /\ ~ few_points ns ps.
Proof. exact needless_warning. Qed.
Print Assumptions C69_needless_warning_refuted.

Example C69_example : exists ps warn,
  split_interpolation_points_evenly (fun _ => first_positive) [7%nat] 4 = Ok (ps, warn).
Proof.
  destruct (split_ok (fun _ => first_positive) [7%nat] 4 draws_first) as [ps [w [E _]]];
    [intros n [<-|[]]; lia|simpl; lia|simpl; lia|]. eauto.
Qed.

(** ** C70 *)
Theorem C70_least_squares : forall pinv n k y x b,
  generalised_inverse k (cross_products n x) (pinv k (cross_products n x)) ->
  squared_residuals n k y x (ols pinv n k y x) <= squared_residuals n k y x b.
Proof. exact least_squares. Qed.
Print Assumptions C70_least_squares.

(** At a state which is not simulated the value is the best one at expected shocks plus the
    prediction, if positive, of a regression over the simulated states. *)
Theorem C70_prediction : forall ols wages nonpecs conts draws shocks delta mask n,
  length wages = n -> length nonpecs = n -> length conts = n -> length mask = n ->
  (forall w, In w wages -> w <> []) ->
  let det r := deterministic_value (nth r wages []) (nth r nonpecs []) (nth r conts []) shocks delta in
  let x r := regressors (nth r wages []) (nth r nonpecs []) (nth r conts []) shocks delta in
  let y r := emax (nth r wages []) (nth r nonpecs []) (nth r conts []) draws delta - det r in
  let beta := ols (map y (positions mask)) (map x (positions mask)) in
  exists arr, interpolate_key ols wages nonpecs conts draws shocks delta mask = Ok arr /\
    forall r, (r < n)%nat -> nth r mask false = false ->
      nth r arr 0 = det r + Rmax 0 (rsum (map (fun p => fst p * snd p) (combine (x r) beta))).
Proof. exact interpolate_key_predicts. Qed.
Print Assumptions C70_prediction.

Theorem C70_regressors_are_distances : forall wages nonpecs conts shocks delta v,
  In v (regressors wages nonpecs conts shocks delta) -> 0 <= v.
Proof. exact regressors_nonneg. Qed.
Print Assumptions C70_regressors_are_distances.

(** Two states with two choices, the first is simulated. *)
Example C70_example_prediction :
  regressors [1; 1] [0; 2] [0; 0] [3; 5] 1 = [4; 0; 2; 0; 1] /\
  length [true; false] = 2%nat /\ positions [true; false] = [0%nat].
Proof.
  split; [|split; reflexivity]. unfold regressors, choice_values, maximum. cbn.
  replace (1 * 3 + 0 + 1 * 0) with 3 by ring. replace (1 * 5 + 2 + 1 * 0) with 7 by ring.
  rewrite (Rmax_left 7 3) by lra. replace (7 - 3) with (2 * 2) by ring. replace (7 - 7) with 0 by ring.
  rewrite sqrt_square, sqrt_0 by lra. replace (2 * 2) with 4 by ring. reflexivity.
Qed.

(** A constant as the only variable, two observations. *)
Example C70_example :
  generalised_inverse 1 (cross_products 2 (fun _ _ => 1)) (fun _ _ => / 2) /\
  squared_residuals 2 1 INR (fun _ _ => 1) (fun _ => / 2) = / 2.
Proof.
  split.
  - intros i j Hi Hj. unfold cross_products. cbn. lra.
  - unfold squared_residuals. cbn. lra.
Qed.
