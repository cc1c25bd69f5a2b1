(** C130: curvature of the solution. *)
From Coq Require Import List Arith Reals Lra Lia.
From Verif Require Import Base Model_CoreStateSpace Spec_CoreStateSpace Model_StateSpace Spec_StateSpace Model_Solve Spec_Solve Spec_Convexity
  Proof_Convexity Props_StateSpace Examples_Solve Examples_Convexity.
Import ListNotations.
Open Scope R_scope.

(** Expected values are convex in the coefficients of wages and non-pecuniary rewards. *)
Theorem C130_convex_in_coefficients : forall sp neg k grid ss inp inp' inp'' ev0 ev0' ev0'' ev ev' ev'' s d ctx v v' v'' l,
  standard_model sp neg k grid ss inp -> standard_model sp neg k grid ss inp' -> standard_model sp neg k grid ss inp'' ->
  0 <= l <= 1 -> mixed_models l inp inp' inp'' -> 0 <= p_delta (in_params inp) ->
  ev_shape ss ev0 -> ev_shape ss ev0' -> ev_shape ss ev0'' ->
  solve_with_backward_induction ss inp ev0 = Ok ev ->
  solve_with_backward_induction ss inp' ev0' = Ok ev' ->
  solve_with_backward_induction ss inp'' ev0'' = Ok ev'' ->
  In s (create_core_state_space sp) -> dense_combination grid d ctx ->
  value_at ss ev s d v -> value_at ss ev' s d v' -> value_at ss ev'' s d v'' ->
  v'' <= l * v + (1 - l) * v'.
Proof. exact stored_convex. Qed.
Print Assumptions C130_convex_in_coefficients.

(** Expected values are at least those of the problem in which the utility of each choice is
    its average over the shocks. *)
Theorem C130_shocks_are_valuable : forall sp neg k grid ss inp ev0 ev s d ctx v,
  standard_model sp neg k grid ss inp -> 0 < p_delta (in_params inp) -> (forall m t, in_base inp m t <> []) -> ev_shape ss ev0 ->
  solve_with_backward_induction ss inp ev0 = Ok ev ->
  In s (create_core_state_space sp) -> dense_combination grid d ctx -> value_at ss ev s d v ->
  value (average_problem (problem_of sp neg k inp ctx)) (p_delta (in_params inp)) (sp_nperiods sp - cs_period s) s <= v.
Proof. exact stored_average. Qed.
Print Assumptions C130_shocks_are_valuable.

Example C130_example : (forall l a b a' b', mixed_models l (cv_inp a b) (cv_inp a' b') (cv_inp (l * a + (1 - l) * a') (l * b + (1 - l) * b'))) /\
  (forall a b, standard_model ex_sp (fun _ => None) 0 ex_grid ex_ss (cv_inp a b)) /\
  (forall m t, in_base ex_inp m t <> []) /\
  mixed_models (/ 2) (one_inp (-1)) (one_inp 1) (one_inp 0) /\
  value (problem_of one_sp one_neg 0 (one_inp 0) None) 1 1 one_state <
    / 2 * value (problem_of one_sp one_neg 0 (one_inp (-1)) None) 1 1 one_state +
    (1 - / 2) * value (problem_of one_sp one_neg 0 (one_inp 1) None) 1 1 one_state.
Proof.
  split; [exact cv_mixed|]. split; [exact cv_standard|]. split; [discriminate|]. split; [exact one_mixed|].
  assert (V : forall a, value (problem_of one_sp one_neg 0 (one_inp a) None) 1 1 one_state = Rmax a 0).
  { intros a. cbn. unfold transform_draw, linear_index, nonpec_of, wage_of, mean, max0. cbn.
    unfold linear_index. cbn. match goal with |- (Rmax ?x 0 + 0) / 1 = _ => replace x with a by lra end. lra. }
  rewrite !V. rewrite (Rmax_left 0 0), (Rmax_right (-1) 0), (Rmax_left 1 0) by lra. lra.
Qed.
