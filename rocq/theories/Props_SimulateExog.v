(** Property theorems about the simulation of models with exogenous processes.  Proofs are in
    Proof_SimulateExog.v. *)
From Coq Require Import List Arith Bool Reals Lra Lia.
From Verif Require Import Base Model_CoreStateSpace Spec_CoreStateSpace Model_StateSpace Spec_StateSpace Props_StateSpace
  Model_Solve Spec_Solve Examples_Solve Model_Parallel Spec_Parallel Model_Simulate Spec_Simulate Examples_Simulate
  Model_Exogenous Spec_Exogenous Examples_Exogenous Model_SimulateExog Spec_SimulateExog Proof_SimulateExog
  Examples_SimulateExog.
Import ListNotations.
Open Scope R_scope.

(** ** C98 *)
(** The panel: initial states from the data, experience and lagged choices by the law of
    motion, static dense variables kept, levels of the processes drawn with the joint
    probabilities of the state, values and wages as without processes with expected
    continuation values over the levels. *)
Theorem C98_panel_with_processes :
  forall sp neg k grid procs ss inp ev si order u n ids base base_wage df,
  exogenous_setup sp neg k grid procs ss inp ev si order u n ids base base_wage df ->
  exists panel,
    simulate_exog ss procs inp ev si order u n base base_wage df = Ok panel /\
    map fst panel = panel_index ids n /\
    (forall id o, In ((id, 0%nat), o) panel -> In ((id, 0%nat), o_ind o) df) /\
    (forall id t o o', In ((id, t), o) panel -> In ((id, S t), o') panel ->
       i_core (o_ind o') = law_of_motion (o_choice o) (i_core (o_ind o)) /\
       exists e, drawn_levels procs (in_cov inp (Some (i_dense (o_ind o))) (i_core (o_ind o))) (u t (id, t)) e /\
         i_dense (o_ind o') = static_part (length procs) (i_dense (o_ind o)) ++ e) /\
    (forall id t o, In ((id, t), o) panel -> exists p s m,
       nth_error ids p = Some id /\ nth_error base (length ids * t + p) = Some s /\
       nth_error base_wage (length ids * t + p) = Some m /\
       exogenous_row sp neg k grid procs ss inp ev si t s m o).
Proof.
  exact (fun sp neg k grid procs ss inp ev si order u n ids base base_wage df SU =>
    panel_x sp neg k grid procs ss inp ev
      (xs_model _ _ _ _ _ _ _ _ _ _ _ _ _ _ _ _ SU) (xs_ev _ _ _ _ _ _ _ _ _ _ _ _ _ _ _ _ SU)
      si order u n ids base base_wage df SU).
Qed.
Print Assumptions C98_panel_with_processes.

(** The draws which lead to the levels [e] are an interval whose length is the joint
    probability. *)
Theorem C98_levels_have_their_probability : forall procs x e,
  Forall (fun p => p <> []) procs -> combination (map (fun p => length p) procs) e ->
  exists a, 0 <= a /\ a + joint procs x e <= 1 /\ 0 < joint procs x e /\
    forall u, drawn_levels procs x u e <-> a <= u < a + joint procs x e.
Proof. exact levels_interval. Qed.
Print Assumptions C98_levels_have_their_probability.

(** Simulated choices maximise the value including the expectation over the processes. *)
Theorem C98_choices_are_optimal :
  forall sp neg k grid procs ss inp ev0 ev si order u n ids base base_wage df panel,
  ev_shape ss ev0 -> solve_exog ss procs inp ev0 = Ok ev ->
  exogenous_setup sp neg k grid procs ss inp ev si order u n ids base base_wage df ->
  simulate_exog ss procs inp ev si order u n base base_wage df = Ok panel ->
  forall id t o, In ((id, t), o) panel -> in_place (choices_of sp neg k grid (o_ind o)) ->
  forall c, available (choices_of sp neg k grid (o_ind o)) c ->
    exogenous_decision_value sp neg k grid procs inp (si_beta si) t (o_ind o) (o_shocks o) c <=
    exogenous_decision_value sp neg k grid procs inp (si_beta si) t (o_ind o) (o_shocks o) (o_choice o).
Proof. exact panel_optimal_x. Qed.
Print Assumptions C98_choices_are_optimal.

(** Two individuals over three periods; a static observable with two levels and a process with
    three. *)
Example C98_example : exogenous_setup ex_sp (fun _ => None) 0 exo_grid exo_procs exo_ss exo_inp (initial_ev exo_ss)
    ex_si (fun l => l) exo_draw 3 ex_ids (ex_draws 6) (ex_draws 6) exo_df.
Proof. exact exo_simulation. Qed.
Example C98_example_solved : exists ev, solve_exog exo_ss exo_procs exo_inp (initial_ev exo_ss) = Ok ev /\
  exogenous_setup ex_sp (fun _ => None) 0 exo_grid exo_procs exo_ss exo_inp ev
    ex_si (fun l => l) exo_draw 3 ex_ids (ex_draws 6) (ex_draws 6) exo_df.
Proof. exact exo_solved. Qed.
(** With the utilities 0, 0 and 0 of the levels each level has probability one third. *)
Example C98_example_levels : drawn_levels exo_procs (fun _ => 0) (/ 2) [1%nat].
Proof.
  exists 1%nat. split; [reflexivity|]. unfold exo_procs, drawn_interval, joint, logit, linear_index, rsum. simpl.
  rewrite ?Rmult_0_l, ?Rmult_0_r, ?Rplus_0_l, ?Rplus_0_r, exp_0. split; [lia|]. lra.
Qed.
