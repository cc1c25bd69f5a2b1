(** Property theorems: units and level of rewards. *)
From Coq Require Import List Arith Bool Reals Lia Lra.
From Verif Require Import Base Proof_Base Model_CoreStateSpace Spec_CoreStateSpace Model_StateSpace
  Spec_StateSpace Proof_CoreStateSpace Proof_StateSpace Model_Solve Spec_Solve Proof_Solve Proof_Value
  Proof_SolveProps Props_StateSpace Examples_Solve
  Model_Parallel Spec_Parallel Model_Simulate Spec_Simulate Proof_Simulate
  Proof_PanelModel Proof_SimulateProps Proof_DatasetCheck Spec_Paths Proof_Paths Model_Likelihood Spec_Units Proof_Units
  Examples_Units.
Import ListNotations.
Open Scope R_scope.

(** ** C95 *)
Theorem C95_expected_values : forall sp neg k grid ss inp inp' ev0 ev0' ev ev' s d ctx v v' lam,
  standard_model sp neg k grid ss inp -> standard_model sp neg k grid ss inp' ->
  0 <= lam -> rewards_scaled lam inp inp' ->
  ev_shape ss ev0 -> ev_shape ss ev0' ->
  solve_with_backward_induction ss inp ev0 = Ok ev ->
  solve_with_backward_induction ss inp' ev0' = Ok ev' ->
  In s (create_core_state_space sp) -> dense_combination grid d ctx ->
  value_at ss ev s d v -> value_at ss ev' s d v' -> v' = lam * v.
Proof. exact stored_scaled. Qed.
Print Assumptions C95_expected_values.

Theorem C95_simulated_paths : forall sp neg k grid ss inp inp' ev0 ev0' ev ev' si si' lam
    order order' next_key next_key' n ids base bw df panel panel',
  0 < lam -> rewards_scaled lam inp inp' -> same_but_params si si' ->
  ev_shape ss ev0 -> ev_shape ss ev0' ->
  solve_with_backward_induction ss inp ev0 = Ok ev -> solve_with_backward_induction ss inp' ev0' = Ok ev' ->
  simulation_setup sp neg k grid ss inp ev si order n ids base bw df ->
  simulation_setup sp neg k grid ss inp' ev' si' order' n ids base bw df ->
  simulate_n_step (environment_of ss inp ev) si order next_key 0 n base bw df = Ok panel ->
  simulate_n_step (environment_of ss inp' ev') si' order' next_key' 0 n base bw df = Ok panel' ->
  map fst panel' = map fst panel /\
  forall id t o o', In ((id, t), o) panel -> In ((id, t), o') panel' ->
    o_ind o' = o_ind o /\ o_choice o' = o_choice o /\
    o_values o' = map (Rmult lam) (o_values o) /\ o_wage o' = option_map (Rmult lam) (o_wage o).
Proof. exact simulation_scaled. Qed.
Print Assumptions C95_simulated_paths.

(** The parameters which express a model in other units. *)
Theorem C95_parameters : forall lam const inp inp',
  0 < lam -> has_constant const (in_params inp) -> wages_first (in_params inp) ->
  (forall ctx s, in_cov inp ctx s const = 1) ->
  in_params inp' = change_units lam const (in_params inp) -> in_base inp' = in_base inp -> in_cov inp' = in_cov inp ->
  rewards_scaled lam inp inp'.
Proof. exact change_units_scaled. Qed.
Print Assumptions C95_parameters.

(** Smoothed choice probabilities with the smoothing parameter in the same units. *)
Theorem C95_choice_probabilities : forall lam wages wages' nonpec nonpec' cont cont' draws draws' delta c tau,
  0 < lam -> values_scaled lam wages wages' nonpec nonpec' cont cont' draws draws' ->
  simulate_log_probability wages' nonpec' cont' draws' delta c (lam * tau) =
  simulate_log_probability wages nonpec cont draws delta c tau.
Proof. exact probability_scaled. Qed.
Print Assumptions C95_choice_probabilities.

Example C95_example : has_constant 0 (in_params (wage_inp wage_params)) /\ wages_first (in_params (wage_inp wage_params)) /\
  (forall ctx s, in_cov (wage_inp wage_params) ctx s 0 = 1) /\
  rewards_scaled 2 (wage_inp wage_params) (wage_inp (change_units 2 0 wage_params)) /\
  standard_model un_sp (fun _ => None) 0 [] un_ss (wage_inp wage_params) /\
  standard_model un_sp (fun _ => None) 0 [] un_ss (wage_inp (change_units 2 0 wage_params)).
Proof.
  assert (HC : has_constant 0 wage_params).
  { intros c b H. simpl in H. destruct (Nat.eqb c 0); [injection H as <-; reflexivity|discriminate]. }
  assert (WF : wages_first wage_params).
  { intros c. simpl. destruct c as [|c]; simpl; split; intros; try lia; congruence. }
  split; [exact HC|]. split; [exact WF|]. split; [reflexivity|].
  split; [apply (change_units_scaled 2 0); auto; lra|].
  split; (destruct (un_standard 0) as [A1 A2 A3 A4 A5 A6 A7 A8]; constructor; auto;
    split; [reflexivity|]; intros row [<-|[<-|[]]]; reflexivity).
Qed.
Example C95_example_probabilities :
  values_scaled 2 [3; 1] [6; 1] [0; 1] [0; 2] [5; 4] [10; 8] [[1; 2]; [0; 1]] [[1; 4]; [0; 2]].
Proof.
  repeat (split; [reflexivity|]). split; [intros [|[|[|j]]]; simpl; lra|]. split; [intros [|[|[|j]]]; simpl; lra|].
  repeat constructor; intros [|[|[|j]]]; simpl; lra.
Qed.
Example C95_example_simulation : exists ev panel o,
  solve_with_backward_induction un_ss (un_inp 20) (initial_ev un_ss) = Ok ev /\
  simulation_setup un_sp (fun _ => None) 0 [] un_ss (un_inp 20) ev (un_si 20) (fun l => l) 2 [0%nat] un_draws un_draws un_df /\
  simulate_n_step (environment_of un_ss (un_inp 20) ev) (un_si 20) (fun l => l) (fun _ _ k _ => k) 0 2 un_draws un_draws un_df = Ok panel /\
  In ((0%nat, 0%nat), o) panel.
Proof.
  destruct (un_simulated 20 (fun _ _ k _ => k)) as [ev [panel [o [E [SU [P [Ho _]]]]]]].
  exists ev, panel, o. auto.
Qed.

(** ** C96 *)
Theorem C96_expected_values : forall sp neg k grid ss inp inp' ev0 ev0' ev ev' s d ctx v v' kappa,
  standard_model sp neg k grid ss inp -> standard_model sp neg k grid ss inp' ->
  0 <= kappa -> 0 < p_delta (in_params inp) -> rewards_shifted kappa inp inp' ->
  (forall n p, in_base inp n p <> []) ->
  some_nonnegative (create_core_state_space sp) (sp_nperiods sp) (problem_of sp neg k inp ctx) (p_delta (in_params inp)) ->
  ev_shape ss ev0 -> ev_shape ss ev0' ->
  solve_with_backward_induction ss inp ev0 = Ok ev ->
  solve_with_backward_induction ss inp' ev0' = Ok ev' ->
  In s (create_core_state_space sp) -> dense_combination grid d ctx ->
  value_at ss ev s d v -> value_at ss ev' s d v' ->
  v' = v + kappa * geometric (p_delta (in_params inp)) (sp_nperiods sp - cs_period s).
Proof. exact stored_shifted. Qed.
Print Assumptions C96_expected_values.

Theorem C96_simulated_paths : forall sp neg k grid ss inp inp' ev0 ev0' ev ev' si si' kappa
    order order' next_key next_key' n ids base bw df panel panel',
  0 <= kappa -> 0 <= p_delta (in_params inp) -> rewards_shifted kappa inp inp' -> same_but_params si si' ->
  (forall n p, in_base inp n p <> []) ->
  (forall ctx, some_nonnegative (create_core_state_space sp) (sp_nperiods sp) (problem_of sp neg k inp ctx) (p_delta (in_params inp))) ->
  ev_shape ss ev0 -> ev_shape ss ev0' ->
  solve_with_backward_induction ss inp ev0 = Ok ev -> solve_with_backward_induction ss inp' ev0' = Ok ev' ->
  simulation_setup sp neg k grid ss inp ev si order n ids base bw df ->
  simulation_setup sp neg k grid ss inp' ev' si' order' n ids base bw df ->
  simulate_n_step (environment_of ss inp ev) si order next_key 0 n base bw df = Ok panel ->
  simulate_n_step (environment_of ss inp' ev') si' order' next_key' 0 n base bw df = Ok panel' ->
  map fst panel' = map fst panel /\
  forall id t o o', In ((id, t), o) panel -> In ((id, t), o') panel' ->
    o_ind o' = o_ind o /\ o_choice o' = o_choice o /\ o_wage o' = o_wage o.
Proof. exact simulation_shifted. Qed.
Print Assumptions C96_simulated_paths.

(** Smoothed choice probabilities depend on differences of values only. *)
Theorem C96_choice_probabilities : forall kappa kc wages nonpec cont draws delta c tau,
  same_lengths wages nonpec cont draws -> (c < length wages)%nat -> draws <> [] -> tau <> 0 ->
  simulate_log_probability wages (map (fun x => x + kappa) nonpec) (map (fun x => x + kc) cont) draws delta c tau =
  simulate_log_probability wages nonpec cont draws delta c tau.
Proof. exact probability_shifted. Qed.
Print Assumptions C96_choice_probabilities.

(** With negative values, choices depend on the level of rewards. *)
Theorem C96_level_of_rewards_refuted :
  exists sp neg k grid ss inp inp' ev0 ev ev' si si' kappa order next_key n ids base bw df panel panel',
  0 <= kappa /\ 0 < p_delta (in_params inp) /\ rewards_shifted kappa inp inp' /\ same_but_params si si' /\
  (forall n p, in_base inp n p <> []) /\ ev_shape ss ev0 /\
  solve_with_backward_induction ss inp ev0 = Ok ev /\ solve_with_backward_induction ss inp' ev0 = Ok ev' /\
  simulation_setup sp neg k grid ss inp ev si order n ids base bw df /\
  simulation_setup sp neg k grid ss inp' ev' si' order n ids base bw df /\
  simulate_n_step (environment_of ss inp ev) si order next_key 0 n base bw df = Ok panel /\
  simulate_n_step (environment_of ss inp' ev') si' order next_key 0 n base bw df = Ok panel' /\
  exists id t o o', In ((id, t), o) panel /\ In ((id, t), o') panel' /\ o_ind o' = o_ind o /\ o_choice o' <> o_choice o.
Proof. exact un_level_refuted. Qed.
Print Assumptions C96_level_of_rewards_refuted.

Example C96_example : rewards_shifted (30 - 20) (un_inp 20) (un_inp 30) /\
  (forall n p, in_base (un_inp 20) n p <> []) /\
  (forall ctx, some_nonnegative (create_core_state_space un_sp) (sp_nperiods un_sp)
     (problem_of un_sp (fun _ => None) 0 (un_inp 20) ctx) (p_delta (in_params (un_inp 20)))) /\
  same_but_params (un_si 20) (un_si 30) /\
  standard_model un_sp (fun _ => None) 0 [] un_ss (un_inp 20) /\ standard_model un_sp (fun _ => None) 0 [] un_ss (un_inp 30).
Proof.
  split; [apply un_shifted|]. split; [intros n p; simpl; discriminate|].
  split; [intros ctx; apply un_nonnegative; lra|]. split; [repeat split|]. split; apply un_standard.
Qed.
Example C96_example_probabilities : same_lengths [3; 1] [0; 1] [5; 4] [[1; 2]; [0; 1]] /\ (1 < length [3; 1])%nat.
Proof. split; [|simpl; lia]. split; [reflexivity|]. split; [reflexivity|]. intros e [<-|[<-|[]]]; reflexivity. Qed.
