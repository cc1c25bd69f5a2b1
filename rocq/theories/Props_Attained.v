(** Property theorems: what simulated individuals get on average. *)
From Coq Require Import List Arith Bool Reals Lra Lia.
From Verif Require Import Base Model_CoreStateSpace Spec_CoreStateSpace Model_StateSpace Spec_StateSpace Props_StateSpace Model_Solve Spec_Solve
  Proof_Solve Examples_Solve Model_Parallel Spec_Parallel Model_Simulate Spec_Simulate Spec_Paths Spec_Attained Proof_Attained Examples_Attained.
Import ListNotations.
Local Open Scope R_scope.

(** ** C123 *)
(** With any present bias. *)
Theorem C123_average_is_at_most_the_expected_value :
  forall sp neg k grid ss inp ev0 ev si order next_key ids base base_wage df panel B D x,
  0 < p_delta (in_params inp) -> ev_shape ss ev0 -> solve_with_backward_induction ss inp ev0 = Ok ev ->
  simulation_setup sp neg k grid ss inp ev si order (sp_nperiods sp) ids base base_wage df ->
  every_sequence sp neg k grid inp B D (sp_nperiods sp) ids base df x ->
  simulate_n_step (environment_of ss inp ev) si order next_key 0 (sp_nperiods sp) base base_wage df = Ok panel ->
  forall d v, dense_combination grid d (context grid x) -> value_at ss ev (i_core x) d v ->
  mean (map (lifetime_utility sp neg k grid inp panel (sp_nperiods sp)) ids) <= v.
Proof. exact average_le. Qed.
Print Assumptions C123_average_is_at_most_the_expected_value.

Theorem C123_average_is_the_expected_value :
  forall sp neg k grid ss inp ev0 ev si order next_key ids base base_wage df panel B D x,
  0 < p_delta (in_params inp) -> ev_shape ss ev0 -> solve_with_backward_induction ss inp ev0 = Ok ev ->
  simulation_setup sp neg k grid ss inp ev si order (sp_nperiods sp) ids base base_wage df ->
  every_sequence sp neg k grid inp B D (sp_nperiods sp) ids base df x ->
  simulate_n_step (environment_of ss inp ev) si order next_key 0 (sp_nperiods sp) base base_wage df = Ok panel ->
  forall d v, dense_combination grid d (context grid x) -> value_at ss ev (i_core x) d v ->
  si_beta si = 1 ->
  (forall s, In s (create_core_state_space sp) -> in_place (choice_set_of sp (process sp (S k) neg) (context grid x) s)) ->
  some_choice_pays sp neg k inp (context grid x) ->
  mean (map (lifetime_utility sp neg k grid inp panel (sp_nperiods sp)) ids) = v.
Proof. exact average_eq. Qed.
Print Assumptions C123_average_is_the_expected_value.

(** If no choice pays the average is lower. *)
Theorem C123_without_paying_choices_refuted :
  exists sp neg k grid ss inp ev0 ev si order next_key ids base base_wage df panel B D x d v,
  0 < p_delta (in_params inp) /\ ev_shape ss ev0 /\ solve_with_backward_induction ss inp ev0 = Ok ev /\
  simulation_setup sp neg k grid ss inp ev si order (sp_nperiods sp) ids base base_wage df /\
  every_sequence sp neg k grid inp B D (sp_nperiods sp) ids base df x /\
  simulate_n_step (environment_of ss inp ev) si order next_key 0 (sp_nperiods sp) base base_wage df = Ok panel /\
  dense_combination grid d (context grid x) /\ value_at ss ev (i_core x) d v /\ si_beta si = 1 /\
  (forall s, In s (create_core_state_space sp) -> in_place (choice_set_of sp (process sp (S k) neg) (context grid x) s)) /\
  mean (map (lifetime_utility sp neg k grid inp panel (sp_nperiods sp)) ids) < v.
Proof. exact average_below. Qed.
Print Assumptions C123_without_paying_choices_refuted.

(** Three periods with two draws each, eight individuals. *)
Example C123_example : 0 < p_delta (in_params ex_inp) /\
  (forall ev, ev_shape ex_ss ev ->
     simulation_setup ex_sp (fun _ => None) 0 ex_grid ex_ss ex_inp ev att_si (fun l => l) (sp_nperiods ex_sp) att_ids att_base att_base att_df) /\
  every_sequence ex_sp (fun _ => None) 0 ex_grid ex_inp att_B 2 (sp_nperiods ex_sp) att_ids att_base att_df att_x /\
  si_beta att_si = 1 /\ some_choice_pays ex_sp (fun _ => None) 0 ex_inp (context ex_grid att_x) /\
  (forall s, In s (create_core_state_space ex_sp) -> in_place (choice_set_of ex_sp (process ex_sp 1 (fun _ => None)) (context ex_grid att_x) s)) /\
  dense_combination ex_grid (Some 1%nat) (context ex_grid att_x) /\ length att_ids = 8%nat.
Proof.
  split; [simpl; lra|]. split; [exact att_setup|]. split; [exact att_every|]. split; [reflexivity|].
  split; [exact att_pays|]. split; [exact att_in_place|]. split; [exists [1%nat]; split; reflexivity|reflexivity].
Qed.
