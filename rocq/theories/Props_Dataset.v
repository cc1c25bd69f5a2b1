(** Property theorems: initial conditions and the data sets of simulations. *)
From Coq Require Import List Arith ZArith Bool String Reals Lia Lra.
From Verif Require Import Base Model_CoreStateSpace Spec_CoreStateSpace Model_StateSpace Spec_StateSpace Props_StateSpace
  Model_Choices Model_Processing Model_Parallel Spec_Parallel Model_Solve Spec_Solve Proof_Solve Examples_Solve
  Model_Simulate Spec_Simulate Examples_Simulate Model_Dataset Spec_Dataset Proof_Dataset Proof_DatasetCheck Proof_DatasetEstimation Proof_DatasetMeaning
  Examples_Dataset.
From Verif Require Model_Data.
Import ListNotations.
Open Scope list_scope.
Open Scope nat_scope.

(** ** C87 *)
(** Missing characteristics are sampled, given ones are kept, and the result is a state of
    the model. *)
Theorem C87_sampled_rows_are_states : forall sp grid ic,
  wf_spec sp -> sp_nlags sp <= 1 -> filters_keep_start sp -> 0 < sp_nperiods sp -> declared sp grid ic -> starts_below_maximum sp ->
  forall x u g, uniform u -> given_ok sp ic g ->
  exists i, extend_row ic x u g = Ok i /\ in_model (create_core_state_space sp) grid 0 i /\ kept g ic i.
Proof. exact row_sampled. Qed.
Print Assumptions C87_sampled_rows_are_states.

(** Exactly the states of the first period can be sampled. *)
Theorem C87_exactly_the_first_states : forall sp grid ic,
  wf_spec sp -> sp_nlags sp <= 1 -> filters_keep_start sp -> 0 < sp_nperiods sp -> declared sp grid ic -> starts_below_maximum sp ->
  forall x i, (exists u, uniform u /\ extend_row ic x u nothing_given = Ok i) <->
    in_model (create_core_state_space sp) grid 0 i /\ (grid = [] -> i_dense i = []).
Proof. exact initial_states_iff. Qed.
Print Assumptions C87_exactly_the_first_states.

(** The simulation of sampled individuals does not fail. *)
Theorem C87_sampled_individuals_are_simulated : forall sp neg k grid ss inp ev ic si order next_key n N base base_wage x u,
  standard_model sp neg k grid ss inp -> ev_shape ss ev -> 0 < sp_nperiods sp -> filters_keep_start sp ->
  declared sp grid ic -> starts_below_maximum sp ->
  si_params si = in_params inp -> si_choices si = in_choices inp -> List.length (si_meas si) = sp_nchoices sp ->
  iteration_order order -> n <= sp_nperiods sp -> 0 < N ->
  draws_shape (N * n) (sp_nchoices sp) base -> draws_shape (N * n) (sp_nchoices sp) base_wage ->
  (forall s y, In s (create_core_state_space sp) -> match grid with [] => True | _ => In (i_dense y) grid end ->
     exists c, available (choices_of sp neg k grid (mkInd s (i_dense y))) c) ->
  (forall j, uniform (u j)) ->
  exists df panel, sampled_individuals ic x u N = Ok df /\
    simulation_setup sp neg k grid ss inp ev si order n (seq 0 N) base base_wage df /\
    simulate_n_step (environment_of ss inp ev) si order next_key 0 n base base_wage df = Ok panel /\
    map fst panel = panel_index (seq 0 N) n.
Proof. exact sampled_simulation. Qed.
Print Assumptions C87_sampled_individuals_are_simulated.

(** Initial experience above the maximum is sampled but is not a state. *)
Theorem C87_start_above_maximum_refuted : exists sp grid ic,
  wf_spec sp /\ sp_nlags sp <= 1 /\ sp_filters sp = [] /\ 0 < sp_nperiods sp /\ declared sp grid ic /\
  forall x u, uniform u ->
    exists i, extend_row ic x u nothing_given = Ok i /\ ~ in_model (create_core_state_space sp) grid 0 i.
Proof. exact high_start. Qed.
Print Assumptions C87_start_above_maximum_refuted.

Example C87_example : wf_spec ex_sp /\ sp_nlags ex_sp <= 1 /\ filters_keep_start ex_sp /\ 0 < sp_nperiods ex_sp /\
  declared ex_sp ex_grid ex_ic /\ starts_below_maximum ex_sp /\ uniform ex_u /\ given_ok ex_sp ex_ic ex_partial /\
  List.length (filter (fun s => Nat.eqb (cs_period s) 0) (create_core_state_space ex_sp)) = 2.
Proof.
  split; [exact (sm_wf _ _ _ _ _ _ ex_standard)|]. split; [simpl; lia|]. split; [intros f lags []|]. split; [simpl; lia|].
  split; [exact ex_declared|]. split; [exact ex_starts|]. split; [exact ex_uniform|]. split; [exact ex_given|]. vm_compute. reflexivity.
Qed.
Example C87_example_simulated : exists df panel, sampled_individuals ex_ic (fun _ _ _ => 0%R) (fun _ => ex_u) 2 = Ok df /\
  simulate_n_step (environment_of ex_ss ex_inp (initial_ev ex_ss)) ex_si (fun l => l) (fun _ _ k _ => k) 0 3 (ex_draws 6) (ex_draws 6) df = Ok panel.
Proof.
  destruct (C87_sampled_individuals_are_simulated ex_sp (fun _ => None) 0 ex_grid ex_ss ex_inp (initial_ev ex_ss) ex_ic ex_si
    (fun l => l) (fun _ _ k _ => k) 3 2 (ex_draws 6) (ex_draws 6) (fun _ _ _ => 0%R) (fun _ => ex_u)) as [df [panel [E [_ [R _]]]]].
  - exact ex_standard.
  - apply initial_ev_shape.
  - simpl; lia.
  - intros f lags [].
  - exact ex_declared.
  - exact ex_starts.
  - reflexivity.
  - reflexivity.
  - reflexivity.
  - intros l. apply Permutation.Permutation_refl.
  - apply le_n.
  - lia.
  - apply ex_draws_shape.
  - apply ex_draws_shape.
  - intros s y Hs Hy. exact (ex_choice_exists s (mkInd s (i_dense y)) Hs Hy).
  - intros j. exact ex_uniform.
  - eauto.
Qed.

(** ** C88 *)
Theorem C88_panels_pass_the_check_of_data : forall sp neg k grid ss inp ev si order next_key n N base base_wage df panel lb,
  simulation_setup sp neg k grid ss inp ev si order n (seq 0 N) base base_wage df ->
  simulate_n_step (environment_of ss inp ev) si order next_key 0 n base base_wage df = Ok panel ->
  labelled sp grid (p_nwages (in_params inp)) lb -> 0 < n ->
  Model_Data.check_estimation_data (info_of lb) (simulated_categories lb) (simulated_data lb panel) = Ok tt.
Proof. exact estimation_check. Qed.
Print Assumptions C88_panels_pass_the_check_of_data.

(** The check of simulated data in addition needs wages for exactly the recorded choices
    with wages. *)
Theorem C88_check_of_simulations_iff : forall sp neg k grid ss inp ev si order next_key n N base base_wage df panel lb,
  simulation_setup sp neg k grid ss inp ev si order n (seq 0 N) base base_wage df ->
  simulate_n_step (environment_of ss inp ev) si order next_key 0 n base base_wage df = Ok panel ->
  labelled sp grid (p_nwages (in_params inp)) lb -> 0 < n ->
  (Model_Data.check_simulated_data (info_of lb) (simulated_categories lb) (simulated_data lb panel) = Ok tt <->
   forall id t o, In ((id, t), o) panel -> ((exists w, o_wage o = Some w) <-> o_choice o < p_nwages (in_params inp))).
Proof. exact simulated_check_iff. Qed.
Print Assumptions C88_check_of_simulations_iff.

Theorem C88_panels_pass_the_check_of_simulations : forall sp neg k grid ss inp ev si order next_key n N base base_wage df panel lb,
  simulation_setup sp neg k grid ss inp ev si order n (seq 0 N) base base_wage df ->
  simulate_n_step (environment_of ss inp ev) si order next_key 0 n base base_wage df = Ok panel ->
  labelled sp grid (p_nwages (in_params inp)) lb -> 0 < n ->
  (forall id t o, In ((id, t), o) panel -> in_place (choices_of sp neg k grid (o_ind o))) ->
  Model_Data.check_simulated_data (info_of lb) (simulated_categories lb) (simulated_data lb panel) = Ok tt.
Proof. exact simulated_check. Qed.
Print Assumptions C88_panels_pass_the_check_of_simulations.

(** With other choice sets the simulation does not pass its own check. *)
Theorem C88_other_choice_sets_refuted : exists sp neg k grid ss inp ev si order next_key n N base base_wage df panel lb,
  simulation_setup sp neg k grid ss inp ev si order n (seq 0 N) base base_wage df /\
  simulate_n_step (environment_of ss inp ev) si order next_key 0 n base base_wage df = Ok panel /\
  labelled sp grid (p_nwages (in_params inp)) lb /\ 0 < n /\
  Model_Data.check_simulated_data (info_of lb) (simulated_categories lb) (simulated_data lb panel) <> Ok tt.
Proof. exact bad_simulation. Qed.
Print Assumptions C88_other_choice_sets_refuted.

Example C88_example : exists panel, List.length panel = 6 /\
  simulation_setup ex_sp (fun _ => None) 0 ex_grid ex_ss ex_inp (initial_ev ex_ss)
    ex_si (fun l => l) 3 (seq 0 2) (ex_draws 6) (ex_draws 6) ex_panel_df /\
  simulate_n_step (environment_of ex_ss ex_inp (initial_ev ex_ss)) ex_si (fun l => l) (fun _ _ k _ => k) 0 3 (ex_draws 6) (ex_draws 6) ex_panel_df = Ok panel /\
  labelled ex_sp ex_grid (p_nwages (in_params ex_inp)) ex_labels /\
  (forall id t o, In ((id, t), o) panel -> in_place (choices_of ex_sp (fun _ => None) 0 ex_grid (o_ind o))).
Proof.
  destruct (Proof_PanelModel.panel_model ex_sp (fun _ => None) 0 ex_grid ex_ss ex_inp (initial_ev ex_ss) ex_standard
     (initial_ev_shape ex_ss) ex_si (fun l => l) (fun _ _ k _ => k) 3 (seq 0 2) (ex_draws 6) (ex_draws 6) ex_panel_df ex_panel_setup)
     as [panel [E [I _]]].
  exists panel. split; [rewrite <- (map_length fst), I; reflexivity|]. split; [exact ex_panel_setup|]. split; [exact E|].
  split; [exact ex_labelled|]. intros id t o _. apply ex_all_in_place.
Qed.

(** ** C89 *)
(** Processing the data of a simulation gives back the states, choices and wages. *)
Theorem C89_data_are_recovered : forall sp neg k grid ss inp ev si order next_key n N base base_wage df panel lb,
  simulation_setup sp neg k grid ss inp ev si order n (seq 0 N) base base_wage df ->
  simulate_n_step (environment_of ss inp ev) si order next_key 0 n base base_wage df = Ok panel ->
  labelled sp grid (p_nwages (in_params inp)) lb ->
  process_data lb (simulated_data lb panel) = Ok (map (observation_of lb) panel).
Proof. exact data_processed. Qed.
Print Assumptions C89_data_are_recovered.

(** The estimation starts without an error and, for the true type of an individual, looks
    every observation up in the row of the state in which it was simulated. *)
Theorem C89_states_are_recovered : forall sp neg k grid ss inp ev si order next_key n N base base_wage df panel lb,
  simulation_setup sp neg k grid ss inp ev si order n (seq 0 N) base base_wage df ->
  simulate_n_step (environment_of ss inp ev) si order next_key 0 n base base_wage df = Ok panel ->
  labelled sp grid (p_nwages (in_params inp)) lb -> 0 < n ->
  exists locations,
    prepare_estimation lb sp (choice_set_of sp (process sp (S k) neg)) grid (simulated_categories lb) (simulated_data lb panel) =
      Ok (map (observation_of lb) panel, locations) /\
    List.length locations = (if Nat.leb 2 (lb_ntypes lb) then lb_ntypes lb else 1) * List.length panel /\
    forall j r, nth_error panel j = Some r -> exists kr,
      locate ss (i_core (o_ind (snd r))) (i_dense (o_ind (snd r))) = Ok kr /\
      nth_error locations (type_of lb (o_ind (snd r)) * List.length panel + j) = Some kr.
Proof. exact estimation_prepared. Qed.
Print Assumptions C89_states_are_recovered.

Example C89_example : exists panel locations,
  simulate_n_step (environment_of ex_ss ex_inp (initial_ev ex_ss)) ex_si (fun l => l) (fun _ _ k _ => k) 0 3 (ex_draws 6) (ex_draws 6) ex_panel_df = Ok panel /\
  prepare_estimation ex_labels ex_sp (choice_set_of ex_sp (process ex_sp 1 (fun _ => None))) ex_grid
    (simulated_categories ex_labels) (simulated_data ex_labels panel) = Ok (map (observation_of ex_labels) panel, locations) /\
  List.length locations = 6.
Proof.
  destruct C88_example as [panel [L [SU [E [LA _]]]]].
  destruct (C89_states_are_recovered _ _ _ _ _ _ _ _ _ _ _ _ _ _ _ _ _ SU E LA ltac:(lia)) as [loc [P [LL _]]].
  exists panel, loc. split; [exact E|]. split; [exact P|]. rewrite LL, L. reflexivity.
Qed.

(** ** C97 *)
(** Data that are accepted keep their meaning: there is one observation per row, in the order of
    identifiers and periods (C89), and the codes of an observation stand for the labels of its row. *)
Theorem C97_data_keep_their_meaning : forall lb sp csf grid categories data df locations,
  proper_labels lb -> (forall r, In r data -> numbers_are_levels lb r) ->
  prepare_estimation lb sp csf grid categories data = Ok (df, locations) ->
  exists rows, Forall2 (same_meaning lb) data rows /\ Permutation.Permutation rows df.
Proof. exact estimation_meaning. Qed.
Print Assumptions C97_data_keep_their_meaning.

(** Rows in which choices or states are missing, unknown or negative are never accepted. *)
Theorem C97_missing_values_are_rejected : forall lb sp csf grid categories data r,
  In r data -> meaningless lb r -> forall out, prepare_estimation lb sp csf grid categories data <> Ok out.
Proof. exact estimation_rejected. Qed.
Print Assumptions C97_missing_values_are_rejected.

Example C97_example : exists df locations rows,
  prepare_estimation fish_labels fish_sp (choice_set_of fish_sp (process fish_sp 1 (fun _ => None))) (dense_state_space_grid [2] 1)
    (simulated_categories fish_labels) [fish_row (Number 20)] = Ok (df, locations) /\ df <> [] /\
  Forall2 (same_meaning fish_labels) [fish_row (Number 20)] rows /\ Permutation.Permutation rows df.
Proof.
  destruct fish_prepared as [df [locations [E NE]]].
  destruct (C97_data_keep_their_meaning _ _ _ _ _ _ _ _ fish_proper fish_levels E) as [rows [F P]].
  exists df, locations, rows. auto.
Qed.
Example C97_example_rejected : forall out,
  prepare_estimation fish_labels fish_sp (choice_set_of fish_sp (process fish_sp 1 (fun _ => None))) (dense_state_space_grid [2] 1)
    (simulated_categories fish_labels) [Model_Data.mkRow 0 0 None None [] [] [Some (Number 20)] None] <> Ok out.
Proof.
  apply (C97_missing_values_are_rejected fish_labels _ _ _ _ _ (Model_Data.mkRow 0 0 None None [] [] [Some (Number 20)] None)).
  - left. reflexivity.
  - left. reflexivity.
Qed.

(** Numbers that are no level of the observable are accepted if they are few enough, and are
    taken as codes: the value 1 of an observable with levels 10 and 20 is treated as 20. *)
Theorem C97_unknown_levels_refuted : exists lb sp csf grid categories r df locations c,
  proper_labels lb /\ prepare_estimation lb sp csf grid categories [r] = Ok (df, locations) /\ In c df /\
  nth 0 (Model_Data.r_obs r) None = Some (Number 1) /\ nth_error (lb_observables lb) 0 = Some [Number 10; Number 20] /\
  nth_error (cd_obs (snd c)) 0 = Some 1 /\ nth_error [Number 10; Number 20] 1 = Some (Number 20).
Proof. exact unknown_number. Qed.
Print Assumptions C97_unknown_levels_refuted.
