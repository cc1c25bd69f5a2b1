(** Property theorems: the likelihood of simulated data. *)
From Coq Require Import String List Arith Bool Reals Lia Lra.
From Verif Require Import Base Model_CoreStateSpace Spec_CoreStateSpace Model_StateSpace Spec_StateSpace Props_StateSpace
  Model_Choices Model_Parallel Spec_Parallel Model_Solve Spec_Solve Proof_Solve Examples_Solve
  Model_Simulate Spec_Simulate Proof_PanelModel Examples_Simulate Model_Draws Model_ConditionalDraws Model_Likelihood Spec_Likelihood
  Model_Dataset Spec_Dataset Proof_DatasetCheck Examples_Dataset Model_Criterion Spec_Criterion Proof_Criterion Examples_Criterion.
From Verif Require Model_Data.
Import ListNotations.
Open Scope list_scope.
Open Scope nat_scope.

(** ** C127 *)
(** The likelihood of simulated data can be evaluated at any parameters. *)
Theorem C127_likelihood_of_simulated_data : forall sp neg k grid ss inp ev si order next_key n N base base_wage df panel lb,
  simulation_setup sp neg k grid ss inp ev si order n (seq 0 N) base base_wage df ->
  simulate_n_step (environment_of ss inp ev) si order next_key 0 n base base_wage df = Ok panel ->
  labelled sp grid (p_nwages (in_params inp)) lb -> 1 <= lb_ntypes lb -> 0 < n ->
  forall rc qr lk inp' ev' draws params x order_rows order_types,
  standard_model sp neg k grid ss inp' -> ev_shape ss ev' ->
  like_spec_of sp (p_nwages (in_params inp)) lk -> List.length params = lb_ntypes lb ->
  (forall key j, draws key j <> []) ->
  (forall id p o, In ((id, p), o) panel -> in_place (choices_of sp neg k grid (o_ind o))) ->
  (forall id p o t, In ((id, p), o) panel -> t < lb_ntypes lb ->
     available (choices_of sp neg k grid (as_type lb t (o_ind o))) (o_choice o)) ->
  exists v cs, criterion rc qr lk lb sp (choice_set_of sp (process sp (S k) neg)) grid ss inp' ev' draws params x
    order_rows order_types (simulated_categories lb) (simulated_data lb panel) = Ok (v, cs).
Proof. exact criterion_succeeds. Qed.
Print Assumptions C127_likelihood_of_simulated_data.

(** For each type every observation is evaluated with the choice set, the rewards and the
    continuation values of the state in which the individual was simulated. *)
Theorem C127_rows_of_states : forall sp neg k grid ss inp ev si order next_key n N base base_wage df panel lb,
  simulation_setup sp neg k grid ss inp ev si order n (seq 0 N) base base_wage df ->
  simulate_n_step (environment_of ss inp ev) si order next_key 0 n base base_wage df = Ok panel ->
  labelled sp grid (p_nwages (in_params inp)) lb -> 1 <= lb_ntypes lb -> 0 < n ->
  forall inp' ev' draws,
  standard_model sp neg k grid ss inp' -> ev_shape ss ev' ->
  exists locations,
  prepare_estimation lb sp (choice_set_of sp (process sp (S k) neg)) grid (simulated_categories lb) (simulated_data lb panel) =
    Ok (map (observation_of lb) panel, locations) /\
  forall id p o t, In ((id, p), o) panel -> t < lb_ntypes lb -> exists key pos,
    stored_location (map (observation_of lb) panel) locations (id, p) (mkObs (o_choice o) (o_wage o)) t = Ok (key, pos) /\
    entries_of sp neg k grid ss inp' ev' (likelihood_env ss inp' ev' draws) key pos p (as_type lb t (o_ind o)).
Proof. exact criterion_rows. Qed.
Print Assumptions C127_rows_of_states.

(** Two individuals over three periods in a model with two types; the likelihood is evaluated
    at other parameters than those of the simulation. *)
Example C127_example : forall rc qr x, exists panel v cs, List.length panel = 6 /\
  simulate_n_step (environment_of ex_ss ex_inp (initial_ev ex_ss)) ex_si (fun l => l) (fun _ _ k _ => k) 0 3 (ex_draws 6) (ex_draws 6) ex_panel_df = Ok panel /\
  criterion rc qr two_lk two_types ex_sp ex_csf ex_grid ex_ss other_inp (initial_ev ex_ss)
    (fun _ j => [[0%R; INR j]; [1%R; 0%R]]) [[]; [(0, 1%R)]] x (fun l => l) (fun l => l)
    (simulated_categories two_types) (simulated_data two_types panel) = Ok (v, cs).
Proof.
  intros rc qr x.
  destruct (panel_model ex_sp (fun _ => None) 0 ex_grid ex_ss ex_inp (initial_ev ex_ss) ex_standard
     (initial_ev_shape ex_ss) ex_si (fun l => l) (fun _ _ k _ => k) 3 (seq 0 2) (ex_draws 6) (ex_draws 6) ex_panel_df ex_panel_setup)
     as [panel [E [I [_ [_ RR]]]]].
  destruct (C127_likelihood_of_simulated_data _ _ _ _ _ _ _ _ _ _ _ _ _ _ _ _ _ ex_panel_setup E two_types_labelled
    ltac:(cbn; lia) ltac:(lia) rc qr two_lk other_inp (initial_ev ex_ss) (fun _ j => [[0%R; INR j]; [1%R; 0%R]]) [[]; [(0, 1%R)]] x
    (fun l => l) (fun l => l) other_standard (initial_ev_shape ex_ss) two_lk_of eq_refl ltac:(discriminate)
    (fun id p o _ => ex_all_in_place (o_ind o))) as [v [cs C]].
  - intros id p o t H _. destruct (In_nth_error _ _ H) as [j Hj].
    destruct (proj2 (proj2 (panel_facts _ _ _ _ _ _ _ _ _ _ _ _ _ _ _ _ ex_panel_setup E)) id p o H) as [s [m R]].
    rewrite (same_choices (as_type two_types t (o_ind o)) (o_ind o) eq_refl).
    exact (rr_available _ _ _ _ _ _ _ _ _ _ _ _ R).
  - exists panel, v, cs. split; [rewrite <- (map_length fst), I; reflexivity|]. split; [exact E|exact C].
Qed.
