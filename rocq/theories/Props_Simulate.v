(** Property theorems: simulation. *)
From Coq Require Import List Arith Bool Reals Lra Lia Sorted.
From Verif Require Import Base Proof_Base Model_CoreStateSpace Spec_CoreStateSpace
  Model_StateSpace Spec_StateSpace Props_StateSpace Model_Solve Spec_Solve Proof_Solve Examples_Solve
  Model_Parallel Spec_Parallel Model_Simulate Spec_Simulate Proof_Simulate Proof_Panel
  Proof_PanelModel Proof_SimulateProps Examples_Simulate.
Import ListNotations.
Open Scope R_scope.

(** ** C20 *)
Theorem C20_recorded_choice_is_available : forall choices cs vals,
  NoDup choices -> length cs = length choices -> length vals = count_true cs ->
  forall c, record_choice choices cs vals = Some c -> available cs c.
Proof. exact record_available. Qed.
Print Assumptions C20_recorded_choice_is_available.

Theorem C20_recorded_choice_maximises : forall choices cs vals,
  NoDup choices -> length cs = length choices -> length vals = count_true cs ->
  in_place cs -> forall c, record_choice choices cs vals = Some c -> maximises cs vals c.
Proof. exact record_best. Qed.
Print Assumptions C20_recorded_choice_maximises.

Theorem C20_other_choice_sets_refuted : forall choices cs, NoDup choices ->
  length cs = length choices -> ~ in_place cs ->
  exists vals c c', length vals = count_true cs /\ strict_maximiser cs vals c /\
    record_choice choices cs vals = Some c' /\ c' <> c.
Proof. exact record_wrong. Qed.
Print Assumptions C20_other_choice_sets_refuted.

(** The whole panel of a solved model: recorded choices are optimal. *)
Theorem C20_simulated_choices_are_optimal :
  forall sp neg k grid ss inp ev0 ev si order next_key n ids base base_wage df panel,
  ev_shape ss ev0 -> solve_with_backward_induction ss inp ev0 = Ok ev ->
  simulation_setup sp neg k grid ss inp ev si order n ids base base_wage df ->
  simulate_n_step (environment_of ss inp ev) si order next_key 0 n base base_wage df = Ok panel ->
  forall id t o, In ((id, t), o) panel -> in_place (choices_of sp neg k grid (o_ind o)) ->
  forall c, available (choices_of sp neg k grid (o_ind o)) c ->
    decision_value sp neg k grid inp (si_beta si) t (o_ind o) (o_shocks o) c <=
    decision_value sp neg k grid inp (si_beta si) t (o_ind o) (o_shocks o) (o_choice o).
Proof. exact panel_optimal. Qed.
Print Assumptions C20_simulated_choices_are_optimal.

(** A choice set with one unavailable choice at the beginning of two is in place, the same
    at the beginning of three is not. *)
Example C20_example : in_place [false; true] /\ ~ in_place [false; true; true] /\
  record_choice [0%nat; 1%nat] [false; true] [5] = Some 1%nat.
Proof.
  split; [|split].
  - intros [|[|j]] c H; simpl in H; try discriminate. injection H as <-. right. simpl. lia.
  - intros H. destruct (H 0%nat 1%nat eq_refl) as [E|E]; simpl in E; lia.
  - reflexivity.
Qed.
(** The second of three choices has the highest value, the third one is recorded. *)
Example C20_example_refuted :
  strict_maximiser [false; true; true] [3; 2] 1%nat /\
  record_choice [0%nat; 1%nat; 2%nat] [false; true; true] [3; 2] = Some 2%nat.
Proof.
  split.
  - exists 0%nat, 3. split; [reflexivity|]. split; [reflexivity|].
    intros [|[|j']] v' H N; simpl in H; try congruence; [|destruct j'; discriminate]. injection H as <-. lra.
  - unfold record_choice, argmax, argmax_from. destruct (Rlt_dec 3 2); [lra|]. reflexivity.
Qed.
Example C20_example_panel : exists ev,
  solve_with_backward_induction ex_ss ex_inp (initial_ev ex_ss) = Ok ev /\
  simulation_setup ex_sp (fun _ => None) 0 ex_grid ex_ss ex_inp ev
    ex_si (fun l => l) 3 ex_ids (ex_draws 6) (ex_draws 6) ex_df.
Proof. exact ex_solved. Qed.

(** ** C21 *)
(** One row of a period: value functions, choice and wage. *)
Theorem C21_wage_of_the_maximising_choice :
  forall n si next cx wages nonpecs conts i r w np c,
  let cs := cx_choice_set cx in
  let p := si_params si in
  square n (p_chol p) -> length cs = n -> NoDup (si_choices si) -> length (si_choices si) = n ->
  length (r_shocks r) = n -> length (r_meas r) = n ->
  nth_error wages (r_index r) = Some w -> nth_error nonpecs (r_index r) = Some np ->
  nth_error conts (r_index r) = Some c ->
  length w = count_true cs -> length np = count_true cs -> length c = count_true cs ->
  (0 < count_true cs)%nat ->
  exists o, simulate_row si next cx wages nonpecs conts i r = Ok o /\
    o_ind o = r_ind r /\ o_shocks o = r_shocks r /\ o_next o = next i (r_key r) (r_index r) /\
    length (o_values o) = count_true cs /\
    (forall j ch, nth_error (positions cs) j = Some ch ->
       nth_error (o_values o) j =
       Some (nth j w 0 * shock_of p cs (r_shocks r) ch + nth j np 0 + si_beta si * p_delta p * nth j c 0)) /\
    record_choice (si_choices si) cs (o_values o) = Some (o_choice o) /\
    exists j ch, first_max (o_values o) j /\ nth_error (positions cs) j = Some ch /\
      o_wage o = if Nat.ltb ch (p_nwages p)
                 then Some (nth j w 0 * shock_of p cs (r_shocks r) ch * nth ch (r_meas r) 0) else None.
Proof. exact simulate_row_spec. Qed.
Print Assumptions C21_wage_of_the_maximising_choice.

Example C21_example : exists o,
  simulate_row ex_si (fun _ k _ => k) (0%nat, [true; true], None) [[2; 0]] [[0; 1]] [[0; 0]]
    (0%nat, 0%nat) (mkRow (mkInd (mkState 0 [0%nat] []) []) 0 0 [0; 0] [3; 1]) = Ok o /\
  o_wage o = Some 6.
Proof.
  destruct (C21_wage_of_the_maximising_choice 2 ex_si (fun _ k _ => k) (0%nat, [true; true], None)
     [[2; 0]] [[0; 1]] [[0; 0]] (0%nat, 0%nat)
     (mkRow (mkInd (mkState 0 [0%nat] []) []) 0 0 [0; 0] [3; 1]) [2; 0] [0; 1] [0; 0])
    as [o [E [_ [_ [_ [L [V [_ [j [ch [FM [P W]]]]]]]]]]]]; try reflexivity.
  - split; [reflexivity|]. intros row [<-|[<-|[]]]; reflexivity.
  - repeat constructor; simpl; intuition discriminate.
  - simpl. lia.
  - exists o. split; [exact E|].
    assert (S0 : shock_of ex_params [true; true] [0; 0] 0 = 1).
    { unfold shock_of, correlated. cbn. unfold rsum, mat. cbn.
      replace (0 * 1 + (0 * 0 + 0)) with 0 by lra. unfold clip, max_log_float.
      rewrite Rmax_right by lra. rewrite Rmin_right by lra. apply exp_0. }
    assert (S1 : shock_of ex_params [true; true] [0; 0] 1 = 0).
    { unfold shock_of, correlated. cbn. unfold rsum, mat. cbn. lra. }
    assert (V0 := V 0%nat 0%nat eq_refl). assert (V1 := V 1%nat 1%nat eq_refl).
    cbn [nth si_params ex_si r_shocks cx_choice_set fst snd] in V0, V1. rewrite S0 in V0. rewrite S1 in V1.
    assert (j = 0%nat) as ->.
    { destruct FM as [v [Hv [FM1 FM2]]]. destruct j as [|[|j]]; [reflexivity| |].
      - rewrite V1 in Hv. injection Hv as <-. specialize (FM1 0%nat _ V0). lra.
      - exfalso. assert (S (S j) < length (o_values o))%nat by (apply nth_error_Some; congruence). rewrite L in H. simpl in H. lia. }
    simpl in P. injection P as <-. rewrite W. cbn [nth si_params ex_si r_shocks r_meas cx_choice_set fst snd].
    change (Nat.ltb 0 (p_nwages ex_params)) with true. cbv iota. rewrite S0. f_equal. lra.
Qed.

(** ** C22 *)
Theorem C22_panel_obeys_law_of_motion :
  forall sp neg k grid ss inp ev si order next_key n ids base base_wage df,
  simulation_setup sp neg k grid ss inp ev si order n ids base base_wage df ->
  exists panel,
    simulate_n_step (environment_of ss inp ev) si order next_key 0 n base base_wage df = Ok panel /\
    map fst panel = panel_index ids n /\
    (forall id o, In ((id, 0%nat), o) panel -> In ((id, 0%nat), o_ind o) df) /\
    (forall id t o o', In ((id, t), o) panel -> In ((id, S t), o') panel ->
       o_ind o' = mkInd (law_of_motion (o_choice o) (i_core (o_ind o))) (i_dense (o_ind o))) /\
    (forall id t o, In ((id, t), o) panel -> exists p s m,
       nth_error ids p = Some id /\ nth_error base (length ids * t + p) = Some s /\
       nth_error base_wage (length ids * t + p) = Some m /\
       right_row sp neg k grid ss inp ev si t s m o).
Proof.
  exact (fun sp neg k grid ss inp ev si order next_key n ids base base_wage df SU =>
    panel_model sp neg k grid ss inp ev
      (su_model _ _ _ _ _ _ _ _ _ _ _ _ _ _ SU) (su_ev _ _ _ _ _ _ _ _ _ _ _ _ _ _ SU)
      si order next_key n ids base base_wage df SU).
Qed.
Print Assumptions C22_panel_obeys_law_of_motion.

Example C22_example : simulation_setup ex_sp (fun _ => None) 0 ex_grid ex_ss ex_inp (initial_ev ex_ss)
  ex_si (fun l => l) 3 ex_ids (ex_draws 6) (ex_draws 6) ex_df /\
  panel_index ex_ids 3 = [(3, 0); (3, 1); (3, 2); (7, 0); (7, 1); (7, 2)]%nat.
Proof. split; [exact ex_simulation|reflexivity]. Qed.

(** With too few draws of shocks or measurement errors there is no panel. *)
Theorem C22_too_few_draws :
  forall sp neg k grid ss inp ev si order next_key n ids base base_wage df q q',
  simulation_setup sp neg k grid ss inp ev si order n ids base base_wage df ->
  (q < length ids * n \/ q' < length ids * n)%nat ->
  simulate_n_step (environment_of ss inp ev) si order next_key 0 n (firstn q base) (firstn q' base_wage) df = ValueError.
Proof.
  exact (fun sp neg k grid ss inp ev si order next_key n ids base base_wage df q q' SU =>
    panel_short sp neg k grid ss inp ev
      (su_model _ _ _ _ _ _ _ _ _ _ _ _ _ _ SU) (su_ev _ _ _ _ _ _ _ _ _ _ _ _ _ _ SU)
      si order next_key n ids base base_wage df q q' SU).
Qed.
Print Assumptions C22_too_few_draws.

Example C22_example_draws : forall next_key, simulate_n_step (environment_of ex_ss ex_inp (initial_ev ex_ss)) ex_si (fun l => l)
  next_key 0 3 (firstn 5 (ex_draws 6)) (firstn 6 (ex_draws 6)) ex_df = ValueError.
Proof.
  intros next_key. apply (C22_too_few_draws _ _ _ _ _ _ _ _ _ next_key _ _ _ _ _ _ _ ex_simulation). left. simpl. lia.
Qed.

(** ** C23 *)
(** n-step-ahead: see also the rows of [base] in C22; they are different and exist. *)
Theorem C23_rows_of_draws_are_different : forall N t k t' k',
  (k < N)%nat -> (k' < N)%nat -> (N * t + k = N * t' + k')%nat -> t = t' /\ k = k'.
Proof. exact draw_rows_injective. Qed.
Print Assumptions C23_rows_of_draws_are_different.

Theorem C23_rows_of_draws_exist : forall N n t k,
  (t < n)%nat -> (k < N)%nat -> (N * t + k < N * n)%nat.
Proof. exact draw_rows_exist. Qed.
Print Assumptions C23_rows_of_draws_exist.

Theorem C23_shocks_of_the_panel :
  forall sp neg k grid ss inp ev si order next_key n ids base base_wage df panel,
  simulation_setup sp neg k grid ss inp ev si order n ids base base_wage df ->
  simulate_n_step (environment_of ss inp ev) si order next_key 0 n base base_wage df = Ok panel ->
  forall p id t o, nth_error ids p = Some id -> In ((id, t), o) panel ->
    nth_error base (length ids * t + p) = Some (o_shocks o).
Proof. exact panel_shocks. Qed.
Print Assumptions C23_shocks_of_the_panel.

Theorem C23_one_step_ahead :
  forall sp neg k grid ss inp ev si order next_key n base base_wage df,
  one_step_setup sp neg k grid ss inp ev si order n base base_wage df ->
  exists panel, one_step (environment_of ss inp ev) si order next_key n base base_wage df = Ok panel /\
    map fst panel = map fst df /\
    forall p id t x o, nth_error df p = Some ((id, t), x) -> nth_error panel p = Some ((id, t), o) ->
      exists s m, nth_error base p = Some s /\ nth_error base_wage p = Some m /\ o_ind o = x /\
        right_row sp neg k grid ss inp ev si t s m o.
Proof.
  exact (fun sp neg k grid ss inp ev si order next_key n base base_wage df SU =>
    one_step_model sp neg k grid ss inp ev
      (os_model _ _ _ _ _ _ _ _ _ _ _ _ _ SU) (os_ev _ _ _ _ _ _ _ _ _ _ _ _ _ SU)
      si order next_key n base base_wage df SU).
Qed.
Print Assumptions C23_one_step_ahead.

Example C23_example : one_step_setup ex_sp (fun _ => None) 0 ex_grid ex_ss ex_inp (initial_ev ex_ss)
  ex_si (fun l => l) 2 (ex_draws 3) (ex_draws 3) ex_data.
Proof. exact ex_one_step. Qed.

(** ** C24 *)
Theorem C24_one_step_without_request : forall data n agents, data <> [] ->
  exists p ids, harmonize OneStep data None n agents = Ok (S p, Nat.max n (S p), length ids) /\
    In p (map snd data) /\ (forall q, In q (map snd data) -> (q <= p)%nat) /\
    NoDup ids /\ forall i, In i ids <-> In i (map fst data).
Proof. exact harmonize_one_step. Qed.
Print Assumptions C24_one_step_without_request.

Theorem C24_requested_periods_are_ignored : forall m data requested n agents,
  (m = OneStep -> requested <> None) ->
  exists k, harmonize m data requested n agents = Ok (n, n, k) /\
    (m = NStepSampling -> k = agents) /\
    (m <> NStepSampling -> exists ids, k = length ids /\ NoDup ids /\ forall i, In i ids <-> In i (map fst data)).
Proof. exact harmonize_ignored. Qed.
Print Assumptions C24_requested_periods_are_ignored.

Theorem C24_no_data : forall n agents, harmonize OneStep [] None n agents = ValueError.
Proof. exact harmonize_empty. Qed.
Print Assumptions C24_no_data.

Example C24_example :
  harmonize OneStep [(4, 0); (4, 1); (9, 2)]%nat None 2 100 = Ok (3, 3, 2)%nat /\
  harmonize NStepSampling [] (Some 7%nat) 5 100 = Ok (5, 5, 100)%nat.
Proof. split; reflexivity. Qed.

(** ** C25 *)
Theorem C25_level_is_drawn_on_its_interval : forall probs u, probs <> [] ->
  (forall p, In p probs -> 0 <= p) -> 1 - 0.000005 <= rsum probs <= 1 + 0.000005 -> 0 <= u < 1 ->
  (exists i, random_choice probs u = Ok i) /\
  forall i, random_choice probs u = Ok i <-> drawn_interval probs i u.
Proof. exact random_choice_spec. Qed.
Print Assumptions C25_level_is_drawn_on_its_interval.

Theorem C25_length_of_the_interval : forall probs i p, rsum probs = 1 -> nth_error probs i = Some p ->
  (if Nat.eqb (S i) (length probs) then 1 else rsum (firstn (S i) probs)) = rsum (firstn i probs) + p.
Proof. exact interval_length. Qed.
Print Assumptions C25_length_of_the_interval.

Theorem C25_zero_probability_is_never_drawn : forall probs u i,
  (forall p, In p probs -> 0 <= p) -> rsum probs = 1 -> 0 <= u < 1 ->
  nth_error probs i = Some 0 -> random_choice probs u <> Ok i.
Proof. exact zero_never_drawn. Qed.
Print Assumptions C25_zero_probability_is_never_drawn.

Theorem C25_wrong_sum_is_rejected : forall probs u, probs <> [] ->
  ~ (1 - 0.000005 <= rsum probs <= 1 + 0.000005) -> random_choice probs u = ValueError.
Proof. exact random_choice_rejects. Qed.
Print Assumptions C25_wrong_sum_is_rejected.

(** With a sum that is only rounded to one a level of probability zero can be drawn. *)
Theorem C25_rounded_sum_zero_probability_refuted : exists probs u i,
  (forall p, In p probs -> 0 <= p) /\ 1 - 0.000005 <= rsum probs <= 1 + 0.000005 /\ 0 <= u < 1 /\
  nth_error probs i = Some 0 /\ random_choice probs u = Ok i.
Proof. exact zero_drawn_after_rounding. Qed.
Print Assumptions C25_rounded_sum_zero_probability_refuted.

Theorem C25_sampled_characteristic : forall x levels u, levels <> [] -> 0 <= u < 1 ->
  (exists i, sample_characteristic x levels u = Ok i) /\
  forall i, sample_characteristic x levels u = Ok i <->
    drawn_interval (softmax (map (pandas_dot x) levels)) i u.
Proof. exact sample_spec. Qed.
Print Assumptions C25_sampled_characteristic.

Example C25_example : random_choice [/ 2; 0; / 2] (/ 2) = Ok 2%nat.
Proof.
  apply C25_level_is_drawn_on_its_interval.
  - discriminate.
  - intros p [<-|[<-|[<-|[]]]]; lra.
  - unfold rsum. simpl. lra.
  - lra.
  - unfold drawn_interval, rsum. simpl. repeat split; [lia|lra|lra].
Qed.

(** ** C26 *)
Theorem C26_types_come_from_own_history : forall sampled (df : frame (option nat)),
  ordered_frame df -> observed_from_start df ->
  map fst (type_column sampled df) = map fst df /\
  (forall id t v, In ((id, t), v) (type_column sampled df) -> exists w, v = Some w /\
     ((exists t', (t' <= t)%nat /\ In ((id, t'), Some w) df) \/
      (In ((id, 0%nat), None) df /\ w = sampled (id, 0%nat)))).
Proof. exact type_column_spec. Qed.
Print Assumptions C26_types_come_from_own_history.

Theorem C26_sampled_types_are_constant : forall sampled (df : frame (option nat)),
  ordered_frame df -> observed_from_start df -> (forall i x, In (i, x) df -> x = None) ->
  type_column sampled df = map (fun r => (fst r, Some (sampled (fst (fst r), 0%nat)))) df.
Proof. exact type_column_missing. Qed.
Print Assumptions C26_sampled_types_are_constant.

(** An individual without an observation in period 0 gets the type of the one before, the
    first individual remains without type. *)
Theorem C26_without_first_period_refuted : exists (df : frame (option nat)),
  ordered_frame df /\ (forall i x, In (i, x) df -> x = None) /\
  forall sampled, exists id t id', id <> id' /\
    In ((id, t), Some (sampled (id', 0%nat))) (type_column sampled df) /\
    exists i, In (i, None) (type_column sampled df).
Proof. exact type_column_wrong. Qed.
Print Assumptions C26_without_first_period_refuted.

Example C26_example :
  let df := [((0, 0), None); ((0, 1), None); ((4, 0), None); ((4, 1), None)]%nat in
  ordered_frame df /\ observed_from_start df /\
  type_column (fun i => fst i) df =
    [((0, 0), Some 0); ((0, 1), Some 0); ((4, 0), Some 4); ((4, 1), Some 4)]%nat.
Proof.
  split; [|split].
  - unfold ordered_frame, index_lt. simpl. repeat constructor; simpl; lia.
  - intros id t x [E|[E|[E|[E|[]]]]]; injection E as <- <- <-; exists None; simpl; auto.
  - reflexivity.
Qed.

(** ** C64 *)
Theorem C64_rows_used_of_the_data : forall A (data : frame A) n,
  map fst (initial_rows data n) = map (fun k => (k, 0%nat)) (seq 0 n) /\
  (NoDup (map fst data) -> forall id x,
     In ((id, 0%nat), Some x) (initial_rows data n) <-> (id < n)%nat /\ In ((id, 0%nat), x) data).
Proof. exact initial_rows_spec. Qed.
Print Assumptions C64_rows_used_of_the_data.

(** If the identifiers are 0, ..., n - 1 and all are observed in period 0, every first row
    is used and nothing is missing. *)
Theorem C64_consecutive_identifiers : forall A (data : frame A) m n k agents requested,
  m = NStepData -> NoDup (map fst data) -> observed_from_start data ->
  (forall i, In i (map fst (map fst data)) <-> (i < n)%nat) ->
  harmonize m (map fst data) requested k agents = Ok (k, k, n) /\
  (forall id x, In ((id, 0%nat), x) data <-> In ((id, 0%nat), Some x) (initial_rows data n)) /\
  forall i, ~ In (i, None) (initial_rows data n).
Proof. exact consecutive_identifiers. Qed.
Print Assumptions C64_consecutive_identifiers.

(** With other identifiers observations are lost and replaced. *)
Theorem C64_other_identifiers_refuted : forall A (data : frame A) n agents requested k id x,
  NoDup (map fst data) ->
  harmonize NStepData (map fst data) requested k agents = Ok (k, k, n) ->
  In ((id, 0%nat), x) data -> (n <= id)%nat ->
  (forall y, ~ In ((id, 0%nat), y) (initial_rows data n)) /\
  exists j, (j < n)%nat /\ forall t y, ~ In ((j, t), y) data /\ In ((j, 0%nat), None) (initial_rows data n).
Proof. exact other_identifiers. Qed.
Print Assumptions C64_other_identifiers_refuted.

Example C64_example :
  let data := [((1, 0), true); ((2, 0), false)]%nat in
  harmonize NStepData (map fst data) None 5 1000 = Ok (5, 5, 2)%nat /\
  initial_rows data 2 = [((0, 0)%nat, None); ((1, 0)%nat, Some true)].
Proof. split; reflexivity. Qed.

(** ** C65 *)
Theorem C65_every_period_needs_an_observation :
  forall env si order next_key n base base_wage df t panel,
  (t < n)%nat -> (forall id x, ~ In ((id, t), x) df) ->
  one_step env si order next_key n base base_wage df <> Ok panel.
Proof. exact one_step_gap. Qed.
Print Assumptions C65_every_period_needs_an_observation.

(** Hence a requested number of periods (which is replaced by the number of periods of the
    model, C24) must not exceed the periods in the data. *)
Theorem C65_requested_periods_raise :
  forall env si order next_key requested n agents base base_wage (df : frame individual),
  (forall id t x, In ((id, t), x) df -> (S t < n)%nat) -> (0 < n)%nat ->
  exists k, harmonize OneStep (map fst df) (Some requested) n agents = Ok (n, n, k) /\
  forall panel, one_step env si order next_key n base base_wage df <> Ok panel.
Proof. exact requested_raises. Qed.
Print Assumptions C65_requested_periods_raise.

(** Data of period 0 only, a model with two periods and an explicit request of one
    period. *)
Example C65_example : 
  let df := [((2%nat, 0%nat), mkInd (mkState 0 [0%nat] []) [1%nat])] in
  (forall id t x, In ((id, t), x) df -> (S t < 2)%nat) /\
  one_step (environment_of ex_ss ex_inp (initial_ev ex_ss)) ex_si (fun l => l) (fun _ _ _ _ => 0%nat)
     2 (ex_draws 1) (ex_draws 1) df <> Ok [].
Proof.
  split.
  - intros id t x [E|[]]. injection E as _ <- _. lia.
  - apply (C65_every_period_needs_an_observation _ _ _ _ _ _ _ _ 1%nat); [lia|].
    intros id x [E|[]]. injection E as _ E _. discriminate.
Qed.
