(** Property theorems: comparison of simulated paths. *)
From Coq Require Import List Arith Bool Reals Lra Lia.
From Verif Require Import Base Model_CoreStateSpace Model_StateSpace Model_Solve Spec_Solve
  Spec_Parallel Model_Parallel Model_Simulate Spec_Simulate Spec_Paths Proof_Paths Examples_Paths.
Import ListNotations.
Open Scope list_scope.
Open Scope nat_scope.

(** ** C93 *)
(** Two simulations of the same model: individual [id] in position [p] of the first and
    [id'] in position [p'] of the second start in the same state and have the same draws up
    to period [t]. *)
Theorem C93_own_state_and_draws : forall sp neg kp grid ss inp ev si
    order order' next_key next_key' n n' ids ids' base base' bw bw' df df' panel panel' p p' id id' x,
  simulation_setup sp neg kp grid ss inp ev si order n ids base bw df ->
  simulation_setup sp neg kp grid ss inp ev si order' n' ids' base' bw' df' ->
  simulate_n_step (environment_of ss inp ev) si order next_key 0 n base bw df = Ok panel ->
  simulate_n_step (environment_of ss inp ev) si order' next_key' 0 n' base' bw' df' = Ok panel' ->
  nth_error ids p = Some id -> nth_error ids' p' = Some id' ->
  In ((id, 0), x) df -> In ((id', 0), x) df' ->
  forall t o o', (forall u, u <= t ->
    own_draws (length ids) base p u = own_draws (length ids') base' p' u /\
    own_draws (length ids) bw p u = own_draws (length ids') bw' p' u) ->
  In ((id, t), o) panel -> In ((id', t), o') panel' -> same_outcome o o'.
Proof. exact path_det. Qed.
Print Assumptions C93_own_state_and_draws.

(** The draws are the beginning of one stream: simulating fewer or more periods. *)
Theorem C93_number_of_periods : forall sp neg kp grid ss inp ev si
    order order' next_key next_key' n n' ids stream streamw df panel panel',
  simulation_setup sp neg kp grid ss inp ev si order n ids (firstn (length ids * n) stream)
    (firstn (length ids * n) streamw) df ->
  simulation_setup sp neg kp grid ss inp ev si order' n' ids (firstn (length ids * n') stream)
    (firstn (length ids * n') streamw) df ->
  simulate_n_step (environment_of ss inp ev) si order next_key 0 n (firstn (length ids * n) stream)
    (firstn (length ids * n) streamw) df = Ok panel ->
  simulate_n_step (environment_of ss inp ev) si order' next_key' 0 n' (firstn (length ids * n') stream)
    (firstn (length ids * n') streamw) df = Ok panel' ->
  forall id t o o', In ((id, t), o) panel -> In ((id, t), o') panel' -> same_outcome o o'.
Proof. exact longer. Qed.
Print Assumptions C93_number_of_periods.

(** Simulating more individuals: the same outcomes in the first period ... *)
Theorem C93_more_individuals_first_period : forall sp neg kp grid ss inp ev si
    order order' next_key next_key' n n' ids more stream streamw df df' panel panel',
  simulation_setup sp neg kp grid ss inp ev si order n ids (firstn (length ids * n) stream)
    (firstn (length ids * n) streamw) df ->
  simulation_setup sp neg kp grid ss inp ev si order' n' (ids ++ more) (firstn (length (ids ++ more) * n') stream)
    (firstn (length (ids ++ more) * n') streamw) (df ++ df') ->
  simulate_n_step (environment_of ss inp ev) si order next_key 0 n (firstn (length ids * n) stream)
    (firstn (length ids * n) streamw) df = Ok panel ->
  simulate_n_step (environment_of ss inp ev) si order' next_key' 0 n' (firstn (length (ids ++ more) * n') stream)
    (firstn (length (ids ++ more) * n') streamw) (df ++ df') = Ok panel' ->
  forall id o o', In id ids -> In ((id, 0), o) panel -> In ((id, 0), o') panel' -> same_outcome o o'.
Proof. exact more_first. Qed.
Print Assumptions C93_more_individuals_first_period.

(** ... but other choices of the same individuals in later periods. *)
Theorem C93_more_individuals_refuted :
  exists sp neg k grid ss inp ev si order next_key n ids more stream streamw df df' panel panel',
  simulation_setup sp neg k grid ss inp ev si order n ids (firstn (length ids * n) stream)
    (firstn (length ids * n) streamw) df /\
  simulation_setup sp neg k grid ss inp ev si order n (ids ++ more) (firstn (length (ids ++ more) * n) stream)
    (firstn (length (ids ++ more) * n) streamw) (df ++ df') /\
  simulate_n_step (environment_of ss inp ev) si order next_key 0 n (firstn (length ids * n) stream)
    (firstn (length ids * n) streamw) df = Ok panel /\
  simulate_n_step (environment_of ss inp ev) si order next_key 0 n (firstn (length (ids ++ more) * n) stream)
    (firstn (length (ids ++ more) * n) streamw) (df ++ df') = Ok panel' /\
  exists id t o o', In id ids /\ In ((id, t), o) panel /\ In ((id, t), o') panel' /\ o_choice o <> o_choice o'.
Proof. exact pa_refuted. Qed.
Print Assumptions C93_more_individuals_refuted.

(** Simulations of one and of two individuals meet the hypotheses; in the second period,
    the first individual chooses differently. *)
Example C93_example : forall N, 0 < N -> N <= 2 -> exists panel,
  simulation_setup pa_sp (fun _ => None) 0 [] pa_ss pa_inp (initial_ev pa_ss)
    pa_si (fun l => l) 2 (seq 0 N) (firstn (N * 2) pa_stream) (firstn (N * 2) pa_stream) (pa_df N) /\
  simulate_n_step (environment_of pa_ss pa_inp (initial_ev pa_ss)) pa_si (fun l => l) (fun _ _ k _ => k) 0 2
    (firstn (N * 2) pa_stream) (firstn (N * 2) pa_stream) (pa_df N) = Ok panel /\
  exists o, In ((0, 1), o) panel /\ o_choice o = (if Nat.eqb N 1 then 0 else 1).
Proof. intros N. exact (pa_panel N (fun _ _ k _ => k)). Qed.

(** ** C94 *)
(** The one-step-ahead simulation of a simulated panel with the same draws for each
    observation. *)
Theorem C94_replay : forall sp neg kp grid ss inp ev si order order' next_key n ids base bw df panel,
  simulation_setup sp neg kp grid ss inp ev si order n ids base bw df -> iteration_order order' ->
  simulate_n_step (environment_of ss inp ev) si order next_key 0 n base bw df = Ok panel ->
  one_step (environment_of ss inp ev) si order' next_key n (by_individual (length ids) n base)
    (by_individual (length ids) n bw) (states_of panel) = Ok panel.
Proof. exact replay. Qed.
Print Assumptions C94_replay.

(** With the same draws in the same order, there are different choices. *)
Theorem C94_same_order_refuted :
  exists sp neg k grid ss inp ev si order next_key n ids base base_wage df panel panel',
  simulation_setup sp neg k grid ss inp ev si order n ids base base_wage df /\
  simulate_n_step (environment_of ss inp ev) si order next_key 0 n base base_wage df = Ok panel /\
  one_step (environment_of ss inp ev) si order next_key n base base_wage (states_of panel) = Ok panel' /\
  exists id t o o', In ((id, t), o) panel /\ In ((id, t), o') panel' /\ o_choice o <> o_choice o'.
Proof. exact pa_replay_refuted. Qed.
Print Assumptions C94_same_order_refuted.

(** The draws of two individuals and two periods in the order of the panel. *)
Example C94_example : by_individual 2 2 [[1]; [2]; [3]; [4]]%R = [[1]; [3]; [2]; [4]]%R.
Proof. reflexivity. Qed.
