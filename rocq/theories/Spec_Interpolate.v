(** Independent specification of the approximate solution. *)
From Coq Require Import List Arith Bool Reals.
From Verif Require Import Base Model_CoreStateSpace Model_StateSpace Model_Solve Model_ConditionalDraws
  Model_Interpolate Spec_Solve.
Import ListNotations.
Open Scope R_scope.

(** A routine which draws a position according to probabilities: it only returns positions
    with positive probability. *)
Definition draws_position (choose : nat -> list R -> nat) : Prop :=
  forall i probs, (forall x, In x probs -> 0 <= x) -> rsum probs = 1 ->
    exists p, nth_error probs (choose i probs) = Some p /\ 0 < p.

(** A routine which draws [size] of [n] positions without replacement. *)
Definition draws_subset (subset : nat -> nat -> list nat) : Prop :=
  forall n size, (size <= n)%nat ->
    NoDup (subset n size) /\ length (subset n size) = size /\ forall i, In i (subset n size) -> (i < n)%nat.

(** [points] is a feasible assignment of points to keys with [n_states] states: at least
    two per key (or all states) and at most the number of states. *)
Definition feasible_points (n_states points : list nat) : Prop :=
  Forall2 (fun n p => (Nat.min 2 n <= p)%nat /\ (p <= n)%nat) n_states points.

(** Number of keys with a single state. *)
Definition single_states (n_states : list nat) : nat :=
  length (filter (fun n => Nat.eqb n 1) n_states).

(** Some key has less than one percent of its states. *)
Definition few_points (n_states points : list nat) : Prop :=
  exists j n p, nth_error n_states j = Some n /\ nth_error points j = Some p /\ (100 * p < n)%nat.

(** Expected value of the log-normal shock with variance [v], for [v] up to 460. *)
Definition lognormal_mean (v : R) : R := exp (v / 2).

(** Value of the best choice in a state if the shocks are [shocks]. *)
Definition deterministic_value (wages nonpecs conts shocks : list R) (delta : R) : R :=
  maximum (choice_values wages nonpecs conts delta shocks).

(** Regressors of a state: the distances of the values of the choices from the best one,
    their square roots, and a constant. *)
Definition regressors (wages nonpecs conts shocks : list R) (delta : R) : list R :=
  let values := choice_values wages nonpecs conts delta shocks in
  map (fun v => maximum values - v) values
  ++ map (fun v => sqrt (maximum values - v)) values ++ [1].

(** [P] is a generalised inverse of [A] (as is the Moore-Penrose inverse). *)
Definition generalised_inverse (k : nat) (A P : matrix) : Prop :=
  forall i j, (i < k)%nat -> (j < k)%nat ->
    sumn k (fun a => A i a * sumn k (fun b => P a b * A b j)) = A i j.
(** Cross products of the [n] observations of the variables. *)
Definition cross_products (n : nat) (x : matrix) : matrix := fun i j => sumn n (fun r => x r i * x r j).

(** Sum of squared residuals of the linear model with coefficients [b]. *)
Definition squared_residuals (n k : nat) (y : nat -> R) (x : matrix) (b : nat -> R) : R :=
  sumn n (fun r => (y r - sumn k (fun i => x r i * b i)) ^ 2).

(** ** The approximate solution *)
From Verif Require Import Spec_StateSpace.

(** Period [p] is interpolated: more than two points per key, but not for all states. *)
Definition interpolated_period (ss : state_space) (points p : nat) : Prop :=
  (2 * length (keys_in ss p) < points /\ points < states_in ss p)%nat.

(** [next] lists, for each available choice, the value which is stored for the state after
    the choice; in the last period it is zero. *)
Definition successor_values (nperiods : nat) (ss : state_space) (ev : list (list R)) (cs : list bool)
  (s : core_state) (d : option nat) (next : list R) : Prop :=
  length next = length (positions cs) /\
  forall j c v, nth_error (positions cs) j = Some c -> nth_error next j = Some v ->
    (S (cs_period s) = nperiods -> v = 0) /\
    ((S (cs_period s) < nperiods)%nat -> value_at ss ev (law_of_motion c s) d v).

(** Average over the draws of the value of the best choice (or zero) if the states after
    the choices have the values [next]. *)
Definition simulated_value (pb : problem core_state) (delta : R) (s : core_state) (next : list R) : R :=
  mean (map (fun u => max0 (map (fun p => fst p + delta * snd p) (combine u next))) (pb_flows pb s)).

(** Mean of the shock of choice [c]: log-normal for choices with a wage, where the
    variance of its logarithm is limited to 460, and zero otherwise. *)
Definition mean_shock (p : params) (c : nat) : R :=
  if Nat.ltb c (p_nwages p) then lognormal_mean (Rmin 460 (cov_entry (p_chol p) c c)) else 0.

(** [v] is at least the value of each choice for the mean shocks. *)
Definition above_mean_values (inp : inputs) (ctx : option (list nat)) (cs : list bool) (s : core_state)
  (next : list R) (v : R) : Prop :=
  forall j c w, nth_error (positions cs) j = Some c -> nth_error next j = Some w ->
    wage_of (in_params inp) (in_cov inp ctx s) c * mean_shock (in_params inp) c
    + nonpec_of (in_params inp) (in_cov inp ctx s) c + p_delta (in_params inp) * w <= v.

(** The states of period [p] which are simulated, [masks k] for key [k]: all states if the
    period is solved exactly; in an interpolated period, a feasible number for each key
    whose sum is the number of points less one for each key with a single state. *)
Definition simulated_states (ss : state_space) (points : nat) (masks : nat -> list bool) (p : nat) : Prop :=
  (solved_exactly ss points p ->
     forall k, In k (keys_in ss p) -> masks k = repeat true (key_size ss k)) /\
  (interpolated_period ss points p ->
     let sizes := map (key_size ss) (keys_in ss p) in
     exists pts, feasible_points sizes pts /\ (list_sum pts + single_states sizes = points)%nat /\
       Forall2 (fun k pt => length (masks k) = key_size ss k /\ count_true (masks k) = pt) (keys_in ss p) pts).
