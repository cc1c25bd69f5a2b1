(** Model of the simulation with exogenous processes: the draws of next period's dense keys
    and the solved state space as seen by the simulation.  The loop over periods and the
    updated dense variables are in Model_Simulate.v.  Definitions only; see
    Props_SimulateExog.v for the theorems. *)
From Coq Require Import List Arith Bool Reals.
From Verif Require Import Base Model_CoreStateSpace Model_StateSpace Model_Solve Model_Parallel Model_Simulate Model_Exogenous.
Import ListNotations.
Open Scope R_scope.

(** solve.py:102-108: the transition frame of dense key [k], one row per state. *)
Definition transition_frame (ss : state_space) (procs : processes) (inp : inputs) (k : nat)
  : result (list (list (nat * R))) :=
  match dense_key_to_complex ss k with
  | None => KeyError
  | Some cx =>
      match dict_get complex_eq_dec cx (ss_files ss) with
      | None => OtherError
      | Some f => result_all (map (fun s => transition_row (ss_grid ss) (ss_dpc ss) procs k (in_cov inp (snd f) s)) (fst f))
      end
  end.

(** [np.random.choice(values, p=probs)] for a uniform draw [u]: NumPy divides the cumulated
    probabilities by their last entry and takes the first one above the draw. *)
Definition numpy_choice (values : list nat) (probs : list R) (u : R) : option nat :=
  let cdf := cumsum 0 probs in
  match first_below u 0 (map (fun c => c / last cdf 0) cdf) with
  | Some i => nth_error values i
  | None => None
  end.

(** simulate.py:460-486 (draw_dense_key_next_period) for the row [i] of a group with dense key
    [k] and core index [r] in period [t].  [u] are the uniform draws.  An error is represented
    by a key that does not exist, which raises in the next period. *)
Definition next_dense_key (ss : state_space) (procs : processes) (inp : inputs) (u : nat -> index -> R)
  (t : nat) (i : index) (k r : nat) : nat :=
  match transition_frame ss procs inp k with
  | Ok M => match nth_error M r with
            | Some row => match numpy_choice (map fst row) (map snd row) (u t i) with
                          | Some k' => k'
                          | None => length (ss_dpc ss)
                          end
            | None => length (ss_dpc ss)
            end
  | _ => length (ss_dpc ss)
  end.

(** simulate.py:205-214 as in [environment_of], with the continuation values of
    state_space.py:222-292 for exogenous processes. *)
Definition environment_exog (ss : state_space) (procs : processes) (inp : inputs) (ev : list (list R)) : environment :=
  mkEnv (locate ss)
    (fun t => flat_map (fun k => match dense_key_to_complex ss k with
                                 | Some cx => [(k, cx)] | None => [] end)
                       (dense_keys_from_period ss t))
    (attribute_from_period ss (fun k => result_bind (rewards_of ss inp k) (fun wn => Ok (fst wn))))
    (attribute_from_period ss (fun k => result_bind (rewards_of ss inp k) (fun wn => Ok (snd wn))))
    (fun t => attribute_from_period ss (get_weighted_continuation_values ss procs inp ev t) t)
    (fun k => match dense_covariates_of_key (ss_grid ss) (ss_dpc ss) k with Ok v => Some v | _ => None end).

(** simulate.py:142-243 (simulate), n-step-ahead. *)
Definition simulate_exog (ss : state_space) (procs : processes) (inp : inputs) (ev : list (list R)) (si : sim_spec)
  (order : list nat -> list nat) (u : nat -> index -> R) (n_periods : nat) (base base_wage : list (list R))
  (df : frame individual) : result (frame outcome) :=
  simulate_n_step (environment_exog ss procs inp ev) si order (next_dense_key ss procs inp u) (length procs)
    n_periods base base_wage df.
