(** Independent specification of the simulation. *)
From Coq Require Import List Arith Bool Reals.
From Verif Require Import Base Model_CoreStateSpace Model_StateSpace Spec_StateSpace Model_Solve
  Spec_Solve Model_Parallel Spec_Parallel Model_Simulate.
Import ListNotations.
Open Scope R_scope.

(** Each available choice is at its own position among the available choices or has a code
    which is not smaller than the number of available choices. *)
Definition in_place (cs : list bool) : Prop :=
  forall j c, nth_error (positions cs) j = Some c -> c = j \/ (count_true cs <= c)%nat.

(** [vals] are the values of the available choices in order; choice [c] is available and
    no available choice has a higher value. *)
Definition maximises (cs : list bool) (vals : list R) (c : nat) : Prop :=
  exists j v, nth_error (positions cs) j = Some c /\ nth_error vals j = Some v /\
    forall v', In v' vals -> v' <= v.
(** Strictly higher than that of all others. *)
Definition strict_maximiser (cs : list bool) (vals : list R) (c : nat) : Prop :=
  exists j v, nth_error (positions cs) j = Some c /\ nth_error vals j = Some v /\
    forall j' v', nth_error vals j' = Some v' -> j' <> j -> v' < v.

(** [j] is the first position of the maximum. *)
Definition first_max (l : list R) (j : nat) : Prop :=
  exists v, nth_error l j = Some v /\
    (forall i v', nth_error l i = Some v' -> v' <= v) /\
    (forall i v', (i < j)%nat -> nth_error l i = Some v' -> v' < v).

(** Number of available choices with a smaller code. *)
Definition rank (cs : list bool) (c : nat) : nat := count_true (firstn c cs).

(** An individual of period [t] in a state of the model. *)
Definition in_model (core : list core_state) (grid : list (list nat)) (t : nat) (x : individual)
  : Prop :=
  In (i_core x) core /\ cs_period (i_core x) = t /\
  match grid with [] => True | _ => In (i_dense x) grid end.
(** The dense combination of an individual. *)
Definition context (grid : list (list nat)) (x : individual) : option (list nat) :=
  match grid with [] => None | _ => Some (i_dense x) end.

(** Indices of a panel of individuals [ids] over [n] periods. *)
Definition panel_index (ids : list nat) (n : nat) : list index :=
  flat_map (fun id => map (fun t => (id, t)) (seq 0 n)) ids.

(** Data of one period: individuals [ids] in ascending order. *)
Definition cross_section {A} (ids : list nat) (t : nat) (df : frame A) : Prop :=
  map fst df = map (fun id => (id, t)) ids.
Fixpoint increasing (l : list nat) : Prop :=
  match l with
  | [] => True
  | x :: r => (forall y, In y r -> (x < y)%nat) /\ increasing r
  end.

(** Draws of the right shape. *)
Definition draws_shape (rows cols : nat) (base : list (list R)) : Prop :=
  length base = rows /\ forall row, In row base -> length row = cols.

(** The wage of choice [c] including the shock and the measurement error. *)
Definition shock_of (p : params) (cs : list bool) (base : list R) (c : nat) : R :=
  let e := correlated (p_chol p) cs (map (fun i => nth i base 0) (positions cs)) c in
  if Nat.ltb c (p_nwages p) then exp (clip (- max_log_float) max_log_float e) else e.

(** Setting of an n-step-ahead simulation of [n] periods for a model without exogenous
    processes: a model as in C10 with arrays of expected value functions, individuals
    [ids] in ascending order who start in states of period 0, base draws for all
    individuals and periods, and at least one choice in every state. *)
From Verif Require Import Spec_CoreStateSpace.
Record simulation_setup (sp : core_spec) (neg : neg_set) (k : nat) (grid : list (list nat))
  (ss : state_space) (inp : inputs) (ev : list (list R)) (si : sim_spec)
  (order : list nat -> list nat) (n : nat) (ids : list nat) (base base_wage : list (list R))
  (df : frame individual) : Prop := {
  su_model : standard_model sp neg k grid ss inp;
  su_ev : ev_shape ss ev;
  su_params : si_params si = in_params inp;
  su_names : si_choices si = in_choices inp;
  su_meas : length (si_meas si) = sp_nchoices sp;
  su_order : iteration_order order;
  su_periods : (n <= sp_nperiods sp)%nat;
  su_increasing : increasing ids;
  su_some : ids <> [];
  su_base : draws_shape (length ids * n) (sp_nchoices sp) base;
  su_base_wage : draws_shape (length ids * n) (sp_nchoices sp) base_wage;
  su_index : cross_section ids 0 df;
  su_states : forall i x, In (i, x) df -> in_model (create_core_state_space sp) grid 0 x;
  su_choice : forall s x, In s (create_core_state_space sp) ->
    match grid with [] => True | _ => In (i_dense x) grid end ->
    exists c, available (choice_set_of sp (process sp (S k) neg) (context grid x) s) c
}.

(** The choice set of an individual. *)
Definition choices_of (sp : core_spec) (neg : neg_set) (k : nat) (grid : list (list nat))
  (x : individual) : list bool :=
  choice_set_of sp (process sp (S k) neg) (context grid x) (i_core x).

(** What an individual [x] gets from choice [c]: wage with shock and non-pecuniary
    reward. *)
Definition flow_of (inp : inputs) (cs : list bool) (ctx : option (list nat)) (s : core_state)
  (base : list R) (c : nat) : R :=
  wage_of (in_params inp) (in_cov inp ctx s) c * shock_of (in_params inp) cs base c
  + nonpec_of (in_params inp) (in_cov inp ctx s) c.

(** A row of the panel: individual [o_ind o] in period [t], with the base draws [s] and
    the base draws [m] of the measurement errors. *)
Record right_row (sp : core_spec) (neg : neg_set) (k : nat) (grid : list (list nat))
  (ss : state_space) (inp : inputs) (ev : list (list R)) (si : sim_spec) (t : nat)
  (s m : list R) (o : outcome) : Prop := {
  rr_state : in_model (create_core_state_space sp) grid t (o_ind o);
  rr_shocks : o_shocks o = s;
  rr_available : available (choices_of sp neg k grid (o_ind o)) (o_choice o);
  (* as many values as available choices, each flow utility plus discounted value of the
     successor *)
  rr_length : length (o_values o) = count_true (choices_of sp neg k grid (o_ind o));
  rr_values : exists d, dense_combination grid d (context grid (o_ind o)) /\
    forall j c, nth_error (positions (choices_of sp neg k grid (o_ind o))) j = Some c ->
      exists v,
        nth_error (o_values o) j =
          Some (flow_of inp (choices_of sp neg k grid (o_ind o)) (context grid (o_ind o))
                  (i_core (o_ind o)) s c + si_beta si * p_delta (in_params inp) * v) /\
        (S t = sp_nperiods sp -> v = 0) /\
        ((S t < sp_nperiods sp)%nat -> value_at ss ev (law_of_motion c (i_core (o_ind o))) d v);
  rr_choice : record_choice (in_choices inp) (choices_of sp neg k grid (o_ind o)) (o_values o)
              = Some (o_choice o);
  (* the wage is that of the first best choice *)
  rr_wage : exists j c, first_max (o_values o) j /\
    nth_error (positions (choices_of sp neg k grid (o_ind o))) j = Some c /\
    o_wage o = if Nat.ltb c (p_nwages (in_params inp))
               then Some (wage_of (in_params inp) (in_cov inp (context grid (o_ind o)) (i_core (o_ind o))) c
                          * shock_of (in_params inp) (choices_of sp neg k grid (o_ind o)) s c
                          * exp (nth c m 0 * nth c (si_meas si) 0))
               else None
}.

(** Value of choice [c] for individual [x] in period [t]: flow utility plus present-biased
    and discounted expected value of the remaining periods. *)
Definition decision_value (sp : core_spec) (neg : neg_set) (k : nat) (grid : list (list nat))
  (inp : inputs) (beta : R) (t : nat) (x : individual) (base : list R) (c : nat) : R :=
  flow_of inp (choices_of sp neg k grid x) (context grid x) (i_core x) base c +
  beta * p_delta (in_params inp) *
  value (problem_of sp neg k inp (context grid x)) (p_delta (in_params inp))
        (sp_nperiods sp - S t) (law_of_motion c (i_core x)).

(** Setting of a one-step-ahead simulation: ordered data whose observations are states of
    the model in periods before [n], at least one observation in each period before [n],
    base draws for each observation. *)
Record one_step_setup (sp : core_spec) (neg : neg_set) (k : nat) (grid : list (list nat))
  (ss : state_space) (inp : inputs) (ev : list (list R)) (si : sim_spec)
  (order : list nat -> list nat) (n : nat) (base base_wage : list (list R))
  (df : frame individual) : Prop := {
  os_model : standard_model sp neg k grid ss inp;
  os_ev : ev_shape ss ev;
  os_params : si_params si = in_params inp;
  os_names : si_choices si = in_choices inp;
  os_meas : length (si_meas si) = sp_nchoices sp;
  os_order : iteration_order order;
  os_ordered : ordered_frame df;
  os_base : draws_shape (length df) (sp_nchoices sp) base;
  os_base_wage : draws_shape (length df) (sp_nchoices sp) base_wage;
  os_states : forall id t x, In ((id, t), x) df ->
    (t < n)%nat /\ in_model (create_core_state_space sp) grid t x;
  os_every : forall t, (t < n)%nat -> exists id x, In ((id, t), x) df;
  os_choice : forall s x, In s (create_core_state_space sp) ->
    match grid with [] => True | _ => In (i_dense x) grid end ->
    exists c, available (choice_set_of sp (process sp (S k) neg) (context grid x) s) c
}.

(** ** Sampling of characteristics *)
(** The draws which lead to level [i]: from the sum of the probabilities before [i] to the
    same including [i], where the interval of the last level ends at one. *)
Definition drawn_interval (probs : list R) (i : nat) (u : R) : Prop :=
  (i < length probs)%nat /\ rsum (firstn i probs) <= u /\
  u < if Nat.eqb (S i) (length probs) then 1 else rsum (firstn (S i) probs).

(** Every individual is observed in period 0. *)
Definition observed_from_start {A} (df : frame A) : Prop :=
  forall id t x, In ((id, t), x) df -> exists y, In ((id, 0%nat), y) df.
