(** Independent specification of the simulation with exogenous processes. *)
From Coq Require Import List Arith Bool Reals.
From Verif Require Import Base Model_CoreStateSpace Spec_CoreStateSpace Model_StateSpace Spec_StateSpace Model_Solve
  Spec_Solve Model_Parallel Spec_Parallel Model_Simulate Spec_Simulate Model_Exogenous Spec_Exogenous.
Import ListNotations.
Open Scope R_scope.

(** Setting of an n-step-ahead simulation of a model with exogenous processes, as
    [simulation_setup]; [u] are uniform draws. *)
Record exogenous_setup (sp : core_spec) (neg : neg_set) (k : nat) (grid : list (list nat)) (procs : processes)
  (ss : state_space) (inp : inputs) (ev : list (list R)) (si : sim_spec)
  (order : list nat -> list nat) (u : nat -> index -> R) (n : nat) (ids : list nat) (base base_wage : list (list R))
  (df : frame individual) : Prop := {
  xs_model : exogenous_model sp neg k grid procs ss inp;
  xs_ev : ev_shape ss ev;
  xs_params : si_params si = in_params inp;
  xs_names : si_choices si = in_choices inp;
  xs_meas : length (si_meas si) = sp_nchoices sp;
  xs_order : iteration_order order;
  xs_uniform : forall t i, 0 <= u t i < 1;
  xs_periods : (n <= sp_nperiods sp)%nat;
  xs_increasing : increasing ids;
  xs_some : ids <> [];
  xs_base : draws_shape (length ids * n) (sp_nchoices sp) base;
  xs_base_wage : draws_shape (length ids * n) (sp_nchoices sp) base_wage;
  xs_index : cross_section ids 0 df;
  xs_states : forall i x, In (i, x) df -> in_model (create_core_state_space sp) grid 0 x;
  xs_choice : forall s vec, In s (create_core_state_space sp) -> In vec grid ->
    exists c, available (choice_set_of sp (process sp (S k) neg) (Some vec) s) c
}.

(** The levels of the processes in the next period, drawn with their joint probabilities. *)
Definition drawn_levels (procs : processes) (x : nat -> R) (u : R) (e : list nat) : Prop :=
  exists i, nth_error (combinations (map (fun p => length p) procs)) i = Some e /\
    drawn_interval (map (joint procs x) (combinations (map (fun p => length p) procs))) i u.

(** Expected stored value of state [s'] over the levels of the processes in the next period. *)
Definition expected_stored (ss : state_space) (ev : list (list R)) (procs : processes) (x : nat -> R)
  (vec : list nat) (s' : core_state) (v : R) : Prop :=
  exists vals,
    Forall2 (fun e w => value_in ss ev (static_part (length procs) vec ++ e) s' w)
            (combinations (map (fun p => length p) procs)) vals /\
    v = rsum (map (fun p => joint procs x (fst p) * snd p)
                  (combine (combinations (map (fun p => length p) procs)) vals)).

(** A row of the panel, as [right_row], with expected values over the processes. *)
Record exogenous_row (sp : core_spec) (neg : neg_set) (k : nat) (grid : list (list nat)) (procs : processes)
  (ss : state_space) (inp : inputs) (ev : list (list R)) (si : sim_spec) (t : nat)
  (s m : list R) (o : outcome) : Prop := {
  xr_state : in_model (create_core_state_space sp) grid t (o_ind o);
  xr_shocks : o_shocks o = s;
  xr_available : available (choices_of sp neg k grid (o_ind o)) (o_choice o);
  xr_length : length (o_values o) = count_true (choices_of sp neg k grid (o_ind o));
  xr_values : forall j c, nth_error (positions (choices_of sp neg k grid (o_ind o))) j = Some c ->
      exists v,
        nth_error (o_values o) j =
          Some (flow_of inp (choices_of sp neg k grid (o_ind o)) (Some (i_dense (o_ind o)))
                  (i_core (o_ind o)) s c + si_beta si * p_delta (in_params inp) * v) /\
        (S t = sp_nperiods sp -> v = 0) /\
        ((S t < sp_nperiods sp)%nat ->
          expected_stored ss ev procs (in_cov inp (Some (i_dense (o_ind o))) (i_core (o_ind o)))
            (i_dense (o_ind o)) (law_of_motion c (i_core (o_ind o))) v);
  xr_choice : record_choice (in_choices inp) (choices_of sp neg k grid (o_ind o)) (o_values o)
              = Some (o_choice o);
  xr_wage : exists j c, first_max (o_values o) j /\
    nth_error (positions (choices_of sp neg k grid (o_ind o))) j = Some c /\
    o_wage o = if Nat.ltb c (p_nwages (in_params inp))
               then Some (wage_of (in_params inp) (in_cov inp (Some (i_dense (o_ind o))) (i_core (o_ind o))) c
                          * shock_of (in_params inp) (choices_of sp neg k grid (o_ind o)) s c
                          * exp (nth c m 0 * nth c (si_meas si) 0))
               else None
}.

(** Value of choice [c]: flow utility plus present-biased and discounted value of the remaining
    periods, expected over the levels of the processes in the next period. *)
Definition exogenous_decision_value (sp : core_spec) (neg : neg_set) (k : nat) (grid : list (list nat)) (procs : processes)
  (inp : inputs) (beta : R) (t : nat) (x : individual) (base : list R) (c : nat) : R :=
  flow_of inp (choices_of sp neg k grid x) (Some (i_dense x)) (i_core x) base c +
  beta * p_delta (in_params inp) *
  rsum (map (fun e => joint procs (in_cov inp (Some (i_dense x)) (i_core x)) e *
                      expected_value (choice_set_of sp (process sp (S k) neg)) inp procs (sp_nperiods sp - S t)
                        (static_part (length procs) (i_dense x) ++ e) (law_of_motion c (i_core x)))
            (combinations (map (fun p => length p) procs))).
