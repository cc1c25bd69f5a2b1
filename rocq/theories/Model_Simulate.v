(** Model of the simulation (respy/simulate.py).  Floating-point numbers are modelled by
    the real numbers.  Definitions only; see Props_Simulate.v for the theorems. *)
From Coq Require Import List Arith ZArith Bool Reals.
From Verif Require Import Base Model_CoreStateSpace Model_StateSpace Model_Solve Model_Parallel.
Import ListNotations.
Open Scope R_scope.

(** ** Choice and wage of one individual in one period *)

(** [np.nanargmax] of a row without NaN: the first index of the maximum; an empty row is a
    ValueError. *)
Fixpoint argmax_from (best : nat) (m : R) (i : nat) (l : list R) : nat :=
  match l with
  | [] => best
  | x :: r => if Rlt_dec m x then argmax_from i x (S i) r else argmax_from best m (S i) r
  end.
Definition argmax (l : list R) : option nat :=
  match l with [] => None | x :: r => Some (argmax_from 0 x 1 r) end.

(** simulate.py:433: [[i for i, x in enumerate(choices) if x in valid_choices]]. *)
Definition choice_positions (choices valid : list nat) : list nat :=
  map fst (filter (fun p => mem (snd p) valid) (enumerate choices)).

(** simulate.py:434-435: the choice positions are replaced by codes one after the other. *)
Definition recode (positions : list nat) (choice : nat) : nat :=
  fold_left (fun c pv => if Nat.eqb c (fst pv) then snd pv else c) (enumerate positions) choice.

(** simulate.py:425 and 433-435. *)
Definition record_choice (choices : list nat) (cs : list bool) (values : list R) : option nat :=
  option_map (recode (choice_positions choices (select_valid_choices choices cs)))
             (argmax values).

(** The part of [optim_paras] and of the arguments of [simulate] that is used in a period:
    parameters, names of choices, [beta] (present bias), standard deviations of the
    measurement errors for all choices. *)
Record sim_spec := mkSim {
  si_params : params;
  si_choices : list nat;
  si_beta : R;
  si_meas : list R
}.

(** An individual at the beginning of a period: core and dense state variables (in the
    order of [create_dense_state_space_columns]). *)
Record individual := mkInd { i_core : core_state; i_dense : list nat }.

(** A row of [current_df]: the individual, its location in the state space and its base
    draws and transformed measurement errors for all choices. *)
Record sim_row := mkRow {
  r_ind : individual;
  r_key : nat;
  r_index : nat;
  r_shocks : list R;
  r_meas : list R
}.

(** The columns of the returned rows that are used in the theorems.  [o_next] is the drawn
    "dense_key_next_period". *)
Record outcome := mkOut {
  o_ind : individual;
  o_choice : nat;
  o_wage : option R;
  o_values : list R;         (* value functions of the available choices *)
  o_shocks : list R;         (* base draws of all choices *)
  o_next : nat
}.

(** simulate.py:411-423: value functions of the available choices; [draws] are the
    transformed shocks of the available choices.  shared.py:28-58, with [beta_delta] =
    beta * delta (model_processing.py:180). *)
Definition value_functions (wages nonpecs conts draws : list R) (beta_delta : R) : list R :=
  map (fun j => fst (aggregate_keane_wolpin_utility (nth j wages 0) (nth j nonpecs 0)
                       (nth j conts 0) (nth j draws 0) beta_delta))
      (seq 0 (length wages)).

(** simulate.py:428-430: [wages * draws * draws_wage], missing from column [n_wages] on;
    [np.choose] then picks the entry of the chosen position.  ([np.choose] supports at
    most 32 choices; this is outside the model.) *)
Definition observed_wages (wages draws meas : list R) (n_wages : nat) : list (option R) :=
  map (fun j => if Nat.ltb j n_wages
                then Some (nth j wages 0 * nth j draws 0 * nth j meas 0) else None)
      (seq 0 (length wages)).

(** simulate.py:373-457 (_simulate_single_period) for one row of the group of a dense
    key. *)
Definition simulate_row (si : sim_spec) (next_key : index -> nat -> nat -> nat) (cx : complex)
  (wages nonpecs conts : list (list R)) (i : index) (r : sim_row) : result outcome :=
  let cs := cx_choice_set cx in
  let p := si_params si in
  let n_wages := count_true (firstn (p_nwages p) cs) in
  match nth_error wages (r_index r), nth_error nonpecs (r_index r), nth_error conts (r_index r) with
  | Some w, Some n, Some c =>
      let draws := transform_draw (subset_cholesky (p_chol p) cs) n_wages
                     (compress cs (r_shocks r)) in
      let meas := compress cs (r_meas r) in
      let values := value_functions w n c draws (si_beta si * p_delta p) in
      match argmax values, record_choice (si_choices si) cs values with
      | Some position, Some choice =>
          Ok (mkOut (r_ind r) choice (nth position (observed_wages w draws meas n_wages) None)
                    values (r_shocks r) (next_key i (r_key r) (r_index r)))
      | _, _ => ValueError
      end
  | _, _, _ => IndexError
  end.

(** What is passed to the function that is distributed over the dense keys. *)
Inductive sval :=
| VFrame (df : frame sim_row)
| VComplex (cx : complex)
| VMat (m : list (list R)).

(** simulate.py:373-457 for the group of a dense key.  [optim_paras] and [options] are
    dictionaries with strings as keys, which are passed through to every group.  If the
    function is called with dictionaries instead (no common key) it raises. *)
Definition simulate_group (si : sim_spec) (next_key : index -> nat -> nat -> nat)
  (args : list (pyval sval)) (kwargs : list (nat * pyval sval)) : ret (frame (result outcome)) :=
  match args with
  | PAtom (VFrame df) :: rest =>
      RVal (map (fun r => (fst r,
              match rest with
              | [PAtom (VComplex cx); PAtom (VMat w); PAtom (VMat n); PAtom (VMat c)] =>
                  simulate_row si next_key cx w n c (fst r) (snd r)
              | _ => OtherError
              end)) df)
  | _ => RVal [((0, 0)%nat, OtherError)]
  end.

(** A dictionary over dense keys as an argument. *)
Definition dense_dict {A} (inj : A -> sval) (d : list (nat * A)) : pyval sval :=
  PDict (map (fun kv => (KInt (fst kv), PAtom (inj (snd kv)))) d).

(** Rows which may have raised. *)
Fixpoint sequence_frame {A} (df : frame (result A)) : result (frame A) :=
  match df with
  | [] => Ok []
  | (i, x) :: r => result_bind x (fun y => result_bind (sequence_frame r) (fun ys => Ok ((i, y) :: ys)))
  end.

(** ** The panel *)

(** The solved state space as seen by the simulation. *)
Record environment := mkEnv {
  en_locate : core_state -> list nat -> result (nat * nat);
  en_complex : nat -> list (nat * complex);                 (* by period *)
  en_wages : nat -> result (list (nat * list (list R)));
  en_nonpecs : nat -> result (list (nat * list (list R)));
  en_conts : nat -> result (list (nat * list (list R)));
  en_dense_cov : nat -> option (list nat)
}.

(** shared.py:599-621 (map_observations_to_states) for one row. *)
Definition locate_row (env : environment) (shocks meas : list R) (x : individual)
  : result sim_row :=
  result_bind (en_locate env (i_core x) (i_dense x))
    (fun ki => Ok (mkRow x (fst ki) (snd ki) shocks meas)).

(** simulate.py:191-225: one period, given the base draws and transformed measurement
    errors of the rows; columns of a different length are a ValueError. *)
Definition simulate_period (env : environment) (si : sim_spec) (order : list nat -> list nat)
  (next_key : nat -> index -> nat -> nat -> nat) (period : nat) (current : frame individual)
  (shocks meas : list (list R)) : result (frame outcome) :=
  if Nat.eqb (length shocks) (length current) && Nat.eqb (length meas) (length current) then
    result_bind (sequence_frame
      (map (fun x => (fst (fst x), locate_row env (fst (snd x)) (snd (snd x)) (snd (fst x))))
           (combine current (combine shocks meas)))) (fun rows =>
    result_bind (en_wages env period) (fun wages =>
    result_bind (en_nonpecs env period) (fun nonpecs =>
    result_bind (en_conts env period) (fun conts =>
    result_bind (split_and_combine VFrame r_key order (simulate_group si (next_key period)) rows
       [dense_dict VComplex (en_complex env period); dense_dict VMat wages;
        dense_dict VMat nonpecs; dense_dict VMat conts] [] []) sequence_frame))))
  else ValueError.

(** shared.py:800-814 (get_exogenous_from_dense_covariates): [dense_covariates[-n:]];
    with n = 0 this is the whole tuple. *)
Definition exogenous_part (n : nat) (vec : list nat) : list nat :=
  match n with O => vec | _ => skipn (length vec - n) vec end.

(** simulate.py:247-298 (apply_law_of_motion_for_dense, update_dense_state_variables): the
    exogenous variables are the last columns. *)
Definition update_dense (env : environment) (n_exog : nat) (dense : list nat) (next : nat)
  : result (list nat) :=
  match n_exog with
  | O => Ok dense
  | _ => match en_dense_cov env next with
         | None => KeyError
         | Some vec => Ok (firstn (length dense - n_exog) dense ++ exogenous_part n_exog vec)
         end
  end.

(** simulate.py:235-240: next period's state of a row. *)
Definition next_state (env : environment) (n_exog : nat) (o : outcome) : result individual :=
  result_bind (update_dense env n_exog (i_dense (o_ind o)) (o_next o))
    (fun d => Ok (mkInd (law_of_motion (o_choice o) (i_core (o_ind o))) d)).

Definition next_frame (env : environment) (n_exog : nat) (df : frame outcome)
  : result (frame individual) :=
  sequence_frame (map (fun r => ((fst (fst r), S (snd (fst r))), next_state env n_exog (snd r))) df).

(** [a[n : n + k]] *)
Definition slice {A} (l : list A) (from upto : nat) : list A :=
  firstn (upto - from) (skipn from l).

(** simulate.py:188: [np.exp(base_draws_wage * meas_error)]. *)
Definition measurement_errors (si : sim_spec) (base : list (list R)) : list (list R) :=
  map (fun row => map (fun p => exp (fst p * snd p)) (combine row (si_meas si))) base.

(** simulate.py:190-240, n-step-ahead: [m] further periods from period [t] on. *)
Fixpoint n_step (env : environment) (si : sim_spec) (order : list nat -> list nat)
  (next_key : nat -> index -> nat -> nat -> nat) (n_exog : nat)
  (base meas : list (list R)) (m t : nat) (df : frame individual)
  : result (list (frame outcome)) :=
  match m with
  | O => Ok []
  | S m' =>
      let current := filter (fun r => Nat.eqb (snd (fst r)) t) df in
      let from := (length df * t)%nat in
      let upto := (length df * S t)%nat in
      result_bind (simulate_period env si order next_key t current
                     (slice base from upto) (slice meas from upto)) (fun out =>
      match m' with
      | O => Ok [out]
      | _ => result_bind (next_frame env n_exog out) (fun df' =>
             result_bind (n_step env si order next_key n_exog base meas m' (S t) df') (fun rest =>
             Ok (out :: rest)))
      end)
  end.

(** simulate.py:583-588: the frames of all periods, sorted by index. *)
Definition simulate_n_step (env : environment) (si : sim_spec) (order : list nat -> list nat)
  (next_key : nat -> index -> nat -> nat -> nat) (n_exog n_periods : nat)
  (base base_wage : list (list R)) (df : frame individual) : result (frame outcome) :=
  result_bind (n_step env si order next_key n_exog base (measurement_errors si base_wage)
                 n_periods 0 df)
    (fun frames => Ok (sort_index (concat frames))).

(** simulate.py:190-240, one-step-ahead: the rows of a period with the draws of the same
    positions. *)
Definition rows_of_period (df : frame individual) (t : nat) : list bool :=
  map (fun r => Nat.eqb (snd (fst r)) t) df.
Definition one_step (env : environment) (si : sim_spec) (order : list nat -> list nat)
  (next_key : nat -> index -> nat -> nat -> nat)
  (n_periods : nat) (base base_wage : list (list R)) (df : frame individual)
  : result (frame outcome) :=
  let meas := measurement_errors si base_wage in
  result_bind
    (result_all
      (map (fun t =>
         simulate_period env si order next_key t
           (filter (fun r => Nat.eqb (snd (fst r)) t) df)
           (compress (rows_of_period df t) base) (compress (rows_of_period df t) meas))
        (seq 0 n_periods)))
    (fun frames => Ok (sort_index (concat frames))).

(** ** The environment of a model without exogenous processes *)

(** shared.py:599-672 (map_observations_to_states): state_space.py:172-183 for the
    dictionary of dense combinations. *)
Definition locate (ss : state_space) (s : core_state) (dense : list nat) : result (nat * nat) :=
  match dict_get core_state_eq_dec s (ss_indexer ss) with
  | None => KeyError
  | Some (ck, ci) =>
      match ss_grid ss with
      | [] => Ok (ck, ci)
      | grid =>
          match dict_get (list_eq_dec Nat.eq_dec) dense
                  (dict_of_pairs (list_eq_dec Nat.eq_dec)
                     (map (fun p => (snd p, fst p)) (enumerate grid))) with
          | None => KeyError
          | Some d =>
              match dict_get pair_nat_eq_dec (ck, d)
                      (core_key_and_dense_index_to_dense_key (ss_dpc ss)) with
              | None => KeyError
              | Some k => Ok (k, ci)
              end
          end
      end
  end.

(** simulate.py:205-214 and state_space.py:368-383 (get_attribute_from_period). *)
Definition attribute_from_period {A} (ss : state_space) (f : nat -> result A) (period : nat)
  : result (list (nat * A)) :=
  result_all (map (fun k => result_bind (f k) (fun x => Ok (k, x))) (dense_keys_from_period ss period)).

Definition environment_of (ss : state_space) (inp : inputs) (ev : list (list R)) : environment :=
  mkEnv (locate ss)
    (fun t => flat_map (fun k => match dense_key_to_complex ss k with
                                 | Some cx => [(k, cx)] | None => [] end)
                       (dense_keys_from_period ss t))
    (attribute_from_period ss (fun k => result_bind (rewards_of ss inp k) (fun wn => Ok (fst wn))))
    (attribute_from_period ss (fun k => result_bind (rewards_of ss inp k) (fun wn => Ok (snd wn))))
    (fun t => attribute_from_period ss (get_continuation_values 0 ss ev t) t)
    (fun k => match dense_key_to_complex ss k with
              | Some cx => match cx_dense cx with
                           | Some d => nth_error (ss_grid ss) d
                           | None => None end
              | None => None end).

(** ** Arguments of the simulation *)

Inductive method := NStepSampling | NStepData | OneStep.

(** simulate.py:662-688 (_harmonize_simulation_arguments).  [data] are the (identifier,
    period) pairs of the data; returns the number of simulated periods, the number of
    periods of the model and the number of simulated individuals.  [max] of an empty index
    raises or gives NaN, which cannot be converted ([ValueError]). *)
Definition harmonize (m : method) (data : list (nat * nat)) (requested : option nat)
  (n_periods agents : nat) : result (nat * nat * nat) :=
  let n_sim := match requested, m with
               | None, OneStep => match data with
                                  | [] => ValueError
                                  | _ => Ok (S (list_max (map snd data)))
                                  end
               | _, _ => Ok n_periods
               end in
  result_bind n_sim (fun n =>
    let agents' := match m with
                   | NStepSampling => agents
                   | _ => length (drop_duplicates Nat.eq_dec (map fst data))
                   end in
    Ok (n, if Nat.ltb n_periods n then n else n_periods, agents')).

(** simulate.py:691-712 (_process_input_df_for_simulation, n-step-ahead with data): the
    rows (identifier, 0) for identifiers 0, ..., n - 1; rows that do not exist in the data
    are filled with missing values ([None]). *)
Definition initial_rows {A} (data : frame A) (agents : nat) : frame (option A) :=
  map (fun k => ((k, 0%nat),
                 option_map snd (find (fun r => Nat.eqb (fst (fst r)) k && Nat.eqb (snd (fst r)) 0) data)))
      (seq 0 agents).

(** ** Sampling of characteristics *)

(** [np.round(x, 5)]: round half to even of [x * 10^5], divided by [10^5]. *)
Definition round_half_even (x : R) : Z :=
  let n := Int_part x in
  let f := x - IZR n in
  if Rlt_dec f (1 / 2) then n
  else if Rlt_dec (1 / 2) f then (n + 1)%Z
  else if Z.even n then n else (n + 1)%Z.
Definition round5 (x : R) : R := IZR (round_half_even (x * 100000)) / 100000.

Fixpoint cumsum (acc : R) (l : list R) : list R :=
  match l with [] => [] | x :: r => (acc + x) :: cumsum (acc + x) r end.

Fixpoint round_last (l : list R) : list R :=
  match l with
  | [] => []
  | [x] => [round5 x]
  | x :: r => x :: round_last r
  end.

(** [(u < cdf).argmax()]: first index with True, 0 if there is none. *)
Fixpoint first_below (u : R) (i : nat) (l : list R) : option nat :=
  match l with
  | [] => None
  | x :: r => if Rlt_dec u x then Some i else first_below u (S i) r
  end.

(** simulate.py:598-659 (_random_choice) for one row of probabilities and its uniform draw:
    position of the drawn level.  No level at all is an IndexError. *)
Definition random_choice (probs : list R) (u : R) : result nat :=
  let cdf := round_last (cumsum 0 probs) in
  match cdf with
  | [] => IndexError
  | _ => if Req_EM_T (last cdf 0) 1 then
           Ok match first_below u 0 cdf with Some i => i | None => 0%nat end
         else ValueError
  end.

(** simulate.py:528-535: softmax (scipy subtracts the maximum first, which does not change
    the value). *)
Definition softmax (z : list R) : list R :=
  map (fun x => exp x / fold_right Rplus 0 (map exp z)) z.

(** simulate.py:488-542 (_sample_characteristic) for one individual with covariates [x]:
    [levels] are the parameters of each level in the order of the dictionary. *)
Definition sample_characteristic (x : nat -> R) (levels : list (list (nat * R))) (u : R)
  : result nat :=
  random_choice (softmax (map (pandas_dot x) levels)) u.

(** simulate.py:351-365: column "type": missing values of rows of the first period are
    replaced by sampled types, then all missing values are filled with the last value
    before, regardless of the individual. *)
Definition fill_first_period (sampled : index -> nat) (df : frame (option nat))
  : frame (option nat) :=
  map (fun r => (fst r, match snd r with
                        | Some v => Some v
                        | None => if Nat.eqb (snd (fst r)) 0 then Some (sampled (fst r)) else None
                        end)) df.
Fixpoint ffill (last : option nat) (df : frame (option nat)) : frame (option nat) :=
  match df with
  | [] => []
  | (i, v) :: r => let v' := match v with Some x => Some x | None => last end in
                   (i, v') :: ffill v' r
  end.
Definition type_column (sampled : index -> nat) (df : frame (option nat))
  : frame (option nat) :=
  ffill None (fill_first_period sampled (sort_index df)).
