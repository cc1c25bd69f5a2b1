(** Model of the approximate solution (interpolate.py).  Floating-point numbers are
    modelled by the real numbers, the random number generator and the pseudo-inverse are
    parameters.  Definitions only; see Props_Interpolate.v for the theorems. *)
From Coq Require Import List Arith Bool Reals.
From Verif Require Import Base Model_CoreStateSpace Model_StateSpace Model_Solve Model_ConditionalDraws.
Import ListNotations.
Open Scope R_scope.

(** ** Distribution of the interpolation points *)

(** interpolate.py:174-187: [m] draws of a dense key; [choose i probs] is the position of
    the [i]-th drawn key ([np.random.choice] with probabilities).  The state consists of
    the points of the keys, the states of the keys which are left, and the last drawn
    position.  Probabilities with denominator zero are not numbers and rejected.  The
    integer array [n_states] cannot become negative because a key without states left has
    probability zero. *)
Fixpoint distribute_points (choose : nat -> list R -> nat) (m i : nat)
  (st : list nat * list nat * option nat) : result (list nat * list nat * option nat) :=
  match m with
  | O => Ok st
  | S m' =>
      let '(points, rest, _) := st in
      let total := list_sum rest in
      if Nat.eqb total 0 then ValueError else
      let pos := choose i (map (fun n => INR n / INR total) rest) in
      match nth_error points pos, nth_error rest pos with
      | Some p, Some n =>
          distribute_points choose m' (S i)
            (set_nth pos (S p) points, set_nth pos (n - 1)%nat rest, Some pos)
      | _, _ => IndexError
      end
  end.

(** interpolate.py:137-200 (_split_interpolation_points_evenly): points of the keys and
    whether there is a warning.  The dictionary of shares (interpolate.py:189-193) has the
    last drawn key as its only key, with the value of the last iteration; without drawn
    key the name [dense_key] is unbound. *)
Definition split_interpolation_points_evenly (choose : nat -> list R -> nat)
  (n_states : list nat) (interpolation_points : nat) : result (list nat * bool) :=
  let points := map (fun n => if Nat.ltb 2 n then 2%nat else n) n_states in
  let rest := map (fun n => n - 2)%nat n_states in
  result_bind (distribute_points choose (interpolation_points - 2 * length n_states) 0
                 (points, rest, None))
  (fun st =>
     let '(points, _, last_drawn) := st in
     match last_drawn with
     | None => if Nat.eqb (length n_states) 0 then Ok (points, false) else NameError
     | Some pos =>
         let share := INR (last points 0%nat) / INR (nth pos n_states 0%nat) in
         Ok (points, if Rlt_dec share (1 / 100) then true else false)
     end).

(** interpolate.py:203-228 (_get_not_interpolated_indicator): [subset n size] is the draw
    without replacement ([np.random.choice]), which is rejected if it is too large. *)
Definition get_not_interpolated_indicator (subset : nat -> nat -> list nat) (points n_states : nat)
  : result (list bool) :=
  if Nat.ltb n_states points then ValueError
  else Ok (map (fun i => if in_dec Nat.eq_dec i (subset n_states points) then true else false)
               (seq 0 n_states)).

(** ** The linear model *)

(** interpolate.py:231-244 (_compute_expected_shocks): expected shocks of all choices and
    of the available choices. *)
Definition expected_shock (p : params) (c : nat) : R :=
  if Nat.ltb c (p_nwages p)
  then exp (clip 0 max_log_float (dotp (nth c (p_chol p) []) (nth c (p_chol p) [])) / 2)
  else 0.
Definition compute_expected_shocks (p : params) (choice_set : list bool) : list R :=
  compress choice_set (map (expected_shock p) (seq 0 (length choice_set))).

(** interpolate.py:247-289 (_compute_rhs_variables) for one state: the maximum and the row
    of exogenous variables.  The maximum over no choices is rejected. *)
Definition search_maximum (l : list R) : result R :=
  match l with
  | [] => ValueError
  | x :: r => Ok (fold_left (fun m y => if Rlt_dec m y then y else m) r x)
  end.
Definition compute_rhs_variables (wages nonpecs conts shocks : list R) (delta : R)
  : result (list R * R) :=
  let values := map (fun j => fst (aggregate_keane_wolpin_utility (nth j wages 0) (nth j nonpecs 0)
                                     (nth j conts 0) (nth j shocks 0) delta))
                    (seq 0 (length wages)) in
  result_bind (search_maximum values) (fun m =>
  let differences := map (fun v => m - v) values in
  Ok (differences ++ map sqrt differences ++ [1], m)).

(** [a[mask] = vals] *)
Fixpoint fill (mask : list bool) (vals old : list R) : list R :=
  match mask, old with
  | b :: m, x :: r =>
      if b then match vals with v :: vs => v :: fill m vs r | [] => x :: fill m [] r end
      else x :: fill m vals r
  | _, _ => old
  end.

(** interpolate.py:340-378 (_predict_with_linear_model); [ols] is the routine for the
    coefficients. *)
Definition predict_with_linear_model (ols : list R -> list (list R) -> list R)
  (endogenous : list R) (exogenous : list (list R)) (maxima : list R) (not_interpolated : list bool)
  : list R :=
  let beta := ols endogenous (compress not_interpolated exogenous) in
  let predicted := map (fun row => Rmax 0 (dotp row beta)) exogenous in
  let predictions := map (fun p => fst p + snd p) (combine predicted maxima) in
  fill not_interpolated
    (map (fun p => fst p + snd p) (combine endogenous (compress not_interpolated maxima)))
    predictions.

(** The steps for one dense key: interpolate.py:116-134 with 292-337. *)
Definition interpolate_key (ols : list R -> list (list R) -> list R)
  (wages nonpecs conts draws : list (list R)) (shocks : list R) (delta : R) (not_interpolated : list bool)
  : result (list R) :=
  if Nat.eqb (length wages) (length nonpecs) && Nat.eqb (length wages) (length conts) &&
     Nat.eqb (length wages) (length not_interpolated) then
  result_bind (result_all (map (fun t => compute_rhs_variables (fst t) (fst (snd t)) (snd (snd t)) shocks delta)
                               (combine wages (combine nonpecs conts))))
  (fun rhs =>
  result_bind (calculate_expected_value_functions (compress not_interpolated wages)
                 (compress not_interpolated nonpecs) (compress not_interpolated conts) draws delta)
  (fun emax =>
     let maxima := map snd rhs in
     let endogenous := map (fun p => fst p - snd p) (combine emax (compress not_interpolated maxima)) in
     Ok (predict_with_linear_model ols endogenous (map fst rhs) maxima not_interpolated)))
  else ValueError.

(** The random draws of one solution: the keys which receive points in a period, and the
    states of a key which are simulated.  (The seeds are part of C43.)  [or_ols] is the
    least-squares routine. *)
Record interp_oracle := mkInterpOracle {
  or_choose : nat -> nat -> list R -> nat;
  or_subset : nat -> nat -> nat -> list nat;
  or_ols : list R -> list (list R) -> list R
}.

Definition n_states_of_key (ss : state_space) (k : nat) : nat :=
  match dense_key_to_core_indices ss k with Some l => length l | None => 0%nat end.

(** interpolate.py:13-123 (kw_94_interpolation): [conts] are the continuation values of the
    keys of the period. *)
Definition kw_94_interpolation (ss : state_space) (inp : inputs) (o : interp_oracle)
  (period : nat) (conts : list (nat * list (list R))) : result (list (nat * list R)) :=
  let keys := dense_keys_from_period ss period in
  result_bind (split_interpolation_points_evenly (or_choose o period) (map (n_states_of_key ss) keys)
                 (in_points inp))
  (fun split =>
  result_all
    (map (fun kp : nat * nat =>
       let k := fst kp in
       result_bind (get_not_interpolated_indicator (or_subset o k) (snd kp) (n_states_of_key ss k))
       (fun mask =>
       match dict_get Nat.eq_dec k conts, dense_key_to_complex ss k with
       | Some cv, Some cx =>
           result_bind (rewards_of ss inp k) (fun wn =>
           result_bind (interpolate_key (or_ols o) (fst wn) (snd wn) cv (draws_of ss inp k)
                          (compute_expected_shocks (in_params inp) (cx_choice_set cx))
                          (p_delta (in_params inp)) mask)
           (fun arr => Ok (k, arr)))
       | _, _ => KeyError
       end))
     (combine keys (fst split)))).

(** The inputs of [solve] with this interpolation. *)
Definition with_interpolation (ss : state_space) (o : interp_oracle) (inp : inputs) : inputs :=
  mkInputs (in_params inp) (in_choices inp) (in_cov inp) (in_base inp) (in_points inp)
           (kw_94_interpolation ss inp o).

(** ** Ordinary least squares *)

(** interpolate.py:381-402 (ols) with [n] observations and [k] variables: [pinv] is
    [np.linalg.pinv]. *)
Definition ols (pinv : nat -> matrix -> matrix) (n k : nat) (y : nat -> R) (x : matrix) : nat -> R :=
  let xx : matrix := fun i j => sumn n (fun r => x r i * x r j) in
  let xy := fun i => sumn n (fun r => x r i * y r) in
  fun i => sumn k (fun j => pinv k xx i j * xy j).
