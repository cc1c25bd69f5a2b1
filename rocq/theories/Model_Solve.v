(** Model of the solution: rewards, shocks, EMAX and backward induction.  Floating-point
    numbers are modelled by the real numbers.  Definitions only. *)
From Coq Require Import List Arith Bool Reals.
From Verif Require Import Base Model_CoreStateSpace Model_StateSpace.
Import ListNotations.
Open Scope R_scope.

(** ** Rewards *)

(** Assignment [M[:, i] = vals]. *)
Fixpoint set_nth {A} (i : nat) (x : A) (l : list A) : list A :=
  match l, i with
  | [], _ => []
  | _ :: r, O => x :: r
  | y :: r, S j => y :: set_nth j x r
  end.
Definition set_col {A} (i : nat) (vals : list A) (M : list (list A)) : list (list A) :=
  map (fun p => set_nth i (snd p) (fst p)) (combine M vals).

(** shared.py:553-596 (pandas_dot): one row; [x] is the row of the data frame (column
    name -> value), [beta] the parameter series. *)
Definition pandas_dot (x : nat -> R) (beta : list (nat * R)) : R :=
  fold_left (fun out p => out + snd p * x (fst p)) beta 0.

(** The parameters that enter the solution (entries of [optim_paras]):
    wage and non-pecuniary parameters per choice (absent keys: [None]), discount factor,
    Cholesky factor of the shocks, number of choices with wage (these come first). *)
Record params := mkParams {
  p_wage : nat -> option (list (nat * R));
  p_nonpec : nat -> option (list (nat * R));
  p_delta : R;
  p_chol : list (list R);
  p_nwages : nat
}.

(** shared.py:719-730 (select_valid_choices). *)
Definition select_valid_choices {A} (choices : list A) (choice_set : list bool) : list A :=
  map snd (filter (fun p => nth (fst p) choice_set false) (enumerate choices)).

(** solve.py:111-129 (_create_choice_rewards): two arrays, initialised with ones and
    zeros, filled column by column.  [choices] is the list of choice names. *)
Definition create_choice_rewards (states : list (nat -> R)) (choices : list nat)
  (choice_set : list bool) (p : params) : list (list R) * list (list R) :=
  let n_choices := count_true choice_set in
  let cols := enumerate (select_valid_choices choices choice_set) in
  fold_left
    (fun wn ic =>
       let wages := match p_wage p (snd ic) with
                    | Some b => set_col (fst ic) (map (fun x => exp (pandas_dot x b)) states) (fst wn)
                    | None => fst wn
                    end in
       let nonpecs := match p_nonpec p (snd ic) with
                      | Some b => set_col (fst ic) (map (fun x => pandas_dot x b) states) (snd wn)
                      | None => snd wn
                      end in
       (wages, nonpecs))
    cols
    (map (fun _ => repeat 1 n_choices) states, map (fun _ => repeat 0 n_choices) states).

(** ** Shocks *)

(** shared.py:530-542 (subset_cholesky_factor_to_choice_set). *)
Definition subset_cholesky (chol : list (list R)) (choice_set : list bool) : list (list R) :=
  map (compress choice_set) (compress choice_set chol).

(** Inner product of two vectors. *)
Fixpoint dotp (a b : list R) : R :=
  match a, b with
  | x :: xs, y :: ys => x * y + dotp xs ys
  | _, _ => 0
  end.

(** config.py: MIN_LOG_FLOAT, MAX_LOG_FLOAT = -460, 460 (approximately the logarithms of
    1e-200 and 1e200). *)
Definition max_log_float : R := 460.
Definition clip (lo hi x : R) : R := Rmin hi (Rmax lo x).

(** shared.py:135-169 (transform_base_draws_with_cholesky_factor): [draws.dot(chol.T)],
    then the first [n_wages] columns are exponentiated. *)
Definition transform_draw (chol : list (list R)) (n_wages : nat) (draw : list R) : list R :=
  let t := map (fun row => dotp draw row) chol in
  map (fun p => if Nat.ltb (fst p) n_wages
                then exp (clip (- max_log_float) max_log_float (snd p)) else snd p)
      (enumerate t).
Definition transform_draws (draws : list (list R)) (choice_set : list bool) (p : params)
  : list (list R) :=
  map (transform_draw (subset_cholesky (p_chol p) choice_set)
         (count_true (firstn (p_nwages p) choice_set))) draws.

(** ** EMAX *)

(** shared.py:28-58 (aggregate_keane_wolpin_utility): value function and flow utility. *)
Definition aggregate_keane_wolpin_utility (wage nonpec cont draw delta : R) : R * R :=
  let flow := wage * draw + nonpec in (flow + delta * cont, flow).

(** shared.py:495-507: the loop over choices for one draw; the running maximum starts at
    zero. *)
Definition max_value (wages nonpecs conts : list R) (delta : R) (n_choices : nat)
  (draw : list R) : R :=
  fold_left
    (fun m j =>
       let v := fst (aggregate_keane_wolpin_utility (nth j wages 0) (nth j nonpecs 0)
                       (nth j conts 0) (nth j draw 0) delta) in
       if Rlt_dec m v then v else m)
    (seq 0 n_choices) 0.

(** shared.py:441-509 (calculate_expected_value_functions) for one state. *)
Definition emax (wages nonpecs conts : list R) (draws : list (list R)) (delta : R) : R :=
  fold_left (fun acc draw => acc + max_value wages nonpecs conts delta (length wages) draw)
            draws 0 / INR (length draws).

(** The same broadcast over the states of a dense key; numpy rejects different shapes. *)
Definition calculate_expected_value_functions (wages nonpecs conts : list (list R))
  (draws : list (list R)) (delta : R) : result (list R) :=
  if Nat.eqb (length wages) (length nonpecs) && Nat.eqb (length wages) (length conts) then
    Ok (map (fun t => emax (fst t) (fst (snd t)) (snd (snd t)) draws delta)
            (combine wages (combine nonpecs conts)))
  else ValueError.

(** ** Backward induction *)

(** Everything [solve] uses apart from the state space: parameters, names of choices,
    covariates of a state (the columns of the cached states file), base draws for a
    number of choices and a period (state_space.py:339-358), number of interpolation
    points (the option -1 is represented by 0: neither is at least twice the number of
    keys), and the interpolation routine (modelled in Model_Interpolate.v) as a function
    of the period, the continuation values and the key. *)
Record inputs := mkInputs {
  in_params : params;
  in_choices : list nat;
  in_cov : option (list nat) -> core_state -> nat -> R;
  in_base : nat -> nat -> list (list R);
  in_points : nat;
  in_interp : nat -> list (nat * list (list R)) -> result (list (nat * list R))
}.

(** solve.py:81-108 (_create_param_specific_objects) for one dense key, without
    exogenous processes. *)
Definition rewards_of (ss : state_space) (inp : inputs) (k : nat)
  : result (list (list R) * list (list R)) :=
  match dense_key_to_complex ss k with
  | None => KeyError
  | Some cx =>
      match dict_get complex_eq_dec cx (ss_files ss) with
      | None => OtherError
      | Some f => Ok (create_choice_rewards (map (in_cov inp (snd f)) (fst f))
                        (in_choices inp) (cx_choice_set cx) (in_params inp))
      end
  end.

(** state_space.py:339-358 (create_draws) and solve.py:159-164: transformed draws of a
    dense key. *)
Definition draws_of (ss : state_space) (inp : inputs) (k : nat) : list (list R) :=
  match dense_key_to_complex ss k with
  | None => []
  | Some cx => transform_draws (in_base inp (count_true (cx_choice_set cx)) (cx_period cx))
                 (cx_choice_set cx) (in_params inp)
  end.

(** state_space.py:385-405 (set_attribute_from_keys) for one key: the stored array is
    overwritten in place.  (NumPy would also broadcast an array of length one.) *)
Definition set_ev (ev : list (list R)) (k : nat) (arr : list R) : result (list (list R)) :=
  match nth_error ev k with
  | None => KeyError
  | Some old => if Nat.eqb (length old) (length arr) then Ok (set_nth k arr ev) else ValueError
  end.

(** solve.py:180-184 *)
Definition any_interpolated (ss : state_space) (points period : nat) : bool :=
  let keys := dense_keys_from_period ss period in
  let n_states := list_sum (map (fun k => match dense_key_to_core_indices ss k with
                                          | Some l => length l | None => 0%nat end) keys) in
  Nat.ltb points n_states && Nat.leb (2 * length keys) points.

(** solve.py:187-206: the expected value functions of the keys of one period. *)
Definition period_values (ss : state_space) (inp : inputs) (ev : list (list R)) (period : nat)
  : result (list (nat * list R)) :=
  let keys := dense_keys_from_period ss period in
  if Req_EM_T (p_delta (in_params inp)) 0 then
    Ok (map (fun k => (k, repeat 0 match dense_key_to_core_indices ss k with
                                   | Some l => length l | None => 0%nat end)) keys)
  else if any_interpolated ss (in_points inp) period then
    result_bind
      (result_all (map (fun k => result_bind (get_continuation_values 0 ss ev period k)
                                             (fun c => Ok (k, c))) keys))
      (fun conts => in_interp inp period conts)
  else
    result_all
      (map (fun k =>
         result_bind (rewards_of ss inp k) (fun wn =>
         result_bind (get_continuation_values 0 ss ev period k) (fun conts =>
         result_bind (calculate_expected_value_functions (fst wn) (snd wn) conts
                        (draws_of ss inp k) (p_delta (in_params inp))) (fun arr =>
         Ok (k, arr))))) keys).

Definition solve_period (ss : state_space) (inp : inputs) (period : nat) (ev : list (list R))
  : result (list (list R)) :=
  result_bind (period_values ss inp ev period)
    (fun vals => fold_result (fun p ev => set_ev ev (fst p) (snd p)) vals ev).

(** solve.py:132-212 (_solve_with_backward_induction). *)
Definition solve_with_backward_induction (ss : state_space) (inp : inputs)
  (ev : list (list R)) : result (list (list R)) :=
  fold_result (solve_period ss inp) (rev (seq 0 (ss_nperiods ss))) ev.

(** state_space.py:189-195 (create_arrays_for_expected_value_functions). *)
Definition initial_ev (ss : state_space) : list (list R) :=
  map (fun p => repeat 0 match nth_error (ss_groups ss) (snd p) with
                         | Some l => length l | None => 0%nat end) (ss_dpc ss).
