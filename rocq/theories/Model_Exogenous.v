(** Model of exogenous processes: transition structure, representative choice sets,
    transition probabilities, weighted continuation values and the backward induction of a
    model with exogenous processes.  Definitions only. *)
From Coq Require Import List Arith Bool Reals.
From Verif Require Import Base Model_CoreStateSpace Model_StateSpace Model_Solve Model_Simulate.
Import ListNotations.
Open Scope R_scope.

Definition dense_eq_dec : forall x y : list nat, {x = y} + {x <> y} := list_eq_dec Nat.eq_dec.

(** state_space.py:205-206: all combinations of levels of the processes. *)
Definition exogenous_grid (levels : list nat) : list (list nat) := product (map (seq 0) levels).

(** [dense_covariates[:-n]] and [dense_covariates[-n:]] for positive n
    (exogenous_processes.py:157, shared.py:800-814). *)
Definition drop_last {A} (n : nat) (l : list A) : list A := firstn (length l - n) l.
Definition last_n {A} (n : nat) (l : list A) : list A := skipn (length l - n) l.

(** state_space.py:176-182 (dense_covariates_to_dense_index). *)
Definition dense_covariates_to_dense_index (grid : list (list nat)) : list (list nat * nat) :=
  dict_of_pairs dense_eq_dec (map (fun p => (snd p, fst p)) (enumerate grid)).

(** state_space.py:184-187 (dense_key_to_dense_covariates).  Without dense variables the
    Python value is an empty dictionary, which cannot be sliced (TypeError). *)
Definition dense_covariates_of_key (grid : list (list nat)) (dpc : list (complex * nat)) (k : nat)
  : result (list nat) :=
  match nth_error dpc k with
  | None => KeyError
  | Some (cx, _) =>
      match cx_dense cx with
      | None => OtherError
      | Some d => match nth_error grid d with Some v => Ok v | None => IndexError end
      end
  end.

(** exogenous_processes.py:147-168 (create_transition_objects) for one dense key; [levels]:
    numbers of levels of the processes. *)
Definition transit_keys (grid : list (list nat)) (dpc : list (complex * nat))
  (levels : list nat) (k : nat) : result (list nat) :=
  result_bind (dense_covariates_of_key grid dpc k) (fun vec =>
  match nth_error dpc k with
  | None => KeyError
  | Some (_, ck) =>
      let static := drop_last (length levels) vec in
      result_bind
        (result_all (map (fun e =>
           match dict_get dense_eq_dec (static ++ e) (dense_covariates_to_dense_index grid) with
           | Some d => Ok d | None => KeyError end) (exogenous_grid levels)))
        (fun ds =>
           result_all (map (fun d =>
             match dict_get pair_nat_eq_dec (ck, d) (core_key_and_dense_index_to_dense_key dpc) with
             | Some k' => Ok k' | None => KeyError end) ds))
  end).

(** exogenous_processes.py:133-138 (_get_maximal_choice_set): concatenating no arrays or
    arrays of different widths raises. *)
Definition maximal_choice_set (sets : list (list bool)) : result (list bool) :=
  match sets with
  | [] => ValueError
  | x :: r =>
      if forallb (fun y => Nat.eqb (length y) (length x)) r then
        Ok (map (fun j => existsb (fun y => nth j y false) sets) (seq 0 (length x)))
      else ValueError
  end.

(** exogenous_processes.py:115-130 (create_transit_choice_set): for every key the union of
    the choice sets of the keys from which it can be reached. *)
Definition transit_choice_sets (transits : list (list nat)) (choice_sets : list (list bool))
  : result (list (list bool)) :=
  result_all (map (fun k =>
    maximal_choice_set
      (map snd (filter (fun p => existsb (Nat.eqb k) (fst p)) (combine transits choice_sets))))
    (seq 0 (length transits))).

(** state_space.py:28-63, 119-130 and 197-220: create_state_space_class for a model with
    exogenous processes: the children are collected for the representative choice sets
    (state_space.py:317-331). *)
Definition create_state_space_exog (nperiods : nat) (core : list core_state) (csf : cs_fun)
  (grid : list (list nat)) (levels : list nat) : result state_space :=
  let keys := core_key_to_complex core csf in
  let groups := core_key_to_core_indices core csf in
  let indexer := create_indexer core groups in
  result_bind (create_dense_period_choice core csf grid keys groups) (fun acc =>
  let dpc := fst acc in
  result_bind (result_all (map (transit_keys grid dpc levels) (seq 0 (length dpc)))) (fun transits =>
  result_bind (transit_choice_sets transits (map (fun p => cx_choice_set (fst p)) dpc)) (fun transit =>
  result_bind
    (result_all (map (fun p => child_indices_of nperiods indexer (snd acc)
                                 (fst (fst p)) (snd p)) (combine dpc transit)))
    (fun child =>
       Ok (mkSS nperiods core keys groups indexer grid dpc (snd acc) transit child))))).

(** ** Transition probabilities *)

(** Parameters of the processes: per process and level a parameter series. *)
Definition processes := list (list (list (nat * R))).
Definition levels_of (procs : processes) : list nat := map (fun p => length p) procs.

(** exogenous_processes.py:38-49: the logit probabilities of each process. *)
Definition process_probabilities (procs : processes) (x : nat -> R) : list (list R) :=
  map (fun params => softmax (map (pandas_dot x) params)) procs.

(** exogenous_processes.py:54-63: the product over the processes of the probability of the
    component; [functools.reduce] of no arrays raises. *)
Definition transition_probability (procs : processes) (x : nat -> R) (exog : list nat) : result R :=
  result_bind
    (result_all (map (fun p =>
       match nth_error (process_probabilities procs x) (fst p) with
       | None => IndexError
       | Some probs => match nth_error probs (snd p) with Some q => Ok q | None => IndexError end
       end) (enumerate exog)))
    (fun qs => match qs with
               | [] => OtherError
               | q :: r => Ok (fold_left Rmult r q)
               end).

(** exogenous_processes.py:14-65 (compute_transition_probabilities): the row of the state
    with covariates [x] in the frame of dense key [k]: pairs of a transit key (the column)
    and its probability.  A column assigned twice exists once. *)
Definition transition_row (grid : list (list nat)) (dpc : list (complex * nat)) (procs : processes)
  (k : nat) (x : nat -> R) : result (list (nat * R)) :=
  result_bind (transit_keys grid dpc (levels_of procs) k) (fun ks =>
  result_all (map (fun k' =>
    result_bind (dense_covariates_of_key grid dpc k') (fun vec =>
    result_bind (transition_probability procs x (last_n (length procs) vec)) (fun q =>
    Ok (k', q)))) (drop_duplicates Nat.eq_dec ks))).

(** ** Weighted continuation values *)

(** exogenous_processes.py:141-144 (_get_representation_cols). *)
Definition representation_cols (rep cs : list bool) : list bool := compress rep cs.

(** [reduce(np.add, rows)]; rows of different length raise (NumPy would broadcast a row of
    length one). *)
Definition add_rows (a b : list R) : result (list R) :=
  if Nat.eqb (length a) (length b) then Ok (map (fun p => fst p + snd p) (combine a b))
  else ValueError.
Definition sum_rows (rows : list (list R)) : result (list R) :=
  match rows with
  | [] => OtherError
  | r :: rs => fold_result (fun b a => add_rows a b) rs r
  end.

(** [conts[key][row, mask]]: the boolean index must have the width of the array. *)
Definition masked_row (mask : list bool) (row : list R) : result (list R) :=
  if Nat.eqb (length mask) (length row) then Ok (compress mask row) else IndexError.

(** exogenous_processes.py:68-112 (weight_continuation_values): one row of one dense key.
    [conts]: the unweighted continuation values by dense key, [transit]: representative
    choice sets, [trans]: the row of the transition frame. *)
Definition weighted_row (conts : nat -> result (list (list R))) (transit : list (list bool))
  (cs : list bool) (trans : list (nat * R)) (row : nat) : result (list R) :=
  result_bind
    (result_all (map (fun kq =>
       match nth_error transit (fst kq) with
       | None => KeyError
       | Some rep =>
           result_bind (conts (fst kq)) (fun M =>
           match nth_error M row with
           | None => IndexError
           | Some r => result_bind (masked_row (representation_cols rep cs) r)
                         (fun r' => Ok (map (Rmult (snd kq)) r'))
           end)
       end) trans))
    sum_rows.

(** state_space.py:222-292 (get_continuation_values) with exogenous processes for one dense
    key.  [solve.py:102-108] has stored the transition frame of every key, computed from
    the covariates of its states. *)
Definition get_weighted_continuation_values (ss : state_space) (procs : processes) (inp : inputs)
  (ev : list (list R)) (period k : nat) : result (list (list R)) :=
  if Nat.eqb period (ss_nperiods ss - 1) then get_continuation_values 0 ss ev period k
  else
    match dense_key_to_complex ss k with
    | None => KeyError
    | Some cx =>
        match dict_get complex_eq_dec cx (ss_files ss) with
        | None => OtherError
        | Some f =>
            result_all (map (fun p =>
              result_bind (transition_row (ss_grid ss) (ss_dpc ss) procs k (in_cov inp (snd f) (snd p)))
                (fun trans => weighted_row (get_continuation_values 0 ss ev period) (ss_transit ss)
                                (cx_choice_set cx) trans (fst p)))
              (enumerate (fst f)))
        end
    end.

(** ** Backward induction: as in Model_Solve.v with weighted continuation values. *)
Definition period_values_exog (ss : state_space) (procs : processes) (inp : inputs)
  (ev : list (list R)) (period : nat) : result (list (nat * list R)) :=
  let keys := dense_keys_from_period ss period in
  if Req_EM_T (p_delta (in_params inp)) 0 then
    Ok (map (fun k => (k, repeat 0 match dense_key_to_core_indices ss k with
                                   | Some l => length l | None => 0%nat end)) keys)
  else if any_interpolated ss (in_points inp) period then
    result_bind
      (result_all (map (fun k => result_bind (get_weighted_continuation_values ss procs inp ev period k)
                                             (fun c => Ok (k, c))) keys))
      (fun conts => in_interp inp period conts)
  else
    result_all
      (map (fun k =>
         result_bind (rewards_of ss inp k) (fun wn =>
         result_bind (get_weighted_continuation_values ss procs inp ev period k) (fun conts =>
         result_bind (calculate_expected_value_functions (fst wn) (snd wn) conts
                        (draws_of ss inp k) (p_delta (in_params inp))) (fun arr =>
         Ok (k, arr))))) keys).

Definition solve_period_exog (ss : state_space) (procs : processes) (inp : inputs) (period : nat)
  (ev : list (list R)) : result (list (list R)) :=
  result_bind (period_values_exog ss procs inp ev period)
    (fun vals => fold_result (fun p ev => set_ev ev (fst p) (snd p)) vals ev).

(** solve.py:132-212 (_solve_with_backward_induction). *)
Definition solve_exog (ss : state_space) (procs : processes) (inp : inputs)
  (ev : list (list R)) : result (list (list R)) :=
  fold_result (solve_period_exog ss procs inp) (rev (seq 0 (ss_nperiods ss))) ev.
