(** The columns of the simulated data: simulate.py:186-243 (simulate), 375-458
    (_simulate_single_period) and 566-597 (_process_simulation_output), parallelization.py:68-83
    (split_and_combine_df).

    [Model_Simulate] follows the individuals through the periods; here the data frames are
    modelled column by column, with the names of the columns, for given states of the
    individuals.  A row is a dictionary from names of columns to cells.

    Simplified: the index of a row is the pair of identifier and period; the columns of
    models with exogenous processes ("dense_key_next_period", which is dropped from the
    data) are left out; [Choice] and the other coded columns are shown before codes become
    labels (modelled in [Model_Choices] and [Model_Dataset]) and before
    [downcast_to_smallest_dtype] (modelled in [Model_Data]). *)
From Coq Require Import List Arith Bool String Reals.
From Verif Require Import Base Model_CoreStateSpace Model_StateSpace Model_Solve Model_Parallel
  Model_Simulate Model_Choices.
Import ListNotations.
Open Scope string_scope.

(** A cell: a number, an integer code, or NaN. *)
Inductive cell := Num (x : R) | Code (n : nat) | Missing.
Definition row := list (string * cell).
(** The cell of a column; pandas shows NaN for a column that a row does not have. *)
Definition cell_of (r : row) (name : string) : cell :=
  match dict_get string_dec name r with Some v => v | None => Missing end.
(** [df[name] = value] *)
Definition put (name : string) (v : cell) (r : row) : row := dict_set string_dec name v r.

(** An individual at the beginning of a period: the columns of its state, its rows of
    [base_draws_sim] and of the transformed [base_draws_wage], and its position in the state
    space ([map_observations_to_states], modelled in [Model_Simulate.locate]). *)
Record entrant := mkEntrant {
  e_state : row;
  e_shocks : list R;
  e_meas : list R;
  e_key : nat;
  e_index : nat }.

(** simulate.py:203-209: the draws of all choices and the position are stored in the
    data frame. *)
Definition prepare (choices : list string) (e : entrant) : row :=
  put "core_index" (Code (e_index e))
   (put "dense_key" (Code (e_key e))
    (fold_left (fun r p =>
       put ("meas_error_wage_" ++ snd p) (Num (nth (fst p) (e_meas e) 0%R))
        (put ("shock_reward_" ++ snd p) (Num (nth (fst p) (e_shocks e) 0%R)) r))
       (enumerate choices) (e_state e))).

(** [df[[...]].to_numpy()] for one row. *)
Definition read_number (r : row) (name : string) : result R :=
  match dict_get string_dec name r with
  | Some (Num x) => Ok x
  | Some _ => OtherError
  | None => KeyError
  end.

(** simulate.py:430-433: positions of the available choices and their codes. *)
Definition name_positions (choices valid : list string) : list nat :=
  map fst (filter (fun p => if in_dec string_dec (snd p) valid then true else false)
                  (enumerate choices)).

(** shared.py:28-58 and simulate.py:418-424: flow utilities. *)
Definition flow_utilities (wages nonpecs conts draws : list R) (beta_delta : R) : list R :=
  map (fun j => snd (aggregate_keane_wolpin_utility (nth j wages 0%R) (nth j nonpecs 0%R)
                       (nth j conts 0%R) (nth j draws 0%R) beta_delta))
      (seq 0 (List.length wages)).

Definition of_option (x : option R) : cell := match x with Some v => Num v | None => Missing end.

(** simulate.py:437-449: what is stored. *)
Definition store (valid : list string) (choice : nat) (wage : cell) (delta beta : R)
  (nonpecs : list R) (wages : list (option R)) (flows values conts shocks : list R) (r : row) : row :=
  fold_left (fun r p =>
     put ("shock_reward_" ++ snd p) (Num (nth (fst p) shocks 0%R))
      (put ("continuation_value_" ++ snd p) (Num (nth (fst p) conts 0%R))
       (put ("value_function_" ++ snd p) (Num (nth (fst p) values 0%R))
        (put ("flow_utility_" ++ snd p) (Num (nth (fst p) flows 0%R))
         (put ("wage_" ++ snd p) (of_option (nth (fst p) wages None))
          (put ("nonpecuniary_reward_" ++ snd p) (Num (nth (fst p) nonpecs 0%R)) r))))))
    (enumerate valid)
    (put "present_bias" (Num beta)
      (put "discount_rate" (Num delta)
        (put "wage" wage
          (put "choice" (Code choice) r)))).

(** The constants of the model: names of the choices, the parameters of the rewards and the
    present bias. *)
Record constants := mkConstants {
  k_choices : list string;
  k_params : params;
  k_beta : R }.

(** simulate.py:388-449 (_simulate_single_period) for one row of a group. *)
Definition single_row (k : constants) (cs : list bool) (wages nonpecs conts : list (list R)) (r : row)
  : result row :=
  let choices := k_choices k in
  let p := k_params k in
  let valid := select_valid_choices choices cs in
  let n_wages := count_true (firstn (p_nwages p) cs) in
  match cell_of r "core_index" with
  | Code i =>
      match nth_error wages i, nth_error nonpecs i, nth_error conts i with
      | Some w, Some n, Some c =>
          result_bind (result_all (map (fun x => read_number r ("shock_reward_" ++ x)) valid)) (fun base =>
          result_bind (result_all (map (fun x => read_number r ("meas_error_wage_" ++ x)) valid)) (fun meas =>
          let shocks := transform_draw (subset_cholesky (p_chol p) cs) n_wages base in
          let beta_delta := (k_beta k * p_delta p)%R in
          let values := value_functions w n c shocks beta_delta in
          let flows := flow_utilities w n c shocks beta_delta in
          let observed := observed_wages w shocks meas n_wages in
          match argmax values with
          | Some position =>
              Ok (store valid (recode (name_positions choices valid) position)
                    (of_option (nth position observed None)) (p_delta p) (k_beta k)
                    n observed flows values c shocks r)
          | None => ValueError
          end))
      | _, _, _ => IndexError
      end
  | _ => IndexError
  end.

(** One call of [_simulate_single_period]: the individuals with the same dense key and the
    arrays of that key. *)
Record group := mkGroup {
  g_choice_set : list bool;
  g_wages : list (list R);
  g_nonpecs : list (list R);
  g_conts : list (list R);
  g_rows : frame entrant }.

Definition simulate_group_columns (k : constants) (g : group) : result (frame row) :=
  result_all (map (fun e =>
    result_bind (single_row k (g_choice_set g) (g_wages g) (g_nonpecs g) (g_conts g)
                   (prepare (k_choices k) (snd e)))
                (fun r => Ok (fst e, r))) (g_rows g)).

(** [pd.concat(frames, sort=False)]: all columns in the order of appearance; cells of
    columns that a frame does not have are NaN. *)
Definition concat_frames (frames : list (frame row)) : frame row :=
  let rows := List.concat frames in
  let columns := drop_duplicates string_dec (flat_map (fun r => dict_keys (snd r)) rows) in
  map (fun r => (fst r, map (fun c => (c, cell_of (snd r) c)) columns)) rows.

(** simulate.py:211-219 with parallelization.py:68-83: one period. *)
Definition period_columns (k : constants) (groups : list group) : result (frame row) :=
  result_bind (result_all (map (simulate_group_columns k) groups)) (fun frames =>
  Ok (sort_index (concat_frames frames))).

(** simulate.py:243, 566-597: the data of all periods are stacked, sorted and renamed. *)
Definition output_columns (k : constants) (periods : list (list group)) : result (frame row) :=
  result_bind (result_all (map (period_columns k) periods)) (fun data =>
  Ok (map (fun r => (fst r, map (fun c => (rename_labels_from_internal (fst c), snd c)) (snd r)))
          (sort_index (concat_frames data)))).
