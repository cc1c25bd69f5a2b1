(** Model of further steps of the processing of parameters and options and of the checks of a
    solved model: pre_processing/model_processing.py:138-182, 286-321, 737-758,
    pre_processing/model_checking.py:82-137, likelihood.py:90-128, 548-575.
    Definitions only. *)
From Coq Require Import List Arith Bool String Ascii Reals ZArith.
From Verif Require Import Base Model_Strings Model_Cache Model_Choices Model_CoreStateSpace Model_StateSpace
  Model_Simulate Model_Params Model_Data.
Import ListNotations.
Local Open Scope nat_scope.
Open Scope string_scope.

(** ** Discounting *)

(** model_processing.py:140, 155-182 (_parse_present_bias_parameter): delta, beta and
    beta_delta. *)
Definition parse_discounting (params : list param) : result (R * R * R) :=
  result_bind (param_value params "delta" "delta") (fun delta =>
  let beta := match param_value params "beta" "beta" with Ok b => b | _ => 1%R end in
  Ok (delta, beta, (beta * delta)%R)).

(** ** Initial and maximum experience *)

(** [int(x)] of a float: rounding towards zero. *)
Definition truncate (x : R) : Z := if Rle_dec 0 x then Int_part x else Z.opp (Int_part (- x)).

(** The levels of a container; all levels are numbers, because the regular expression of
    line 289 admits only digits. *)
Definition numbers (c : container) : list nat :=
  flat_map (fun lr => match fst lr with Number n => [n] | Label _ => [] end) c.

(** model_processing.py:286-301 (_parse_initial_and_max_experience) for one choice: the
    entries "start" and "max". *)
Definition parse_experience (n_periods : nat) (params : list param) (choice : string)
  : result (container * Z) :=
  result_bind (parse_group (extract ("initial_exp_" ++ choice ++ "_") is_digit) params) (fun parsed =>
  let start := match parsed with Some c => c | None => [(Number 0, constant 0)] end in
  let default_max := (Z.of_nat (list_max_nat (numbers start)) + Z.of_nat n_periods - 1)%Z in
  let max_ := match param_value params "maximum_exp" choice with Ok v => truncate v | _ => default_max end in
  Ok (start, max_)).

(** The specification of the core state space from the parameters.  The maxima are stored as
    uint8 in state_space.py:500; negative numbers are outside the model ([Z.to_nat]). *)
Definition core_spec_of (n_periods n_lags : nat) (filters : list (core_state -> bool))
  (choices_w_exp choices : list string) (params : list param) : result core_spec :=
  result_bind (result_all (map (parse_experience n_periods params) choices_w_exp)) (fun parsed =>
  Ok (mkSpec n_periods (map (fun sm => numbers (fst sm)) parsed) (map (fun sm => Z.to_nat (snd sm)) parsed)
             (List.length choices) n_lags filters)).

(** ** Covariates of types *)

(** model_processing.py:737-758 (_add_type_covariates) *)
Definition add_type_covariates (n_types : nat) (covariates : list (string * string)) : list (string * string) :=
  if Nat.leb 2 n_types then
    dict_update string_dec covariates
      (map (fun i => ("type_" ++ dec i, "type == " ++ dec i)) (seq 1 (n_types - 1)))
  else covariates.

(** ** Shocks *)

(** The matrices of model_processing.py:304-321 before the Cholesky decomposition.  The
    functions are part of estimagic and modelled by their documentation: the entries of the
    lower triangle row by row ([np.tril_indices]), where the standard deviations come first
    if the entries are correlations.  [values] are the parameters in their order. *)
Definition before_row (i : nat) : nat := Nat.div2 (i * S i).
(** chol_params_to_lower_triangular_matrix *)
Definition chol_entry (values : list R) (i j : nat) : R :=
  if Nat.leb j i then nth (before_row i + j) values 0%R else 0%R.
(** cov_params_to_matrix *)
Definition cov_entry (values : list R) (i j : nat) : R :=
  if Nat.leb j i then nth (before_row i + j) values 0%R else nth (before_row j + i) values 0%R.
(** sdcorr_params_to_matrix: [dim] standard deviations, the strictly lower triangle of the
    matrix of correlations, and diag @ corr @ diag. *)
Definition before_row_strict (i : nat) : nat := Nat.div2 (i * (i - 1)).
Definition corr_entry (dim : nat) (values : list R) (i j : nat) : R :=
  if Nat.eqb i j then 1%R
  else if Nat.ltb j i then nth (dim + before_row_strict i + j) values 0%R
  else nth (dim + before_row_strict j + i) values 0%R.
Definition sdcorr_entry (dim : nat) (values : list R) (i j : nat) : R :=
  (nth i values 0 * corr_entry dim values i j * nth j values 0)%R.

(** The matrix that is decomposed or, in the case of Chol, the factor itself. *)
Definition shock_values (kind : shock_kind) (params : list param) : list R :=
  let name := match kind with Sdcorr => "shocks_sdcorr" | Cov => "shocks_cov" | Chol => "shocks_chol" end in
  map snd (filter (fun p => String.eqb (p_category p) name) params).
Definition shock_matrix (kind : shock_kind) (n : nat) (params : list param) (i j : nat) : R :=
  let values := shock_values kind params in
  match kind with
  | Sdcorr => sdcorr_entry n values i j
  | Cov => cov_entry values i j
  | Chol => chol_entry values i j
  end.

(** ** Check of the solution *)

(** model_checking.py:82-137 (check_model_solution).  [indexer] is the number of indices,
    [finite] tells whether all covariates, rewards and expected value functions are finite. *)
Fixpoint no_duplicates (l : list core_state) : bool :=
  match l with
  | [] => true
  | s :: r => negb (if in_dec core_state_eq_dec s r then true else false) && no_duplicates r
  end.
Definition lag_in_range (n : nat) (x : option nat) : bool :=
  match x with Some c => Nat.ltb c n | None => false end.
Definition check_model_solution (sp : core_spec) (core : list core_state) (indexer : nat) (finite : bool)
  : result unit :=
  all_checks
    ([check (forallb (fun s => Nat.ltb (cs_period s) (sp_nperiods sp)) core);
      check (forallb (fun s => Nat.leb (list_sum (cs_exp s))
                                       (cs_period s + list_sum (map list_max_nat (sp_starts sp)))) core)] ++
     map (fun im => check (forallb (fun s => Nat.leb (nth (fst im) (cs_exp s) 0) (snd im)) core))
         (enumerate (sp_max sp)) ++
     [check (Nat.eqb (sp_nlags sp) 0 || forallb (fun s => forallb (lag_in_range (sp_nchoices sp)) (cs_lag s)) core);
      check (forallb (fun s => forallb present (cs_lag s)) core && finite);
      check (no_duplicates core);
      check (Nat.eqb (List.length core) indexer)])%list.

(** ** Initial experience in the data *)

(** An observation: core state and dense variables (including the type). *)
Definition observation := (core_state * list nat)%type.

(** likelihood.py:553-555: the levels of the i-th experience in the first period. *)
Definition levels_in_data (data : list observation) (i : nat) : list nat :=
  isort Nat.leb (drop_duplicates Nat.eq_dec
    (flat_map (fun o => if Nat.eqb (cs_period (fst o)) 0 then
                          match nth_error (cs_exp (fst o)) i with Some e => [e] | None => [] end
                        else []) data)).

(** likelihood.py:548-575 (_update_optim_paras_with_initial_experience_levels): the initial
    levels that replace those of the parameters, and the choices with a warning. *)
Definition update_initial_levels (starts : list (list nat)) (data : list observation)
  : list (list nat) * list nat :=
  (map (fun il => levels_in_data data (fst il)) (enumerate starts),
   map fst (filter (fun il => if list_eq_dec Nat.eq_dec (levels_in_data data (fst il)) (snd il)
                              then false else true) (enumerate starts))).

(** likelihood.py:90-103 and 478-533 (get_log_like_func): the updated levels are passed to
    check_estimation_data only (which does not use them); the state space is created by
    get_solve_func from the parameters.  The result are the choices with a warning and the
    locations of the observations. *)
Definition locate_data (sp : core_spec) (csf : cs_fun) (grid : list (list nat)) (data : list observation)
  : result (list nat * list (nat * nat)) :=
  let updated := update_initial_levels (sp_starts sp) data in
  result_bind (create_state_space (sp_nperiods sp) (create_core_state_space sp) csf grid) (fun ss =>
  result_bind (result_all (map (fun o => locate ss (fst o) (snd o)) data)) (fun locations =>
  Ok (snd updated, locations))).
