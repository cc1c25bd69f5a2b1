(** Model of the parsing of the parameters as a whole (pre_processing/model_processing.py:
    32-53, 138-154).  Definitions only. *)
From Coq Require Import List Arith Bool String Ascii Reals ZArith.
From Verif Require Import Base Model_Strings Model_Cache Model_Choices Model_Params Model_Processing.
Import ListNotations.
Open Scope string_scope.

(** The characters of levels, [0-9a-z_] (lines 191, 207). *)
Definition is_level (c : ascii) : bool := is_digit c || is_lower c || Ascii.eqb c "_".

(** Lines 185-198 and 201-212: the distributions of all processes or observables.  If no
    category matches the pattern of levels (capital letters), the entry is [None] and the next loop over
    its levels raises a TypeError. *)
Definition level_pattern (keyword name : string) : string -> option string :=
  extract (keyword ++ "_" ++ name ++ "_") is_level.
Definition parse_variables (keyword : string) (params : list param) : result (list (string * container)) :=
  result_bind (parse_names keyword (map p_category params)) (fun names =>
  result_all (map (fun n => result_bind (parse_group (level_pattern keyword n) params) (fun c =>
                match c with Some c => Ok (n, c) | None => OtherError end)) names)).

(** Lines 271-279 (_parse_choice_parameters): coefficients of a reward, if there are any. *)
Definition coefficients_of (category : string) (params : list param) : option (list (string * R)) :=
  if mem category (map p_category params)
  then Some (map (fun p => (p_name p, snd p)) (filter (fun p => String.eqb (p_category p) category) params))
  else None.
Definition parse_choice_parameters (choices : list string) (params : list param)
  : list (string * (option (list (string * R)) * option (list (string * R)))) :=
  map (fun c => (c, (coefficients_of ("wage_" ++ c) params, coefficients_of ("nonpec_" ++ c) params))) choices.

(** The dictionary [optim_paras]; shocks are represented by the kind of the matrix and its
    entries in the order in which they are passed to the external functions which create the
    matrix (lines 304-320). *)
Record model_parameters := mkModelParameters {
  mp_discounting : R * R * R;
  mp_processes : list (string * container);
  mp_observables : list (string * container);
  mp_choices : parsed_choices;
  mp_rewards : list (string * (option (list (string * R)) * option (list (string * R))));
  mp_experience : list (container * Z);
  mp_shocks : shock_kind * list R;
  mp_meas : bool * list R;
  mp_types : nat * option container;
  mp_lagged : list container
}.

(** Lines 138-154 (_parse_parameters) *)
Definition parse_parameters (n_periods : nat) (covariates : list (string * string)) (params : list param)
  : result model_parameters :=
  result_bind (parse_discounting params) (fun discounting =>
  result_bind (parse_variables "exogenous_process" params) (fun processes =>
  result_bind (result_bind (parse_variables "observable" params) (merge_observables processes)) (fun observables =>
  let pc := parse_choices (map fst params) covariates in
  result_bind (result_all (map (parse_experience n_periods params) (pc_choices_w_exp pc))) (fun experience =>
  result_bind (shocks_kind (map p_category params)) (fun kind =>
  result_bind (parse_measurement_errors (pc_choices pc) (pc_choices_w_wage pc) params) (fun meas =>
  result_bind (parse_types params) (fun types =>
  result_bind (parse_lagged_choices (pc_choices pc) covariates params) (fun lagged =>
  Ok (mkModelParameters discounting processes observables pc (parse_choice_parameters (pc_choices pc) params)
        experience (kind, shock_values kind params) meas types lagged))))))))).

(** Lines 47-50: parsing and the validation of the shocks. *)
Definition process_parameters (n_periods : nat) (covariates : list (string * string)) (params : list param)
  : result model_parameters :=
  result_bind (parse_parameters n_periods covariates params) (fun mp =>
  result_bind (validate_shocks (pc_choices (mp_choices mp)) params) (fun _ => Ok mp)).
