(** Processing of the covariates in the options, as a function from options to options. *)
From Coq Require Import List Arith Bool String Reals.
From Verif Require Import Base Model_Strings Model_Cache Model_Choices Model_Params Model_Processing
  Model_Covariates.
Import ListNotations.
Open Scope string_scope.

(** What is derived from the covariates: the choices, the number of lagged choices in the
    state space, and the covariates in the processed options. *)
Record processed := mkProcessed {
  pr_choices : parsed_choices;
  pr_lags : nat;
  pr_covariates : covariates
}.

(** model_processing.py:32-53 (process_params_and_options) as far as covariates are
    concerned: irrelevant covariates are removed (line 43), choices and lags are inferred
    from the rest (line 47), then covariates for types are added and labels replaced
    (line 49: 737-758, 787-799).  The levels of the observables are those of
    [params].  The processed options are the input of the next call: get_simulate_func and
    get_log_like_func pass them to get_solve_func (simulate.py:74-82, likelihood.py:93-99)
    and all returned functions process them again (solve.py:56, simulate.py:182,
    likelihood.py:158).  [None]: the loop has run out of fuel (never, C48). *)
Definition process_covariates (params : list param) (observables : list (string * list level))
  (covs : covariates) : option processed :=
  match remove_irrelevant_covariates covs (map p_name params) with
  | None => None
  | Some relevant =>
      let pc := parse_choices (map fst params) relevant in
      let codes := replace_choices_and_observables (pc_choices pc) observables in
      Some (mkProcessed pc (number_of_lags relevant)
              (map (fun cf => (fst cf, codes (snd cf)))
                   (add_type_covariates (infer_number_of_types params) relevant)))
  end.

(** The processed options processed [k] more times. *)
Fixpoint processed_again (params : list param) (observables : list (string * list level)) (k : nat) (p : processed)
  : option processed :=
  match k with
  | O => Some p
  | S k' => match process_covariates params observables (pr_covariates p) with
            | Some p' => processed_again params observables k' p'
            | None => None
            end
  end.
