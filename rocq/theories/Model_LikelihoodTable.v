(** Model of the way from the table of parameters to the likelihood: log_like
    (likelihood.py:130, 158-164) processes the parameters, solves the model and uses the entries of
    [optim_paras].  Definitions only. *)
From Coq Require Import List Arith Bool String Reals.
From Verif Require Import Base Model_CoreStateSpace Model_StateSpace Model_Solve Model_ConditionalDraws Model_Likelihood Model_Params Model_Processing
  Model_ParseParameters Model_SolveTable.
Import ListNotations.

(** The entries used by the likelihood: likelihood.py:285 (choices with wages), 297 (Cholesky
    factor), 307-308 (measurement errors), 322 (beta times delta); [tau] is an option. *)
Definition likelihood_params (inp : inputs) (mp : model_parameters) (tau : R) : like_spec :=
  mkLikeSpec (p_chol (in_params inp)) (p_nwages (in_params inp)) (snd (mp_meas mp)) (fst (mp_meas mp)) (snd (mp_discounting mp)) tau.
Definition table_likelihood (robust : nat -> (nat -> nat -> R) -> nat -> nat -> R) (n_periods : nat)
  (covariates : list (string * string)) (filters : list (core_state -> bool))
  (cov : option (list nat) -> core_state -> string -> R) (base : nat -> nat -> list (list R)) (points : nat)
  (interp : nat -> list (nat * list (list R)) -> result (list (nat * list R)))
  (tau : R) (table : list param) : result (core_spec * inputs * like_spec) :=
  result_bind (process_parameters n_periods covariates table) (fun mp =>
  result_bind (table_model robust n_periods covariates filters cov base points interp table) (fun m =>
  Ok (fst m, snd m, likelihood_params (snd m) mp tau))).
