(** Model of the way from the table of parameters to the simulation: simulate
    (simulate.py:114, 182-188) processes the parameters, solves the model and uses the entries of
    [optim_paras].  Definitions only. *)
From Coq Require Import List Arith Bool String Reals.
From Verif Require Import Base Model_CoreStateSpace Model_StateSpace Model_Solve Model_Simulate Model_Params Model_Processing Model_ParseParameters
  Model_SolveTable.
Import ListNotations.

(** The entries used by the simulation: simulate.py:188 (measurement errors), 413-426 (rewards
    and discounting, where beta_delta is the product of both, model_processing.py:177-182). *)
Definition simulation_params (inp : inputs) (mp : model_parameters) : sim_spec :=
  mkSim (in_params inp) (in_choices inp) (snd (fst (mp_discounting mp))) (snd (mp_meas mp)).
Definition table_simulation (robust : nat -> (nat -> nat -> R) -> nat -> nat -> R) (n_periods : nat)
  (covariates : list (string * string)) (filters : list (core_state -> bool))
  (cov : option (list nat) -> core_state -> string -> R) (base : nat -> nat -> list (list R)) (points : nat)
  (interp : nat -> list (nat * list (list R)) -> result (list (nat * list R)))
  (table : list param) : result (core_spec * inputs * sim_spec) :=
  result_bind (process_parameters n_periods covariates table) (fun mp =>
  result_bind (table_model robust n_periods covariates filters cov base points interp table) (fun m =>
  Ok (fst m, snd m, simulation_params (snd m) mp))).
