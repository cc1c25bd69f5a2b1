(** Independent specification: the defaults of options. *)
From Coq Require Import List ZArith Strings.String.
From Verif Require Import Base Model_Options.
Import ListNotations.
Local Open Scope string_scope.

Inductive has_default : string -> value -> Prop :=
| default_estimation_draws : has_default "estimation_draws" (VInt 200)
| default_estimation_seed : has_default "estimation_seed" (VInt 1)
| default_estimation_tau : has_default "estimation_tau" (VInt 500)
| default_interpolation_points : has_default "interpolation_points" (VInt (-1))
| default_simulation_agents : has_default "simulation_agents" (VInt 1000)
| default_simulation_seed : has_default "simulation_seed" (VInt 2)
| default_solution_draws : has_default "solution_draws" (VInt 200)
| default_solution_seed : has_default "solution_seed" (VInt 3)
| default_filters : has_default "core_state_space_filters" (VList [])
| default_negative_choice_set : has_default "negative_choice_set" (VDict [])
| default_monte_carlo_sequence : has_default "monte_carlo_sequence" (VStr "random")
| default_cache_compression : has_default "cache_compression" (VStr "snappy").
