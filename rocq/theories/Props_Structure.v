(** Property theorems: values of parameters do not change the structure of a model. *)
From Coq Require Import List Arith Bool String Ascii Reals ZArith.
From Verif Require Import Base Model_Choices Model_CoreStateSpace Model_Params Model_Processing Model_ParseParameters
  Spec_Structure Proof_Structure Examples_ParameterOrder Examples_Structure.
Import ListNotations.
Local Open Scope nat_scope.
Open Scope string_scope.

(** ** C116 *)
(** Parameters with other values are accepted or rejected like the first ones, and describe a model with the same choices, levels, types, lags,
    maximum experiences and names of coefficients. *)
Theorem C116_same_structure : forall n_periods covariates params params', other_values params params' ->
  same_outcome same_structure (process_parameters n_periods covariates params) (process_parameters n_periods covariates params').
Proof. exact structure_fixed. Qed.
Print Assumptions C116_same_structure.

(** The specification of the states is the same. *)
Theorem C116_same_states : forall n_periods n_lags filters choices_w_exp choices params params', other_values params params' ->
  core_spec_of n_periods n_lags filters choices_w_exp choices params = core_spec_of n_periods n_lags filters choices_w_exp choices params'.
Proof. exact core_fixed. Qed.
Print Assumptions C116_same_states.

(** The value of a maximum experience has to stay the same. *)
Theorem C116_maximum_experience_refuted : exists n_periods choices params params' sp sp', map fst params = map fst params' /\
  core_spec_of n_periods 0 [] choices choices params = Ok sp /\ core_spec_of n_periods 0 [] choices choices params' = Ok sp' /\
  sp_max sp = [1] /\ sp_max sp' = [2].
Proof. exact maximum_matters. Qed.
Print Assumptions C116_maximum_experience_refuted.

(** A model with a lagged choice and an observable whose parameters get other values. *)
Example C116_example : other_values pe_params st_other /\
  exists m m', process_parameters 3 pe_covariates pe_params = Ok m /\ process_parameters 3 pe_covariates st_other = Ok m' /\ m <> m'.
Proof. exact (conj st_other_values st_processed). Qed.
