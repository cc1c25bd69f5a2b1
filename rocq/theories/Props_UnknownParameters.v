(** Property theorems: parameters of rewards and parameters without a meaning. *)
From Coq Require Import List Arith Bool String Ascii Reals ZArith.
From Verif Require Import Base Model_Strings Model_Choices Model_Params Spec_Params Model_ParseParameters Spec_UnknownParameters
  Proof_UnknownParameters Examples_ParameterOrder Examples_UnknownParameters.
Import ListNotations.
Open Scope string_scope.
Open Scope list_scope.

(** ** C111 *)
(** Every choice has exactly the parameters of its wage and its non-pecuniary reward. *)
Theorem C111_rewards_have_their_parameters : forall n_periods covariates params mp,
  process_parameters n_periods covariates params = Ok mp ->
  map fst (mp_rewards mp) = pc_choices (mp_choices mp) /\
  forall c w n, In (c, (w, n)) (mp_rewards mp) ->
    coefficients_from params ("wage_" ++ c)%string w /\ coefficients_from params ("nonpec_" ++ c)%string n.
Proof. exact rewards_found. Qed.
Print Assumptions C111_rewards_have_their_parameters.

(** A parameter whose category is not known changes nothing, at any place. *)
Theorem C111_unknown_parameters_are_ignored : forall n_periods covariates a b p, unknown_parameter covariates p ->
  parse_parameters n_periods covariates (a ++ p :: b) = parse_parameters n_periods covariates (a ++ b) /\
  process_parameters n_periods covariates (a ++ p :: b) = process_parameters n_periods covariates (a ++ b).
Proof. exact unknown_ignored. Qed.
Print Assumptions C111_unknown_parameters_are_ignored.

(** Hence misspelled parameters are not rejected. *)
Theorem C111_misspelled_parameters_are_rejected_refuted : exists n_periods covariates a b p mp,
  p_category p = "nonpecs_home" /\ snd p <> 0%R /\
  (exists w, In ("home", (w, Some [("constant", 0%R); ("work", 1%R)])) (mp_rewards mp)) /\
  process_parameters n_periods covariates (a ++ p :: b) = Ok mp /\
  process_parameters n_periods covariates (a ++ b) = Ok mp.
Proof. exact up_typo_accepted. Qed.
Print Assumptions C111_misspelled_parameters_are_rejected_refuted.

Example C111_example : unknown_parameter (pe_covariates ++ [("constant", "1")]) up_typo.
Proof. exact up_typo_unknown. Qed.
Example C111_example_rewards : exists mp w, process_parameters 3 pe_covariates pe_params = Ok mp /\
  In ("a", (Some w, None)) (mp_rewards mp) /\ w = [("constant", 0%R); ("exp_a", 1%R)].
Proof. eexists. eexists. split; [vm_compute; reflexivity|]. split; [left; reflexivity|reflexivity]. Qed.
