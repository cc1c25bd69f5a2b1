(** C133: Coefficients of zero do not matter. *)
From Coq Require Import List Arith Bool String Reals ZArith.
From Verif Require Import Base Model_CoreStateSpace Spec_CoreStateSpace Model_StateSpace Spec_StateSpace Model_Solve Spec_Solve
  Proof_Solve Model_Strings Model_Choices Spec_Choices Model_Params Spec_Params Model_Processing Spec_Processing
  Model_ParseParameters Model_SolveTable Spec_SolveTable Spec_ZeroParameters Proof_ZeroParameters Examples_ParameterOrder Examples_SolveTable
  Examples_ZeroParameters.
Import ListNotations.
Local Open Scope R_scope.

Theorem C133_coefficients_of_zero : forall robust n covariates filters cov base points interp a p b sp inp sp' inp' with_exp choices kind delta neg k grid ss ev0,
  table_model robust n covariates filters cov base points interp (a ++ b) = Ok (sp, inp) ->
  table_model robust n covariates filters cov base points interp (a ++ p :: b) = Ok (sp', inp') ->
  further_coefficient (a ++ b) p -> snd p = 0 ->
  (forall q, In q (a ++ p :: b) -> word (p_category q)) ->
  documented_choices (a ++ b) covariates with_exp choices -> documented_choices (a ++ p :: b) covariates with_exp choices ->
  small_experience n (a ++ b) with_exp -> (sp_nlags sp <= 1)%nat ->
  (filters = [] \/ closed_under_choices n (create_core_state_space sp) (choice_set_of sp (process sp (S k) neg))) ->
  shocks_of_kind (a ++ p :: b) kind -> value_is (a ++ p :: b) "delta" "delta" delta -> delta <> 0 ->
  collision_free (create_core_state_space sp) (choice_set_of sp (process sp (S k) neg)) grid ->
  create_state_space n (create_core_state_space sp) (choice_set_of sp (process sp (S k) neg)) grid = Ok ss ->
  (forall q, solved_exactly ss points q) -> ev_shape ss ev0 ->
  sp' = sp /\
  exists ev ev', solve_with_backward_induction ss inp ev0 = Ok ev /\ solve_with_backward_induction ss inp' ev0 = Ok ev' /\
    forall s d ctx v, In s (create_core_state_space sp) -> dense_combination grid d ctx ->
      (value_at ss ev' s d v <-> value_at ss ev s d v).
Proof. exact zero_parameters. Qed.
Print Assumptions C133_coefficients_of_zero.

(** The model of C131 with a further coefficient for the wage, here [a = []]. *)
Example C133_example :
  (exists inp, table_model tb_robust 2 pe_covariates [] tb_cov tb_base 100 (fun _ _ => OtherError) ([] ++ pe_params) = Ok (tb_sp, inp)) /\
  (exists inp', table_model tb_robust 2 pe_covariates [] tb_cov tb_base 100 (fun _ _ => OtherError) ([] ++ zp_first :: pe_params) = Ok (tb_sp, inp')) /\
  further_coefficient ([] ++ pe_params) zp_first /\ snd zp_first = 0 /\
  (forall q, In q ([] ++ zp_first :: pe_params) -> word (p_category q)) /\
  documented_choices ([] ++ pe_params) pe_covariates ["a"%string] ["a"; "home"]%string /\
  documented_choices ([] ++ zp_first :: pe_params) pe_covariates ["a"%string] ["a"; "home"]%string /\
  small_experience 2 ([] ++ pe_params) ["a"%string] /\ (sp_nlags tb_sp <= 1)%nat /\
  shocks_of_kind ([] ++ zp_first :: pe_params) Sdcorr /\ value_is ([] ++ zp_first :: pe_params) "delta" "delta" 1 /\
  create_state_space 2 (create_core_state_space tb_sp) (choice_set_of tb_sp (process tb_sp 1 (fun _ => None))) [] = Ok tb_ss /\
  (forall p, solved_exactly tb_ss 100 p) /\ ev_shape tb_ss (initial_ev tb_ss).
Proof.
  exact (conj tb_accepted (conj zp_accepted (conj zp_further (conj eq_refl (conj zp_all_words (conj tb_documented (conj zp_documented
    (conj tb_small (conj (le_n 1) (conj zp_shocks (conj zp_delta (conj tb_created (conj tb_exact (initial_ev_shape tb_ss)))))))))))))).
Qed.

(** The condition on wages is needed: the first row for the wage of a choice changes its reward. *)
Example C133_first_row_of_a_wage : forall x,
  table_reward [("nonpec_home"%string, "constant"%string, 0)] "home" x 0 = 0 /\
  table_reward [("wage_home"%string, "constant"%string, 0); ("nonpec_home"%string, "constant"%string, 0)] "home" x 0 = 1.
Proof. exact zp_wage. Qed.
