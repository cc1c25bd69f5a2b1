(** C134: From the table of parameters to the likelihood. *)
From Coq Require Import List Arith Bool String Reals ZArith.
From Verif Require Import Base Model_CoreStateSpace Spec_CoreStateSpace Model_StateSpace Spec_StateSpace Model_Solve Spec_Solve
  Proof_Solve Model_Simulate Spec_Simulate Model_ConditionalDraws Spec_ConditionalDraws Proof_Matrix Proof_ConditionalDraws Model_Likelihood Spec_Likelihood Model_Criterion
  Model_Strings Model_Choices Spec_Choices Model_Params Spec_Params Model_Processing Spec_Processing
  Model_ParseParameters Model_SolveTable Spec_SolveTable Spec_SimulateTable Model_LikelihoodTable Spec_LikelihoodTable Proof_LikelihoodTable
  Examples_ParameterOrder Examples_SolveTable Examples_SimulateTable Examples_LikelihoodTable.
Import ListNotations.
Local Open Scope R_scope.

(** The hypothesis [standard_model] follows from the table by C131. *)
Theorem C134_missing_wage : forall robust n covariates filters cov base points interp tau table sp inp lk with_exp choices kind delta beta
    neg kp grid ss ev0 ev est x k pos rc qr draws code i lc lw,
  table_likelihood robust n covariates filters cov base points interp tau table = Ok (sp, inp, lk) ->
  (forall p, In p table -> word (p_category p)) -> documented_choices table covariates with_exp choices ->
  shocks_of_kind table kind -> value_is table "delta" "delta" delta -> delta <> 0 -> bias_is table beta ->
  standard_model sp neg kp grid ss inp -> ev_shape ss ev0 -> solve_with_backward_induction ss inp ev0 = Ok ev -> ev_shape ss ev ->
  in_model (create_core_state_space sp) grid (cs_period (i_core x)) x -> locate ss (i_core x) (i_dense x) = Ok (k, pos) ->
  cholesky_routine rc -> qr_routine qr -> (forall M i j, (i < j)%nat -> robust (List.length choices) M i j = 0) ->
  let s := i_core x in
  let ctx := context grid x in
  let csf := choice_set_of sp (process sp (S kp) neg) in
  let open := positions (csf ctx s) in
  let env := likelihood_env ss inp ev est in
  nth_error open i = Some code ->
  row_loglikes rc qr lk (le_choice_set env k) (le_wages env k pos) (le_nonpec env k pos) (le_cont env k pos) draws code None = Ok (lc, lw) ->
  exists L, factor_of robust kind table choices L /\ lw = 0 /\
    lc = clip (- 10 ^ 200) (10 ^ 200)
           (ln (table_probability table choices L (cov ctx s) (table_future table choices L cov base csf delta n ctx s) beta delta tau open draws i)).
Proof. exact table_missing_wage. Qed.
Print Assumptions C134_missing_wage.

Theorem C134_observed_wage : forall robust n covariates filters cov base points interp tau table sp inp lk with_exp choices kind delta beta
    neg kp grid ss ev0 ev est x k pos rc qr draws code w lc lw,
  table_likelihood robust n covariates filters cov base points interp tau table = Ok (sp, inp, lk) ->
  (forall p, In p table -> word (p_category p)) -> documented_choices table covariates with_exp choices ->
  shocks_of_kind table kind -> value_is table "delta" "delta" delta -> delta <> 0 -> bias_is table beta ->
  standard_model sp neg kp grid ss inp -> ev_shape ss ev0 -> solve_with_backward_induction ss inp ev0 = Ok ev -> ev_shape ss ev ->
  in_model (create_core_state_space sp) grid (cs_period (i_core x)) x -> locate ss (i_core x) (i_dense x) = Ok (k, pos) ->
  let s := i_core x in
  let ctx := context grid x in
  let csf := choice_set_of sp (process sp (S kp) neg) in
  let open := positions (csf ctx s) in
  let env := likelihood_env ss inp ev est in
  let choice := nth code choices ""%string in
  (forall c, (c <= code)%nat -> available (csf ctx s) c) -> earns table choice = true ->
  representable w -> representable (table_wage table choice (cov ctx s)) ->
  row_loglikes rc qr lk (le_choice_set env k) (le_wages env k pos) (le_nonpec env k pos) (le_cont env k pos) draws code (Some w) = Ok (lc, lw) ->
  exists L sd, factor_of robust kind table choices L /\ measurement_sd table choice sd /\
    (0 < shock_variance L open code + sd ^ 2 ->
     lw = clip (- 10 ^ 200) (10 ^ 200)
            (ln (lognormal_density (row_sum table ("wage_" ++ choice) (cov ctx s)) (shock_variance L open code + sd ^ 2) w))).
Proof. exact table_observed_wage. Qed.
Print Assumptions C134_observed_wage.

(** A table with present bias and measurement error; an individual in the second period who
    works, with or without an observed wage. *)
Example C134_example :
  (exists inp lk ev,
    table_likelihood lt_robust 2 pe_covariates [] tb_cov tb_base 100 (fun _ _ => OtherError) (/ 2) ts_params = Ok (tb_sp, inp, lk) /\
    standard_model tb_sp (fun _ => None) 0 [] tb_ss inp /\
    solve_with_backward_induction tb_ss inp (initial_ev tb_ss) = Ok ev /\ ev_shape tb_ss ev /\
    exists k pos, locate tb_ss (i_core lt_ind) (i_dense lt_ind) = Ok (k, pos) /\
      forall wage, let env := likelihood_env tb_ss inp ev (fun _ _ => []) in
      exists lc lw, row_loglikes cholesky lazy_qr lk (le_choice_set env k) (le_wages env k pos) (le_nonpec env k pos) (le_cont env k pos)
        lt_draws 0 wage = Ok (lc, lw)) /\
  (forall p, In p ts_params -> word (p_category p)) /\ documented_choices ts_params pe_covariates ["a"%string] ["a"; "home"]%string /\
  shocks_of_kind ts_params Sdcorr /\ value_is ts_params "delta" "delta" 1 /\ bias_is ts_params (/ 2) /\
  in_model (create_core_state_space tb_sp) [] 1 lt_ind /\ cholesky_routine cholesky /\ qr_routine lazy_qr /\
  (forall n M i j, (i < j)%nat -> lt_robust n M i j = 0) /\ earns ts_params "a" = true.
Proof.
  exact (conj lt_setup (conj ts_words (conj ts_documented (conj ts_kind (conj ts_delta (conj ts_bias
    (conj (conj tb_state (conj eq_refl I)) (conj cholesky_is_routine (conj lazy_qr_routine (conj lt_triangular eq_refl)))))))))).
Qed.
