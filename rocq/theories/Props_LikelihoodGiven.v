(** C134: The probability of a choice given its wage follows from the table of parameters. *)
From Coq Require Import List Arith Bool String Reals ZArith.
From Verif Require Import Base Model_CoreStateSpace Spec_CoreStateSpace Model_StateSpace Spec_StateSpace Model_Solve Spec_Solve
  Proof_Solve Model_Simulate Spec_Simulate Model_ConditionalDraws Spec_ConditionalDraws Proof_Matrix Proof_ConditionalDraws Model_Likelihood Spec_Likelihood Model_Criterion
  Model_Strings Model_Choices Spec_Choices Model_Params Spec_Params Model_Processing Spec_Processing
  Model_ParseParameters Model_SolveTable Spec_SolveTable Spec_SimulateTable Model_LikelihoodTable Spec_LikelihoodTable Spec_LikelihoodGiven Proof_LikelihoodGiven
  Examples_ParameterOrder Examples_SolveTable Examples_SimulateTable Examples_LikelihoodTable Examples_LikelihoodGiven.
Import ListNotations.
Local Open Scope R_scope.

Theorem C134_choice_given_wage : forall robust n covariates filters cov base points interp tau table sp inp lk with_exp choices kind delta beta
    neg kp grid ss ev0 ev est x k pos rc qr draws code w lc lw,
  table_likelihood robust n covariates filters cov base points interp tau table = Ok (sp, inp, lk) ->
  (forall p, In p table -> word (p_category p)) -> documented_choices table covariates with_exp choices ->
  shocks_of_kind table kind -> value_is table "delta" "delta" delta -> delta <> 0 -> bias_is table beta ->
  standard_model sp neg kp grid ss inp -> ev_shape ss ev0 -> solve_with_backward_induction ss inp ev0 = Ok ev -> ev_shape ss ev ->
  in_model (create_core_state_space sp) grid (cs_period (i_core x)) x -> locate ss (i_core x) (i_dense x) = Ok (k, pos) ->
  cholesky_routine rc -> qr_routine qr -> (forall M i j, (i < j)%nat -> robust (List.length choices) M i j = 0) ->
  let s := i_core x in
  let ctx := context grid x in
  let csf := choice_set_of sp (process sp (S kp) neg) in
  let open := positions (csf ctx s) in
  let env := likelihood_env ss inp ev est in
  let choice := nth code choices ""%string in
  (forall c, (c <= code)%nat -> available (csf ctx s) c) -> earns table choice = true ->
  representable w -> representable (table_wage table choice (cov ctx s)) ->
  row_loglikes rc qr lk (le_choice_set env k) (le_wages env k pos) (le_nonpec env k pos) (le_cont env k pos) draws code (Some w) = Ok (lc, lw) ->
  exists L sd, factor_of robust kind table choices L /\ measurement_sd table choice sd /\
    (shock_covariance L open code code <> 0 ->
     (~ In "meas_error"%string (map p_category table) \/ sd <> 0 /\ forall c, In c open -> L c c <> 0) ->
     exists m U, shocks_given_wage L open code (row_sum table ("wage_" ++ choice) (cov ctx s)) sd w m U /\
       lc = clip (- 10 ^ 200) (10 ^ 200)
              (ln (given_probability table choices (cov ctx s) (table_future table choices L cov base csf delta n ctx s) beta delta tau open m U draws code))).
Proof. exact table_choice_given_wage. Qed.
Print Assumptions C134_choice_given_wage.

(** The remaining hypotheses are met by the case of [C134_example], here for a wage of two; the
    table has a measurement error, so that the second alternative of the condition holds. *)
Example C134_example_wage :
  choice_set_of tb_sp (process tb_sp 1 (fun _ => None)) (context [] lt_ind) (i_core lt_ind) = [true; true] /\
  representable 2 /\ (forall ctx, representable (table_wage ts_params "a" (tb_cov ctx (i_core lt_ind)))) /\
  measurement_sd ts_params "a" 2 /\
  (forall L, factor_of lt_robust Sdcorr ts_params ["a"; "home"]%string L ->
     shock_covariance L [0; 1]%nat 0 0 <> 0 /\ forall c, In c [0; 1]%nat -> L c c <> 0).
Proof.
  exact (conj lg_open (conj (lg_small 2 lg_two) (conj lg_wage (conj lg_error lg_factor)))).
Qed.
