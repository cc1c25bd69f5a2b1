(** C132: From the table of parameters to simulated data. *)
From Coq Require Import List Arith Bool String Reals ZArith.
From Verif Require Import Base Model_CoreStateSpace Spec_CoreStateSpace Model_StateSpace Spec_StateSpace Model_Solve Spec_Solve
  Proof_Solve Model_Parallel Model_Simulate Spec_Simulate Proof_PanelModel Model_Strings Model_Choices Spec_Choices Model_Params Spec_Params Model_Processing
  Model_ParseParameters Model_SolveTable Spec_SolveTable Model_SimulateTable Spec_SimulateTable Proof_SimulateTable
  Examples_ParameterOrder Examples_SolveTable Examples_SimulateTable.
Import ListNotations.
Local Open Scope R_scope.

Theorem C132_simulated_data_of_the_table : forall robust n covariates filters cov base points interp table sp inp si with_exp choices kind delta beta
    neg k grid ss ev0 ev order next_key periods ids draws draws_wage df panel,
  table_simulation robust n covariates filters cov base points interp table = Ok (sp, inp, si) ->
  (forall p, In p table -> word (p_category p)) -> documented_choices table covariates with_exp choices ->
  shocks_of_kind table kind -> value_is table "delta" "delta" delta -> bias_is table beta ->
  ev_shape ss ev0 -> solve_with_backward_induction ss inp ev0 = Ok ev ->
  simulation_setup sp neg k grid ss inp ev si order periods ids draws draws_wage df ->
  simulate_n_step (environment_of ss inp ev) si order next_key 0 periods draws draws_wage df = Ok panel ->
  exists L, factor_of robust kind table choices L /\
    forall id t o, In ((id, t), o) panel ->
      let s := i_core (o_ind o) in
      let ctx := context grid (o_ind o) in
      let csf := choice_set_of sp (process sp (S k) neg) in
      let worth c := table_decision table choices L cov base csf beta delta n ctx s (o_shocks o) c in
      (in_place (csf ctx s) -> forall c, available (csf ctx s) c -> worth c <= worth (o_choice o)) /\
      exists p m best, nth_error ids p = Some id /\ nth_error draws (List.length ids * t + p) = Some (o_shocks o) /\
        nth_error draws_wage (List.length ids * t + p) = Some m /\
        available (csf ctx s) best /\ (forall c, available (csf ctx s) c -> worth c <= worth best) /\
        observed_wage table (nth best choices ""%string) (cov ctx s) (normal_shock L (csf ctx s) (o_shocks o) best) (nth best m 0) (o_wage o).
Proof. exact table_panel. Qed.
Print Assumptions C132_simulated_data_of_the_table.

(** A table with present bias and a measurement error; two individuals, two periods. *)
Example C132_example :
  (exists inp si ev,
     table_simulation tb_robust 2 pe_covariates [] tb_cov tb_base 100 (fun _ _ => OtherError) ts_params = Ok (tb_sp, inp, si) /\
     solve_with_backward_induction tb_ss inp (initial_ev tb_ss) = Ok ev /\
     simulation_setup tb_sp (fun _ => None) 0 [] tb_ss inp ev si (fun l => l) 2 [3; 7]%nat ts_draws ts_draws ts_df) /\
  (forall p, In p ts_params -> word (p_category p)) /\ documented_choices ts_params pe_covariates ["a"%string] ["a"; "home"]%string /\
  shocks_of_kind ts_params Sdcorr /\ value_is ts_params "delta" "delta" 1 /\ bias_is ts_params (/ 2) /\ measurement_sd ts_params "a" 2.
Proof.
  exact (conj ts_setup (conj ts_words (conj ts_documented (conj ts_kind (conj ts_delta (conj ts_bias (or_intror (or_intror (or_introl eq_refl))))))))).
Qed.
