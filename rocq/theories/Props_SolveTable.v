(** C131: From the table of parameters to the solution. *)
From Coq Require Import List Arith Bool String Reals ZArith.
From Verif Require Import Base Model_CoreStateSpace Spec_CoreStateSpace Model_StateSpace Spec_StateSpace Model_Solve Spec_Solve
  Proof_Solve Model_Strings Model_Choices Spec_Choices Model_Params Spec_Params Model_Processing Spec_Processing
  Model_ParseParameters Model_SolveTable Spec_SolveTable Proof_SolveTable Examples_ParameterOrder Examples_SolveTable.
Import ListNotations.
Local Open Scope R_scope.

Theorem C131_table_describes_a_model : forall robust n covariates filters cov base points interp table sp inp with_exp choices neg k grid ss,
  table_model robust n covariates filters cov base points interp table = Ok (sp, inp) ->
  (forall p, In p table -> word (p_category p)) -> documented_choices table covariates with_exp choices ->
  small_experience n table with_exp -> (sp_nlags sp <= 1)%nat ->
  (filters = [] \/ closed_under_choices n (create_core_state_space sp) (choice_set_of sp (process sp (S k) neg))) ->
  collision_free (create_core_state_space sp) (choice_set_of sp (process sp (S k) neg)) grid ->
  create_state_space n (create_core_state_space sp) (choice_set_of sp (process sp (S k) neg)) grid = Ok ss ->
  (forall p, solved_exactly ss points p) ->
  standard_model sp neg k grid ss inp /\ core_from_table n table with_exp choices sp.
Proof. exact table_standard. Qed.
Print Assumptions C131_table_describes_a_model.

Theorem C131_solution_of_the_table : forall robust n covariates filters cov base points interp table sp inp with_exp choices kind delta neg k grid ss ev0,
  table_model robust n covariates filters cov base points interp table = Ok (sp, inp) ->
  (forall p, In p table -> word (p_category p)) -> documented_choices table covariates with_exp choices ->
  small_experience n table with_exp -> (sp_nlags sp <= 1)%nat ->
  (filters = [] \/ closed_under_choices n (create_core_state_space sp) (choice_set_of sp (process sp (S k) neg))) ->
  shocks_of_kind table kind -> value_is table "delta" "delta" delta -> delta <> 0 ->
  collision_free (create_core_state_space sp) (choice_set_of sp (process sp (S k) neg)) grid ->
  create_state_space n (create_core_state_space sp) (choice_set_of sp (process sp (S k) neg)) grid = Ok ss ->
  (forall p, solved_exactly ss points p) -> ev_shape ss ev0 ->
  exists L ev, factor_of robust kind table choices L /\ solve_with_backward_induction ss inp ev0 = Ok ev /\
    forall s d ctx, In s (create_core_state_space sp) -> dense_combination grid d ctx ->
      forall v, value_at ss ev s d v <->
        v = value (table_problem table choices L cov base (choice_set_of sp (process sp (S k) neg)) ctx) delta (n - cs_period s) s.
Proof. exact table_solution. Qed.
Print Assumptions C131_solution_of_the_table.

(** A table with a wage, a non-pecuniary reward, an observable and a lagged choice. *)
Example C131_example :
  (exists inp, table_model tb_robust 2 pe_covariates [] tb_cov tb_base 100 (fun _ _ => OtherError) pe_params = Ok (tb_sp, inp)) /\
  (forall p, In p pe_params -> word (p_category p)) /\ documented_choices pe_params pe_covariates ["a"%string] ["a"; "home"]%string /\
  small_experience 2 pe_params ["a"%string] /\ (sp_nlags tb_sp <= 1)%nat /\
  shocks_of_kind pe_params Sdcorr /\ value_is pe_params "delta" "delta" 1 /\
  collision_free (create_core_state_space tb_sp) (choice_set_of tb_sp (process tb_sp 1 (fun _ => None))) [] /\
  create_state_space 2 (create_core_state_space tb_sp) (choice_set_of tb_sp (process tb_sp 1 (fun _ => None))) [] = Ok tb_ss /\
  (forall p, solved_exactly tb_ss 100 p) /\ ev_shape tb_ss (initial_ev tb_ss) /\
  In (mkState 1 [1%nat] [Some 0%nat]) (create_core_state_space tb_sp) /\
  forall ctx e, table_reward pe_params "a" (tb_cov ctx (mkState 1 [1%nat] [Some 0%nat])) e =
                exp (1 + 0) * exp (clip (- max_log_float) max_log_float e) + 0.
Proof.
  exact (conj tb_accepted (conj tb_words (conj tb_documented (conj tb_small (conj (le_n 1) (conj pe_kind (conj tb_delta (conj tb_collisions
    (conj tb_created (conj tb_exact (conj (initial_ev_shape tb_ss) (conj tb_state tb_reward)))))))))))).
Qed.
