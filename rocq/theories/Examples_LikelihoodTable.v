(** A table of parameters with the likelihood of an observation. *)
From Coq Require Import List Arith Bool String Reals ZArith Lra Lia.
From Verif Require Import Base Proof_Base Model_CoreStateSpace Spec_CoreStateSpace Model_StateSpace Spec_StateSpace Proof_StateSpace Model_Solve Spec_Solve
  Proof_Solve Model_Simulate Spec_Simulate Model_ConditionalDraws Spec_ConditionalDraws Proof_Matrix Proof_ConditionalDraws Model_Likelihood Spec_Likelihood
  Proof_LikelihoodRows Model_Criterion Spec_Criterion Proof_Criterion
  Model_Strings Model_Cache Model_Choices Spec_Choices Model_Params Spec_Params Model_Processing Spec_Processing
  Model_ParseParameters Model_SolveTable Spec_SolveTable Proof_SolveTable Examples_ParameterOrder Examples_SolveTable
  Spec_SimulateTable Proof_SimulateTable Examples_SimulateTable Model_LikelihoodTable Spec_LikelihoodTable Proof_LikelihoodTable.
Import ListNotations.

(** The factor of a diagonal matrix of ones. *)
Definition lt_robust (n : nat) (M : nat -> nat -> R) (i j : nat) : R := if Nat.leb j i then M i j else 0%R.
Lemma lt_triangular : forall n M i j, (i < j)%nat -> lt_robust n M i j = 0%R.
Proof. intros n M i j H. unfold lt_robust. destruct (Nat.leb_spec j i); [lia|reflexivity]. Qed.

(** An individual in the second period, who worked in the first one. *)
Definition lt_ind : individual := mkInd (mkState 1 [1%nat] [Some 0%nat]) [].
Definition lt_draws : list (list R) := [[0; 1]; [1; 0]]%R.

Lemma lt_setup : exists inp lk ev,
  table_likelihood lt_robust 2 pe_covariates [] tb_cov tb_base 100 (fun _ _ => OtherError) (/ 2) ts_params = Ok (tb_sp, inp, lk) /\
  standard_model tb_sp (fun _ => None) 0 [] tb_ss inp /\
  solve_with_backward_induction tb_ss inp (initial_ev tb_ss) = Ok ev /\ ev_shape tb_ss ev /\
  exists k pos, locate tb_ss (i_core lt_ind) (i_dense lt_ind) = Ok (k, pos) /\
    forall wage, let env := likelihood_env tb_ss inp ev (fun _ _ => []) in
    exists lc lw, row_loglikes cholesky lazy_qr lk (le_choice_set env k) (le_wages env k pos) (le_nonpec env k pos) (le_cont env k pos)
      lt_draws 0 wage = Ok (lc, lw).
Proof.
  assert (E : exists inp mp, table_model lt_robust 2 pe_covariates [] tb_cov tb_base 100 (fun _ _ => OtherError) ts_params = Ok (tb_sp, inp) /\
     process_parameters 2 pe_covariates ts_params = Ok mp /\ List.length (snd (mp_meas mp)) = 2%nat).
  { unfold table_model. destruct (process_parameters 2 pe_covariates ts_params) as [mp| | | | |] eqn:E; try (vm_compute in E; discriminate E).
    cbn [result_bind]. eexists. exists mp. split; [|split; [reflexivity|]].
    - f_equal. f_equal. vm_compute in E. injection E as <-. vm_compute. reflexivity.
    - vm_compute in E. injection E as <-. reflexivity. }
  destruct E as (inp & mp & TM & PP & LM).
  destruct (table_standard _ _ _ _ _ _ _ _ _ _ _ _ _ (fun _ => None) 0%nat [] tb_ss TM ts_words ts_documented ts_small (le_n 1)
    (or_introl eq_refl) tb_collisions tb_created tb_exact) as [SM _].
  assert (NZ : 1%R <> 0%R) by lra.
  destruct (table_solution _ _ _ _ _ _ _ _ _ _ _ _ _ _ _ (fun _ => None) 0%nat [] tb_ss (initial_ev tb_ss) TM ts_words ts_documented ts_small (le_n 1)
    (or_introl eq_refl) ts_kind ts_delta NZ tb_collisions tb_created tb_exact (initial_ev_shape tb_ss)) as (L & ev & _ & EV & _).
  assert (SH : ev_shape tb_ss ev).
  { destruct SM as [W L' F CF CR IC LC NI].
    destruct (backward_induction 2 2 (create_core_state_space tb_sp) (choice_set_of tb_sp (process tb_sp 1 (fun _ => None))) [] tb_ss inp)
      with (ev0 := initial_ev tb_ss) as [ev' [E [S _]]]; auto.
    - apply Proof_CoreStateSpace.core_nodup.
    - split; [exact IC|]. split; [|exact (proj1 LC)]. intros ctx s. reflexivity.
    - intros s Hs. exact (Proof_SolveProps.core_periods tb_sp s W L' Hs).
    - destruct (st_parts _ _ _ _ _ _ _ _ _ _ _ _ _ TM ts_words ts_documented _ ts_kind) as (_ & _ & DE & _). rewrite (DE 1%R ts_delta). exact NZ.
    - apply initial_ev_shape.
    - rewrite EV in E. injection E as ->. exact S. }
  exists inp, (likelihood_params inp mp (/ 2)), ev.
  assert (TL : table_likelihood lt_robust 2 pe_covariates [] tb_cov tb_base 100 (fun _ _ => OtherError) (/ 2) ts_params =
    Ok (tb_sp, inp, likelihood_params inp mp (/ 2))) by (unfold table_likelihood; rewrite PP, TM; reflexivity).
  split; [exact TL|]. split; [exact SM|]. split; [exact EV|]. split; [exact SH|].
  assert (IM : in_model (create_core_state_space tb_sp) [] 1 lt_ind) by (split; [exact tb_state|split; [reflexivity|exact I]]).
  destruct (entries_found tb_sp (fun _ => None) 0 [] tb_ss inp ev (fun _ _ => []) SM SH 1 lt_ind IM) as (k & pos & LO & EN).
  exists k, pos. split; [exact LO|]. intros wage env.
  destruct (lt_row _ _ _ _ _ _ _ _ _ _ _ _ _ _ _ _ _ _ _ _ _ _ _ _ _ k pos lt_ind TL ts_words ts_documented ts_kind ts_delta NZ ts_bias SM (initial_ev_shape tb_ss) EV (proj1 IM) EN)
    as (L' & _ & _ & _ & _ & _ & TA & CS & LC & EW & EN' & EC & NW & LM' & _).
  fold env in CS, EW, EN', EC. rewrite CS, EW, EN', EC.
  assert (OP : choice_set_of tb_sp (process tb_sp 1 (fun _ => None)) (context [] lt_ind) (i_core lt_ind) = [true; true]) by (vm_compute; reflexivity).
  rewrite OP.
  destruct (row_succeeds cholesky lazy_qr (likelihood_params inp mp (/ 2)) [true; true]
    (map (fun c => table_wage ts_params (nth c ["a"; "home"]%string ""%string) (tb_cov (context [] lt_ind) (i_core lt_ind))) (positions [true; true]))
    (map (fun c => row_sum ts_params ("nonpec_" ++ nth c ["a"; "home"] "")%string (tb_cov (context [] lt_ind) (i_core lt_ind))) (positions [true; true]))
    (map (table_future ts_params ["a"; "home"]%string L' tb_cov tb_base (choice_set_of tb_sp (process tb_sp 1 (fun _ => None))) 1 2 (context [] lt_ind) (i_core lt_ind))
       (positions [true; true]))
    lt_draws 0 wage 0) as [[lc lw] H]; try reflexivity; try (cbn; lia).
  - discriminate.
  - rewrite TA. lra.
  - right. assert (N0 := NW 0%nat ltac:(cbn; lia)). change (earns ts_params (nth 0 ["a"; "home"]%string ""%string)) with true in N0.
    apply Nat.ltb_lt in N0. destruct (lk_nwages (likelihood_params inp mp (/ 2))) as [|m]; [lia|]. cbn [seq].
    unfold select_valid_choices. cbn. lia.
  - exists lc, lw. exact H.
Qed.
