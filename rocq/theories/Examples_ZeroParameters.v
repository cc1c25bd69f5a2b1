(** A table with a further coefficient of zero. *)
From Coq Require Import List Arith Bool String Reals ZArith Lra Lia.
From Verif Require Import Base Proof_Base Model_CoreStateSpace Spec_CoreStateSpace Model_StateSpace Spec_StateSpace Proof_StateSpace Model_Solve Spec_Solve
  Proof_Solve Model_Strings Model_Cache Model_Choices Spec_Choices Proof_Choices Model_Params Spec_Params Proof_Params Proof_Shocknames Proof_Names Model_Processing Spec_Processing Proof_Processing
  Model_ParseParameters Model_SolveTable Spec_SolveTable Proof_SolveTable Spec_ZeroParameters Examples_ParameterOrder Examples_SolveTable.
Import ListNotations.
Open Scope string_scope.

Definition zp_first : param := ("wage_a", "work", 0%R).
Definition zp_params : list param := zp_first :: pe_params.

Lemma zp_further : further_coefficient pe_params zp_first.
Proof.
  split.
  - exists "a". right. split; [reflexivity|]. cbn. tauto.
  - intros H. apply substring_contains in H. vm_compute in H. discriminate H.
Qed.
Lemma zp_accepted : exists inp, table_model tb_robust 2 pe_covariates [] tb_cov tb_base 100 (fun _ _ => OtherError) zp_params = Ok (tb_sp, inp).
Proof.
  unfold table_model. destruct (process_parameters 2 pe_covariates zp_params) as [mp| | | | |] eqn:E; try (vm_compute in E; discriminate E).
  cbn [result_bind]. eexists. f_equal. f_equal.
  vm_compute in E. injection E as <-. vm_compute. reflexivity.
Qed.
Lemma zp_all_words : forall q, In q zp_params -> word (p_category q).
Proof. intros q [<-|I]; [reflexivity|]. apply tb_words. exact I. Qed.
Lemma zp_documented : documented_choices zp_params pe_covariates ["a"] ["a"; "home"].
Proof. exact (proj1 (st_choices zp_params pe_covariates (st_words zp_params zp_all_words))). Qed.
Lemma zp_shocks : shocks_of_kind zp_params Sdcorr.
Proof.
  destruct pe_kind as [[q [I Q]] ALL]. split.
  - exists q. split; [right; exact I|exact Q].
  - intros r k [<-|J] H; [|exact (ALL r k J H)]. exfalso. rewrite <- !substring_contains in H.
    destruct k; cbn in H; destruct H as [H|H]; discriminate H.
Qed.
Lemma zp_delta : value_is zp_params "delta" "delta" 1%R.
Proof.
  destruct tb_delta as [D U]. split; [right; exact D|]. intros w [I|I]; [discriminate I|exact (U w I)].
Qed.

(** The first row for a wage is different, even if its coefficient is zero. *)
Lemma zp_wage : forall x, table_reward [("nonpec_home", "constant", 0%R)] "home" x 0 = 0%R /\
  table_reward [("wage_home", "constant", 0%R); ("nonpec_home", "constant", 0%R)] "home" x 0 = 1%R.
Proof.
  intros x. unfold table_reward, table_wage, table_shock, earns, row_sum, rows_of, rsum. cbn [existsb filter p_category fst snd map fold_right String.eqb Ascii.eqb Bool.eqb append orb].
  split; [cbn; lra|].
  assert (C : clip (- max_log_float) max_log_float 0 = 0%R).
  { assert (P : (0 <= max_log_float)%R) by (unfold max_log_float; lra). unfold clip. unfold Rmax, Rmin. repeat destruct Rle_dec; lra. }
  rewrite C. cbn. rewrite !Rmult_0_l, Rplus_0_l, !exp_0. lra.
Qed.
