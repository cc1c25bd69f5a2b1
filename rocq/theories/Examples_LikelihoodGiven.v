(** The table of [Examples_LikelihoodTable] with an observed wage. *)
From Coq Require Import List Arith Bool String Reals ZArith Lra Lia.
From Verif Require Import Base Model_CoreStateSpace Spec_CoreStateSpace Model_StateSpace Spec_StateSpace Model_Solve Spec_Solve Proof_Solve Model_Simulate Spec_Simulate Proof_Criterion Model_Likelihood Spec_Likelihood
  Model_Params Spec_Params Model_Processing Spec_Processing Spec_SolveTable Examples_ParameterOrder Examples_SolveTable
  Spec_SimulateTable Examples_SimulateTable Spec_LikelihoodTable Examples_LikelihoodTable Spec_LikelihoodGiven.
Import ListNotations.
Local Open Scope R_scope.

Lemma lg_small : forall w, 1 <= w <= 3 -> representable w.
Proof.
  intros w [A B]. assert (P : 3 <= 10 ^ 200).
  { apply Rle_trans with (10 ^ 1); [lra|]. apply Rle_pow; [lra|lia]. }
  split; [|lra]. apply Rle_trans with 1; [|exact A]. apply Rmult_le_reg_r with (10 ^ 200); [lra|].
  unfold Rdiv. rewrite Rmult_assoc, Rinv_l by lra. lra.
Qed.

Lemma lg_wage : forall ctx, representable (table_wage ts_params "a" (tb_cov ctx (i_core lt_ind))).
Proof.
  intros ctx. apply lg_small. assert (E : table_wage ts_params "a" (tb_cov ctx (i_core lt_ind)) = exp 1).
  { unfold table_wage, earns, row_sum, rows_of, tb_cov. cbn. f_equal. lra. }
  rewrite E. split; [|exact exp_le_3]. assert (H := exp_ineq1 1 ltac:(lra)). lra.
Qed.

Lemma lg_factor : forall L, factor_of lt_robust Sdcorr ts_params ["a"; "home"]%string L ->
  shock_covariance L [0; 1]%nat 0 0 <> 0 /\ forall c, In c [0; 1]%nat -> L c c <> 0.
Proof.
  intros L [M [[D _] ->]].
  assert (Z : forall c, In c [0; 1]%nat -> lt_robust 2 M c c <> 0).
  { intros c I. unfold lt_robust. rewrite Nat.leb_refl.
    destruct I as [<-|[<-|[]]].
    - destruct (D 0%nat "a"%string eq_refl) as (v & J & ->). clear -J. unfold shock_parameter in J. cbn in J.
      repeat (destruct J as [J|J]; [first [discriminate J | injection J as <-; lra]|]). destruct J.
    - destruct (D 1%nat "home"%string eq_refl) as (v & J & ->). clear -J. unfold shock_parameter in J. cbn in J.
      repeat (destruct J as [J|J]; [first [discriminate J | injection J as <-; lra]|]). destruct J. }
  split; [|exact Z]. unfold shock_covariance. cbn [map rsum List.length]. assert (H := Z 0%nat (or_introl eq_refl)).
  unfold lt_robust in *. cbn in *. assert (P : 0 < M 0%nat 0%nat * M 0%nat 0%nat) by (apply Rsqr_pos_lt; exact H). lra.
Qed.

Lemma lg_open : choice_set_of tb_sp (process tb_sp 1 (fun _ => None)) (context [] lt_ind) (i_core lt_ind) = [true; true].
Proof. vm_compute. reflexivity. Qed.
Lemma lg_two : 1 <= 2 <= 3.
Proof. lra. Qed.
Lemma lg_error : measurement_sd ts_params "a" 2.
Proof. right. right. left. reflexivity. Qed.
