(** Concrete cases for the theorems of Props_Likelihood.v. *)
From Coq Require Import List Arith Bool Reals Lra Lia Sorting.Permutation.
From Verif Require Import Base Proof_Base Model_Parallel Model_Solve Spec_Solve
  Model_ConditionalDraws Spec_ConditionalDraws Proof_Matrix Proof_ConditionalDraws
  Model_Likelihood Spec_Likelihood Proof_Likelihood Proof_LikelihoodRows Proof_LikelihoodPanel.
Import ListNotations.
Open Scope R_scope.

(** Two correlated shocks. *)
Definition ex_chol : list (list R) := [[1; 0]; [1; 1]].

Lemma ex_chol_gram : gram 2 (of_rows ex_chol) 0%nat 0%nat = 1 /\ gram 2 (of_rows ex_chol) 1%nat 0%nat = 1 /\
  gram 2 (of_rows ex_chol) 1%nat 1%nat = 2.
Proof. unfold gram, of_rows, ex_chol. cbn. lra. Qed.

Lemma ex_chol_lower : Spec_ConditionalDraws.lower_triangular 2 (of_rows ex_chol) /\
  forall k, (k < 2)%nat -> of_rows ex_chol k k <> 0.
Proof.
  split.
  - intros i j Hi Hj H. assert (i = 0%nat /\ j = 1%nat) as [-> ->] by lia. reflexivity.
  - intros k Hk. assert (k = 0%nat \/ k = 1%nat) as [->| ->] by lia; unfold of_rows, ex_chol; cbn; lra.
Qed.

(** Two types, two individuals; the first choice has a wage. *)
Definition ex_lk : like_spec := mkLikeSpec ex_chol 1 [0; 0] false (95 / 100) (1 / 2).
Definition ex_data : frame obs :=
  [((0, 0), mkObs 0 (Some 1%R)); ((0, 1), mkObs 1 None); ((1, 0), mkObs 1 None)]%nat.
Definition ex_env : like_env :=
  mkLikeEnv (fun _ => [true; true]) (fun k _ => [exp (INR k); 1]) (fun _ _ => [0; 2]) (fun _ i => [INR i; 0])
            (fun _ j => [[0; INR j]; [1; 0]]).
Definition ex_locate (i : index) (o : obs) (t : nat) : result (nat * nat) := Ok (t, snd i).
Definition ex_params : list (list (nat * R)) := [[]; [(0%nat, 1)]].
Definition ex_x (id t name : nat) : R := INR id.

Lemma ex_evaluable : forall idx ob t, In (idx, ob) ex_data -> (t < 2)%nat ->
  exists k pos, ex_locate idx ob t = Ok (k, pos) /\ evaluable ex_lk ex_env k pos ob.
Proof.
  intros idx ob t H Ht. exists t, (snd idx). split; [reflexivity|].
  unfold evaluable. cbn [ex_env le_choice_set le_wages le_nonpec le_cont le_draws].
  assert (A : available [true; true] (ob_code ob) /\ (ob_wage ob = None \/ (ob_code ob < lk_nwages ex_lk)%nat)).
  { destruct H as [H|[H|[H|[]]]]; injection H as _ <-; cbn; split; try reflexivity; [right; lia|left; reflexivity|left; reflexivity]. }
  destruct A as [A1 A2]. split; [exact A1|]. split; [exact A2|].
  repeat split; try reflexivity. discriminate.
Qed.

Lemma ln_above : forall p, 1 / 10 <= p -> - 10 ^ 200 <= ln p.
Proof.
  intros p Hp. assert (G : forall n, 1 <= 10 ^ n).
  { induction n as [|n IH]; [simpl; lra|]. cbn [pow]. lra. }
  assert (E : 10 ^ 200 = 10 * 10 ^ 199) by reflexivity. specialize (G 199%nat).
  assert (L : ln (1 / 10) <= ln p).
  { destruct Hp as [Hp|Hp]; [left; apply ln_increasing; lra|right; rewrite Hp; reflexivity]. }
  assert (L2 : ln (1 / 10) = - ln 10).
  { unfold Rdiv. rewrite Rmult_1_l, ln_Rinv by lra. reflexivity. }
  assert (L3 : ln 10 < 10).
  { rewrite <- (ln_exp 10) at 2. apply ln_increasing; [lra|]. pose proof (exp_ineq1 10 ltac:(lra)). lra. }
  rewrite E. lra.
Qed.

Lemma ex_probabilities : forall id p, In id (individuals ex_data) ->
  In p (logits (type_indices ex_params (ex_x id))) -> - 10 ^ 200 <= ln p.
Proof.
  intros id p Hid Hp. apply ln_above.
  unfold logits, type_indices, ex_params, logit, linear_index, ex_x in Hp. cbn in Hp.
  assert (Hz : INR id * 1 + 0 = INR id) by lra. rewrite Hz in Hp. rewrite exp_0 in Hp.
  assert (B : 1 <= exp (INR id) <= 3).
  { cbn in Hid. destruct Hid as [<-|[<-|[]]]; cbn [INR]; [rewrite exp_0; lra|].
    pose proof exp_le_3. pose proof (exp_ineq1 1 ltac:(lra)). lra. }
  assert (Pd : 0 < 1 + (exp (INR id) + 0)) by lra.
  assert (D : forall a, a / (1 + (exp (INR id) + 0)) * (1 + (exp (INR id) + 0)) = a) by (intros; field; lra).
  destruct Hp as [<-|[<-|[]]]; apply (Rmult_le_reg_r (1 + (exp (INR id) + 0))); try exact Pd; rewrite D; lra.
Qed.

Lemma ex_unique : NoDup (map fst ex_data).
Proof. repeat constructor; cbn; intuition congruence. Qed.
