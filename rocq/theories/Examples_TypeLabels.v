(** Concrete cases for the theorems of Props_TypeLabels.v. *)
From Coq Require Import List Arith ZArith Bool Reals Lra Lia Sorting.Permutation.
From Verif Require Import Base Proof_Base Model_CoreStateSpace Model_Parallel Model_Solve Spec_Solve
  Model_ConditionalDraws Model_Likelihood Spec_Likelihood Proof_Likelihood Proof_LikelihoodRows Proof_LikelihoodPanel
  Examples_Likelihood Model_LikelihoodDraws Spec_LikelihoodDraws Proof_LikelihoodDraws Examples_LikelihoodDraws
  Spec_TypeLabels Proof_TypeLabels.
Import ListNotations.
Open Scope R_scope.

(** Two types with equal probabilities; type [special] likes the first choice better. Each
    type has its own dense state. *)
Definition tl_env (special : nat) : like_env :=
  mkLikeEnv (fun _ => [true; true]) (fun _ _ => [1; 1]) (fun k _ => if Nat.eqb k special then [1; 0] else [0; 0])
            (fun _ _ => [0; 0]) (fun _ _ => []).
Definition tl_locate (i : index) (o : obs) (t : nat) : result (nat * nat) := Ok (t, 0%nat).
Definition tl_swap (t : nat) : nat := (1 - t)%nat.
Definition tl_data : frame obs := [dr_first 0].
Definition tl_generate (s : Z) (n c : nat) : list (list (list R)) := map (fun i => [[INR i; 0]]) (seq 0 n).

Definition tl_estimate (generate : Z -> nat -> nat -> list (list (list R))) (special : nat) : result (R * list R) :=
  estimate generate 0 (fun _ m => m) (fun _ m => m) dr_lk tl_locate (tl_env special) 2 [[]; []] (fun _ _ _ => 0) (fun l => l) tl_data.

Lemma tl_row : forall rc qr a x, 0 <= a -> 0 <= x ->
  row_loglikes rc qr dr_lk [true; true] [1; 1] [a; 0] [0; 0] [[x; 0]] 0 None = Ok (dr_value (x + a), 0).
Proof.
  intros rc qr a x Ha Hx. unfold row_loglikes.
  change (map_choice_code 0 [true; true]) with (@Ok nat 0%nat). cbn [result_bind].
  set (draws := map (conditional_draw 2 0 (fun _ => 0) (of_rows (subset_cholesky (lk_chol dr_lk) [true; true]))) [[x; 0]]).
  change (create_draws_and_log_prob_wages _ _ _ _ _ _ _ _ _ _) with (@Ok (list (list R) * R) (draws, 0)).
  cbn [result_bind fst snd].
  assert (Ed : draws = [[x; 0]]).
  { unfold draws. cbn. repeat f_equal; lra. }
  rewrite Ed.
  destruct (simulate_spec [1; 1] [a; 0] [0; 0] [[x; 0]] (lk_beta_delta dr_lk) 0 (lk_tau dr_lk)) as [lp [E [V _]]].
  - repeat split. intros e [<-|[]]. reflexivity.
  - cbn. lia.
  - discriminate.
  - cbn. lra.
  - rewrite E. cbn [result_bind]. assert (L : lp = dr_value (x + a)).
    { rewrite <- (ln_exp lp), V. unfold dr_value. f_equal. unfold smoothed_probability, logit, choice_values, mean, rsum, dr_lk.
      cbn [map seq length nth fold_right lk_beta_delta lk_tau INR].
      replace ((1 * x + a + 1 * 0) / 1) with (x + a) by field. replace ((1 * 0 + 0 + 1 * 0) / 1) with 0 by field. rewrite exp_0.
      assert (P : 0 < exp (x + a)) by apply exp_pos. field. lra. }
    rewrite L, dr_clip by lra. rewrite (clip_id (- max_float) max_float 0); [reflexivity|]. pose proof max_float_pos. lra.
Qed.

Definition share (x : R) : R := exp x / (exp x + 1).

Lemma share_bounds : forall x, 0 <= x -> 1 / 10 <= share x <= 1.
Proof.
  intros x Hx. assert (E : 1 <= exp x).
  { destruct Hx as [Hx|<-]; [pose proof (exp_ineq1 x ltac:(lra)); lra|rewrite exp_0; lra]. }
  assert (D : share x * (exp x + 1) = exp x) by (unfold share; field; lra).
  split; apply (Rmult_le_reg_r (exp x + 1)); try lra; rewrite D; lra.
Qed.

Lemma tl_contribution : forall u w, 0 <= u -> 0 <= w ->
  type_contribution [[]; []] (fun _ _ _ => 0)
    [(mkLrow (0%nat, 0%nat) 0 (mkObs 0 None) 0 0, (dr_value u, 0)); (mkLrow (0%nat, 0%nat) 1 (mkObs 0 None) 1 0, (dr_value w, 0))] 0
  = Ok (ln ((share u + share w) / 2)).
Proof.
  intros u w Hu Hw. pose proof (share_bounds u Hu) as Bu. pose proof (share_bounds w Hw) as Bw.
  assert (Z : logits (type_indices [[]; []] (fun _ _ => 0)) = [1 / 2; 1 / 2]).
  { unfold logits, type_indices, enumerate, logit, linear_index, rsum. cbn. rewrite exp_0. repeat f_equal; lra. }
  rewrite type_contribution_spec.
  - rewrite Z. f_equal.
    assert (M : mixture [1 / 2; 1 / 2]
       (likelihood_of [(mkLrow (0%nat, 0%nat) 0 (mkObs 0 None) 0 0, (dr_value u, 0)); (mkLrow (0%nat, 0%nat) 1 (mkObs 0 None) 1 0, (dr_value w, 0))] 0)
       = (share u + share w) / 2).
    { unfold mixture, likelihood_of, enumerate, rsum, rprod. cbn [enumerate_from map filter lr_index lr_type fst snd Nat.eqb andb fold_right].
      unfold dr_value. fold (share u) (share w). rewrite !exp_ln by lra. rewrite exp_0. lra. }
    rewrite M. apply clip_id. pose proof max_float_pos as P. unfold max_float in P. split.
    + apply ln_above. lra.
    + apply Rle_trans with (ln 1); [|rewrite ln_1; lra].
      destruct (Rle_lt_or_eq_dec ((share u + share w) / 2) 1 ltac:(lra)) as [L|L]; [left; apply ln_increasing; lra|rewrite L; apply Rle_refl].
  - unfold unique_rows. cbn [map fst lr_index lr_type]. repeat constructor; cbn; intuition congruence.
  - discriminate.
  - intros p Hp. rewrite Z in Hp. apply ln_above. destruct Hp as [<-|[<-|[]]]; lra.
Qed.

(** The draw for type [t] is [x t]. *)
Lemma tl_evaluate : forall generate special x,
  (forall t, (t < 2)%nat -> generate (0 + Z.of_nat t)%Z 1%nat 2%nat = [[[x t; 0]]]) -> (forall t, 0 <= x t) ->
  exists v, tl_estimate generate special = Ok (v,
    let bonus t := if Nat.eqb t special then 1 else 0 in
    let c := ln ((share (x 0%nat + bonus 0%nat) + share (x 1%nat + bonus 1%nat)) / 2) in [c; c]).
Proof.
  intros generate special x G X. cbv zeta. set (bonus := fun t => if Nat.eqb t special then 1 else 0).
  change (if Nat.eqb 0 special then 1 else 0) with (bonus 0%nat). change (if Nat.eqb 1 special then 1 else 0) with (bonus 1%nat).
  assert (B : forall t, 0 <= bonus t) by (intros t; unfold bonus; destruct (Nat.eqb t special); lra).
  unfold tl_estimate, estimate, log_like, duplicate_for_types, tl_data, dr_first, tl_locate.
  cbn [Nat.leb seq flat_map map app fst snd result_all result_bind].
  set (r := mkLrow (0%nat, 0%nat) 0 (mkObs 0 None) 0 0). set (r' := mkLrow (0%nat, 0%nat) 1 (mkObs 0 None) 1 0).
  unfold compute_contributions. change (number_rows [r; r']) with [((0%nat, 0%nat), r); ((1%nat, 0%nat), r')].
  cbn [map fst snd result_all].
  assert (C : forall q t, lr_obs q = mkObs 0 None -> lr_key q = t -> (t < 2)%nat ->
    base_draws_est generate 0 (fun k => count_true (le_choice_set (tl_env special) k)) [r; r'] t 0 = [[x t; 0]] ->
    contributions_of_row (fun _ m => m) (fun _ m => m) dr_lk
      (with_draws (tl_env special) (base_draws_est generate 0 (fun k => count_true (le_choice_set (tl_env special) k)) [r; r'])) 0 q
    = Ok (q, (dr_value (x t + bonus t), 0))).
  { intros q t Ho Hk Ht D. unfold contributions_of_row, with_draws.
    cbn [le_choice_set le_wages le_nonpec le_cont le_draws]. rewrite Ho, Hk, D. cbn [ob_code ob_wage tl_env le_choice_set le_wages le_nonpec le_cont].
    assert (N : (if Nat.eqb t special then [1; 0] else [0; 0]) = [bonus t; 0]) by (unfold bonus; destruct (Nat.eqb t special); reflexivity).
    rewrite N, tl_row by (try apply B; apply X). reflexivity. }
  rewrite (C r 0%nat), (C r' 1%nat); try reflexivity; try lia.
  - cbn [result_bind]. unfold contributions. cbn [Nat.leb].
    change (isort Nat.leb (type_rows [((0%nat, 0%nat), mkObs 0 None)] 2)) with [0%nat; 0%nat]. cbn [map result_all]. unfold r, r'.
    rewrite tl_contribution by (pose proof (B 0%nat); pose proof (B 1%nat); pose proof (X 0%nat); pose proof (X 1%nat); lra).
    cbn [result_bind]. eexists. reflexivity.
  - unfold base_draws_est. change (observed_keys [r; r']) with [0%nat; 1%nat].
    cbn [enumerate enumerate_from find snd fst Nat.eqb filter lr_key r r' length]. cbn. specialize (G 1%nat ltac:(lia)). cbn in G. rewrite G. reflexivity.
  - unfold base_draws_est. change (observed_keys [r; r']) with [0%nat; 1%nat].
    cbn. specialize (G 0%nat ltac:(lia)). cbn in G. rewrite G. reflexivity.
Qed.

Lemma tl_relabelling : relabelling 2 tl_swap.
Proof. unfold tl_swap. split; intros; lia. Qed.

Lemma tl_separated : types_separated tl_locate 2.
Proof. intros i o t j o' t' k p p' _ _ E E'. unfold tl_locate in *. congruence. Qed.

Lemma tl_groups : same_groups 2 tl_swap tl_locate tl_data.
Proof. intros i o j o' t k k' l l' p1 p2 p3 p4 _ _ _ A B C D. unfold tl_locate in *. split; congruence. Qed.

Lemma tl_env_swapped : relabelled_env 2 tl_swap tl_locate tl_data (tl_env 1) (tl_env 0).
Proof.
  intros i o t k p k' p' _ Ht E E'. unfold tl_locate in *. injection E as <- <-. injection E' as <- <-. cbn. repeat split.
  destruct t as [|[|t]]; [reflexivity|reflexivity|lia].
Qed.

Lemma tl_indices : relabelled_indices 2 tl_swap (type_indices [[]; []] (fun _ _ => 0)) (type_indices [[]; []] (fun _ _ => 0)).
Proof.
  split; [reflexivity|]. split; [reflexivity|]. exists 0. intros t Ht.
  destruct t as [|[|t]]; [cbn; unfold linear_index; cbn; lra|cbn; unfold linear_index; cbn; lra|lia].
Qed.

Lemma tl_unique : NoDup (map fst tl_data).
Proof. repeat constructor. intros []. Qed.

Lemma tl_shares_differ : (share (0 + 0) + share (1 + 1)) / 2 <> (share (0 + 1) + share (1 + 0)) / 2.
Proof.
  intros H. rewrite !Rplus_0_r, Rplus_0_l in H. unfold share in H. rewrite exp_plus, exp_0 in H.
  pose proof (exp_ineq1 1 ltac:(lra)) as P. set (y := exp 1) in *.
  apply (f_equal (fun z => z * (4 * (y * y + 1) * (y + 1)))) in H.
  assert (A : (1 / (1 + 1) + y * y / (y * y + 1)) / 2 * (4 * (y * y + 1) * (y + 1)) = (y * y + 1) * (y + 1) + 2 * (y * y) * (y + 1)) by (field; nra).
  assert (B : (y / (y + 1) + y / (y + 1)) / 2 * (4 * (y * y + 1) * (y + 1)) = 4 * y * (y * y + 1)) by (field; nra).
  rewrite A, B in H. assert (Q : 0 < (y - 1) * ((y - 1) * (y - 1))) by (repeat apply Rmult_lt_0_compat; lra). lra.
Qed.

Lemma tl_random : exists v cs v' cs', tl_estimate dr_generate 1 = Ok (v, cs) /\ tl_estimate dr_generate 0 = Ok (v', cs') /\ cs <> cs'.
Proof.
  assert (G : forall t, (t < 2)%nat -> dr_generate (0 + Z.of_nat t)%Z 1%nat 2%nat = [[[INR t; 0]]]).
  { intros t _. unfold dr_generate. cbn [seq map]. rewrite Z.add_0_l, <- INR_IZR_INZ. cbn [INR]. rewrite Rplus_0_r. reflexivity. }
  destruct (tl_evaluate dr_generate 1 INR G (fun t => pos_INR t)) as [v E]. destruct (tl_evaluate dr_generate 0 INR G (fun t => pos_INR t)) as [v' E'].
  do 4 eexists. split; [exact E|]. split; [exact E'|]. cbn [Nat.eqb INR]. intros H. injection H as H _.
  pose proof (share_bounds (0 + 0) ltac:(lra)). pose proof (share_bounds (1 + 1) ltac:(lra)).
  pose proof (share_bounds (0 + 1) ltac:(lra)). pose proof (share_bounds (1 + 0) ltac:(lra)).
  apply ln_inv in H; [|lra|lra]. apply tl_shares_differ. exact H.
Qed.

Lemma tl_deterministic : exists v cs, tl_estimate tl_generate 1 = Ok (v, cs) /\ cs <> [].
Proof.
  destruct (tl_evaluate tl_generate 1 (fun _ => 0)) as [v E]; [intros; reflexivity|intros; lra|]. do 2 eexists. split; [exact E|discriminate].
Qed.
