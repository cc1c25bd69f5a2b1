(** Concrete cases for the theorems of Props_LikelihoodUnits.v. *)
From Coq Require Import List Arith Bool Reals Lra Lia Sorting.Permutation.
From Verif Require Import Base Proof_Base Model_StateSpace Model_Parallel Model_Solve Spec_Solve
  Model_ConditionalDraws Spec_ConditionalDraws Proof_Matrix Proof_ConditionalDraws
  Model_Likelihood Spec_Likelihood Proof_Likelihood Proof_LikelihoodRows Proof_LikelihoodPanel
  Spec_LikelihoodUnits Proof_LikelihoodUnits.
Import ListNotations.
Open Scope R_scope.

(** Two choices, the first with a wage, correlated shocks; two individuals with three
    observations and one wage, in units in which rewards are multiplied by [lam]. *)
Definition unit_lk (lam : R) : like_spec := mkLikeSpec [[1; 0]; [lam; lam]] 1 [0; 0] false (95 / 100) (lam / 2).
Definition unit_env (lam : R) : like_env :=
  mkLikeEnv (fun _ => [true; true]) (fun _ _ => [lam; 1]) (fun _ _ => [0; lam]) (fun _ _ => [0; 0]) (fun _ _ => [[0; 0]]).
Definition unit_data : frame obs :=
  [((0, 0), mkObs 0 (Some 1%R)); ((0, 1), mkObs 1 None); ((1, 0), mkObs 1 None)]%nat.
Definition unit_locate (i : index) (o : obs) (t : nat) : result (nat * nat) := Ok (0%nat, snd i).

Lemma zero_draw : forall n nw mean U base, (forall j, nth j base 0 = 0) -> (forall i, mean i = 0) ->
  conditional_draw n nw mean U base = map (fun i => if Nat.ltb i nw then 1 else 0) (seq 0 n).
Proof.
  intros n nw mean U base Hb Hm. unfold conditional_draw. apply map_ext. intros i.
  assert (E : forall l a, fold_left (fun cd j => cd + nth j base 0 * U i j) l a = a).
  { induction l as [|j l IH]; intros a; [reflexivity|]. cbn [fold_left]. rewrite IH, Hb. lra. }
  cbv zeta. rewrite E, Hm. destruct (Nat.ltb i nw); [|reflexivity].
  destruct (Rlt_dec max_log_float 0) as [L|_]; [unfold max_log_float in L; lra|apply exp_0].
Qed.

Lemma pow_big : forall n, 1 <= 10 ^ n.
Proof. induction n as [|n IH]; [simpl; lra|]. cbn [pow]. lra. Qed.
Lemma bound_big : 100 <= 10 ^ 200.
Proof. pose proof (pow_big 198). change (10 ^ 200) with (10 * (10 * 10 ^ 198)). lra. Qed.
Lemma small_clip : forall x, - 100 <= x <= 100 -> clip (- max_float) max_float x = x.
Proof. intros x H. pose proof bound_big. apply clip_id; unfold max_float; lra. Qed.
Lemma unit_representable : forall lam, 1 / 100 <= lam <= 100 -> representable lam.
Proof.
  intros lam H. pose proof bound_big as B. unfold representable. split; [|lra].
  apply Rle_trans with (1 / 100); [|lra]. unfold Rdiv. rewrite !Rmult_1_l. apply Rinv_le_contravar; lra.
Qed.

Lemma unit_logit : forall lam c, 0 < lam -> (c < 2)%nat ->
  simulate_log_probability [lam; 1] [0; lam] [0; 0] [[1; 0]] (95 / 100) c (lam / 2) = Ok (- ln 2).
Proof.
  intros lam c Hl Hc. unfold simulate_log_probability. destruct (Req_EM_T (lam / 2) 0) as [E|_]; [lra|].
  cbn [map result_all]. unfold log_probability_of_draw.
  cbn [length seq map nth aggregate_keane_wolpin_utility fst].
  replace ((lam * 1 + 0 + 95 / 100 * 0) / (lam / 2)) with 2 by (field; lra).
  replace ((1 * 0 + lam + 95 / 100 * 0) / (lam / 2)) with 2 by (field; lra).
  assert (L2 : logsumexp [2; 2] = Ok (2 + ln 2)).
  { rewrite logsumexp_spec by discriminate. f_equal. unfold rsum. cbn [map fold_right].
    replace (exp 2 + (exp 2 + 0)) with (exp 2 * 2) by lra. rewrite ln_mult, ln_exp by (try apply exp_pos; lra). reflexivity. }
  assert (N : nth_error [2; 2] c = Some 2) by (destruct c as [|[|c]]; [reflexivity|reflexivity|lia]).
  rewrite N, L2. cbn [result_bind]. rewrite logsumexp_spec by discriminate. cbn [result_bind]. f_equal.
  unfold rsum. cbn [map fold_right INR]. rewrite Rplus_0_r, ln_exp, ln_1. lra.
Qed.

Lemma ln_small : forall x, 1 / 100 <= x <= 100 -> - 100 <= ln x <= 100.
Proof.
  intros x H. assert (U : forall y, 0 < y <= 100 -> ln y <= 100).
  { intros y Hy. rewrite <- (ln_exp 100). destruct (Req_dec y (exp 100)) as [->|N]; [lra|].
    left. apply ln_increasing; [lra|]. pose proof (exp_ineq1 100 ltac:(lra)). lra. }
  split; [|apply U; lra]. assert (A : ln (/ x) <= 100).
  { apply U. split; [apply Rinv_0_lt_compat; lra|]. replace 100 with (/ (1 / 100)) by lra. apply Rinv_le_contravar; lra. }
  rewrite ln_Rinv in A by lra. lra.
Qed.

Lemma ln_two_pi : 0 <= ln (2 * PI) <= 7.
Proof.
  pose proof PI_4. pose proof PI2_3_2. split.
  - rewrite <- ln_1. left. apply ln_increasing; lra.
  - rewrite <- (ln_exp 7). left. apply ln_increasing; [lra|]. pose proof (exp_ineq1 7 ltac:(lra)). lra.
Qed.
Lemma ln_two : 0 <= ln 2 <= 1.
Proof.
  split; [rewrite <- ln_1; left; apply ln_increasing; lra|]. rewrite <- (ln_exp 1). left. apply ln_increasing; [lra|].
  pose proof (exp_ineq1 1 ltac:(lra)). lra.
Qed.

Lemma unit_row_wage : forall lam, 1 <= lam <= 10 ->
  row_loglikes cholesky lazy_qr (unit_lk lam) [true; true] [lam; 1] [0; lam] [0; 0] [[0; 0]] 0 (Some lam) =
  Ok (- ln 2, - ln (2 * PI) / 2 - ln lam).
Proof.
  intros lam H. unfold row_loglikes. change (map_choice_code 0 [true; true]) with (Ok 0%nat). cbn [result_bind].
  unfold create_draws_and_log_prob_wages. cbn [nth_error log_wage option_map].
  rewrite (representable_clip lam) by (apply unit_representable; lra).
  unfold update_mean_and_evaluate_likelihood. cbn [nth_error unit_lk lk_meas lk_has_meas lk_chol lk_nwages lk_tau lk_beta_delta].
  cbn [result_bind].
  change (length (select_valid_choices (seq 0 1) [true; true])) with 1%nat.
  unfold update_cholcov. cbn [Nat.ltb Nat.leb]. cbn [result_bind fst snd map].
  rewrite zero_draw; [|intros [|[|[|j]]]; reflexivity|intros i; unfold Rdiv; rewrite Rminus_eq_0, Rmult_0_r, Rmult_0_l; reflexivity].
  cbn [length seq map Nat.ltb Nat.leb]. rewrite unit_logit by (lra || lia). cbn [result_bind].
  pose proof ln_two. pose proof ln_two_pi. pose proof (ln_small lam ltac:(lra)).
  assert (L10 : ln lam <= 10).
  { rewrite <- (ln_exp 10). left. apply ln_increasing; [lra|]. pose proof (exp_ineq1 10 ltac:(lra)). lra. }
  assert (G : gram 2 (of_rows (subset_cholesky [[1; 0]; [lam; lam]] [true; true])) 0%nat 0%nat = 1) by (cbn; unfold of_rows; cbn; lra).
  rewrite G. replace (1 + 0 ^ 2) with 1 by lra. rewrite sqrt_1, ln_1, Rminus_eq_0.
  assert (E : - ln (2 * PI) / 2 - ln lam - 0 - 0 ^ 2 / (2 * 1) = - ln (2 * PI) / 2 - ln lam) by lra.
  rewrite E. rewrite !small_clip by lra. reflexivity.
Qed.

Lemma unit_row : forall lam, 1 <= lam <= 10 ->
  row_loglikes cholesky lazy_qr (unit_lk lam) [true; true] [lam; 1] [0; lam] [0; 0] [[0; 0]] 1 None = Ok (- ln 2, 0).
Proof.
  intros lam H. unfold row_loglikes. change (map_choice_code 1 [true; true]) with (Ok 1%nat). cbn [result_bind].
  unfold create_draws_and_log_prob_wages. cbn [nth_error log_wage option_map].
  unfold update_mean_and_evaluate_likelihood. cbn [nth_error unit_lk lk_meas lk_has_meas lk_chol lk_nwages lk_tau lk_beta_delta].
  cbn [result_bind].
  change (length (select_valid_choices (seq 0 1) [true; true])) with 1%nat.
  unfold update_cholcov. cbn [Nat.ltb Nat.leb Nat.eqb]. cbn [result_bind fst snd map].
  rewrite zero_draw; [|intros [|[|[|j]]]; reflexivity|reflexivity].
  cbn [length seq map Nat.ltb Nat.leb]. rewrite unit_logit by (lra || lia). cbn [result_bind].
  pose proof ln_two. rewrite !small_clip by lra. reflexivity.
Qed.

Lemma unit_log_like : forall lam, 1 <= lam <= 10 ->
  log_like cholesky lazy_qr (unit_lk lam) unit_locate (unit_env lam) 1 [[]] (fun _ _ _ => 0) (fun l => l) (fun l => l)
    (scaled_data lam unit_data) =
  Ok ((- ln 2 + (- ln (2 * PI) / 2 - ln lam) + - ln 2 + - ln 2) / 2,
      [- ln 2 + (- ln (2 * PI) / 2 - ln lam) + - ln 2; - ln 2]).
Proof.
  intros lam H. unfold log_like.
  change (duplicate_for_types unit_locate 1 (scaled_data lam unit_data)) with
    (Ok [mkLrow (0, 0) 0 (mkObs 0 (Some (lam * 1)%R)) 0 0; mkLrow (0, 1) 0 (mkObs 1 None) 0 1; mkLrow (1, 0) 0 (mkObs 1 None) 0 0])%nat.
  cbn [result_bind]. rewrite Rmult_1_r. unfold compute_contributions.
  change (number_rows _) with [((0, 0), mkLrow (0, 0) 0 (mkObs 0 (Some lam)) 0 0); ((0, 1), mkLrow (0, 1) 0 (mkObs 1 None) 0 1);
    ((0, 2), mkLrow (1, 0) 0 (mkObs 1 None) 0 0)]%nat.
  cbn [map fst snd]. unfold contributions_of_row. cbn [lr_key lr_pos lr_obs ob_code ob_wage unit_env le_choice_set le_wages le_nonpec le_cont le_draws].
  rewrite unit_row_wage, unit_row by exact H. cbn [result_bind result_all].
  unfold contributions. cbn [Nat.leb result_bind].
  cbn [map fst lr_index]. change (isort Nat.leb (drop_duplicates Nat.eq_dec [0; 0; 1]%nat)) with [0; 1]%nat. cbn [map].
  unfold per_individual. cbn [filter fst snd lr_index Nat.eqb map fold_right].
  pose proof ln_two. pose proof ln_two_pi.
  assert (L10 : 0 <= ln lam <= 10).
  { split.
    - destruct (Req_dec lam 1) as [->|N]; [rewrite ln_1; lra|]. rewrite <- ln_1. left. apply ln_increasing; lra.
    - rewrite <- (ln_exp 10). left. apply ln_increasing; [lra|]. pose proof (exp_ineq1 10 ltac:(lra)). lra. }
  rewrite !small_clip by lra. cbn [length INR]. f_equal. f_equal; [field|]. f_equal; [lra|]. f_equal. lra.
Qed.

Lemma unit_inside : forall lam, 1 <= lam <= 10 -> inside [- ln 2 + (- ln (2 * PI) / 2 - ln lam) + - ln 2; - ln 2].
Proof.
  intros lam H. pose proof ln_two. pose proof ln_two_pi. pose proof bound_big.
  assert (L10 : 0 <= ln lam <= 10).
  { split.
    - destruct (Req_dec lam 1) as [->|N]; [rewrite ln_1; lra|]. rewrite <- ln_1. left. apply ln_increasing; lra.
    - rewrite <- (ln_exp 10). left. apply ln_increasing; [lra|]. pose proof (exp_ineq1 10 ltac:(lra)). lra. }
  repeat constructor; lra.
Qed.

Lemma unit_spec : forall lam, spec_scaled lam (unit_lk 1) (unit_lk lam).
Proof.
  intros lam. unfold spec_scaled. cbn [unit_lk lk_nwages lk_meas lk_has_meas lk_beta_delta lk_tau lk_chol].
  repeat split; [lra|]. intros c j. unfold mat.
  destruct c as [|[|c]]; [|destruct j as [|[|[|j]]]; cbn; lra|cbn; destruct c, j; cbn; lra].
  cbn [Nat.ltb Nat.leb]. cbn. destruct j as [|[|[|j]]]; lra.
Qed.

Lemma unit_env_scaled : forall lam, env_scaled lam (unit_lk 1) (unit_env 1) (unit_env lam).
Proof.
  intros lam. unfold env_scaled. cbn [unit_env le_choice_set le_draws le_wages le_nonpec le_cont]. repeat split.
  - intros _ _ j c H. destruct j as [|[|j]]; [injection H as <-; cbn; lra|injection H as <-; cbn; lra|destruct j; discriminate].
  - intros _ _ [|[|[|j]]]; cbn; lra.
  - intros _ _ [|[|[|j]]]; cbn; lra.
Qed.

Lemma unit_density : ln (lognormal_density (ln 1) (restricted_cov (lk_chol (unit_lk 1)) [true; true] 0 0 + 0 ^ 2) 1) = - ln (2 * PI) / 2.
Proof.
  assert (G : restricted_cov (lk_chol (unit_lk 1)) [true; true] 0 0 + 0 ^ 2 = 1) by (unfold restricted_cov, rsum; cbn; lra).
  rewrite G. unfold lognormal_density. rewrite ln_1, sqrt_1. replace (- ((0 - 0) ^ 2 / (2 * 1))) with 0 by lra. rewrite exp_0.
  pose proof PI_RGT_0 as P. assert (S : 0 < sqrt (2 * PI)) by (apply sqrt_lt_R0; lra).
  replace (1 / (1 * 1 * sqrt (2 * PI)) * 1) with (/ sqrt (2 * PI)) by (field; lra).
  rewrite ln_Rinv by exact S. assert (E : ln (2 * PI) = ln (sqrt (2 * PI)) + ln (sqrt (2 * PI))); [|lra].
  rewrite <- ln_mult by exact S. rewrite sqrt_sqrt by lra. reflexivity.
Qed.

Lemma unit_evaluable : forall lam, 1 <= lam <= 10 -> all_evaluable lam (unit_lk 1) (unit_lk lam) unit_locate (unit_env 1) 1 unit_data.
Proof.
  intros lam Hl idx ob t k pos Hd Ht L. injection L as <- <-.
  assert (A : available [true; true] (ob_code ob) /\ (ob_wage ob = None \/ (ob_code ob < 1)%nat) /\ (ob_wage ob = None \/ ob = mkObs 0 (Some 1))).
  { destruct Hd as [E|[E|[E|[]]]]; injection E as _ <-; cbn; repeat split; try reflexivity; auto. }
  destruct A as [A1 [A2 A3]]. cbn [unit_env le_choice_set]. split; [|split; [|split]].
  - split; [exact A1|]. split; [exact A2|]. repeat split; try reflexivity. discriminate.
  - split; [cbn; lia|]. split; [|split; [|split]].
    + split; [reflexivity|]. intros row [<-|[<-|[]]]; reflexivity.
    + intros i j Hij. cbn [unit_lk lk_chol]. unfold mat. destruct i as [|[|i]], j as [|[|j]]; try lia; try reflexivity; cbn; try (destruct j; reflexivity); destruct i; try (destruct j; reflexivity); reflexivity.
    + intros c Hc. destruct c as [|[|c]]; [unfold mat; cbn; lra|unfold mat; cbn; lra|destruct c; discriminate].
    + discriminate.
  - split; [reflexivity|]. intros row [<-|[<-|[]]]; reflexivity.
  - intros w i s sd Hw Hi Hs Hsd. destruct A3 as [A3|A3]; [congruence|]. subst ob. cbn [ob_wage ob_code] in *. injection Hw as <-.
    destruct i as [|[|i]]; [|discriminate|destruct i; discriminate]. cbn in Hs, Hsd. injection Hs as <-. injection Hsd as <-.
    rewrite !Rmult_1_r. repeat split; try (apply unit_representable; lra); try (apply unit_representable; lra);
    cbn [unit_env le_choice_set]; rewrite unit_density; pose proof ln_two_pi; pose proof bound_big; pose proof (ln_small lam ltac:(lra));
    pose proof (pow_big 197); assert (1000 <= 10 ^ 200) by (change (10 ^ 200) with (10 * (10 * (10 * 10 ^ 197))); lra); lra.
Qed.

Lemma unit_unique : NoDup (map fst unit_data).
Proof. repeat constructor; cbn; intuition congruence. Qed.
