(** Concrete cases for the theorems of Props_LikelihoodDraws.v. *)
From Coq Require Import List Arith ZArith Bool Reals Lra Lia Sorting.Permutation.
From Verif Require Import Base Proof_Base Model_CoreStateSpace Model_Parallel Model_Solve Spec_Solve
  Model_ConditionalDraws Model_Likelihood Spec_Likelihood Proof_Likelihood Proof_LikelihoodRows Proof_LikelihoodPanel
  Examples_Likelihood Model_LikelihoodDraws Spec_LikelihoodDraws Proof_LikelihoodDraws.
Import ListNotations.
Open Scope R_scope.

(** Two choices without wages whose values are the draws. The draw of the first choice is
    the seed plus the position, the one of the second choice is zero. *)
Definition dr_generate (s : Z) (n c : nat) : list (list (list R)) := map (fun i => [[IZR s + INR i; 0]]) (seq 0 n).
Definition dr_lk : like_spec := mkLikeSpec [[1; 0]; [0; 1]] 0 [0; 0] false 1 1.
Definition dr_env : like_env :=
  mkLikeEnv (fun _ => [true; true]) (fun _ _ => [1; 1]) (fun _ _ => [0; 0]) (fun _ _ => [0; 0]) (fun _ _ => []).
Definition dr_first (id : nat) : index * obs := ((id, 0%nat), mkObs 0 None).
Definition dr_value (x : R) : R := ln (exp x / (exp x + 1)).

Lemma dr_extendable : extendable dr_generate.
Proof.
  intros s n m c H. unfold dr_generate. split; [|rewrite map_length, seq_length; reflexivity].
  rewrite firstn_map. f_equal. replace m with (n + (m - n))%nat by lia. rewrite seq_app.
  rewrite firstn_app, seq_length, Nat.sub_diag, firstn_O, app_nil_r. rewrite firstn_all2; [reflexivity|rewrite seq_length; lia].
Qed.

Lemma dr_bounds : forall x, 0 <= x -> - 10 ^ 200 <= dr_value x <= 0.
Proof.
  intros x Hx. assert (E : 1 <= exp x).
  { destruct Hx as [Hx|<-]; [pose proof (exp_ineq1 x ltac:(lra)); lra|rewrite exp_0; lra]. }
  assert (D : exp x / (exp x + 1) * (exp x + 1) = exp x) by (field; lra).
  assert (B : 1 / 10 <= exp x / (exp x + 1) <= 1).
  { split; apply (Rmult_le_reg_r (exp x + 1)); try lra; rewrite D; lra. }
  destruct B as [B1 B]. split; [apply ln_above; exact B1|]. rewrite <- ln_1.
  destruct B as [B|B]; [left; apply ln_increasing; [lra|exact B]|right; unfold dr_value; rewrite B; reflexivity].
Qed.

Lemma dr_clip : forall x, 0 <= x -> clip (- max_float) max_float (dr_value x) = dr_value x.
Proof. intros x Hx. apply clip_id. pose proof (dr_bounds x Hx). unfold max_float. pose proof max_float_pos as M. unfold max_float in M. lra. Qed.

Lemma dr_row : forall rc qr x, 0 <= x ->
  row_loglikes rc qr dr_lk [true; true] [1; 1] [0; 0] [0; 0] [[x; 0]] 0 None = Ok (dr_value x, 0).
Proof.
  intros rc qr x Hx. unfold row_loglikes.
  change (map_choice_code 0 [true; true]) with (@Ok nat 0%nat). cbn [result_bind].
  set (draws := map (conditional_draw 2 0 (fun _ => 0) (of_rows (subset_cholesky (lk_chol dr_lk) [true; true]))) [[x; 0]]).
  change (create_draws_and_log_prob_wages _ _ _ _ _ _ _ _ _ _) with (@Ok (list (list R) * R) (draws, 0)).
  cbn [result_bind fst snd].
  assert (Ed : draws = [[x; 0]]).
  { unfold draws. cbn. repeat f_equal; lra. }
  rewrite Ed.
  destruct (simulate_spec [1; 1] [0; 0] [0; 0] [[x; 0]] (lk_beta_delta dr_lk) 0 (lk_tau dr_lk)) as [lp [E [V _]]].
  - repeat split. intros e [<-|[]]. reflexivity.
  - cbn. lia.
  - discriminate.
  - cbn. lra.
  - rewrite E. cbn [result_bind]. assert (L : lp = dr_value x).
    { rewrite <- (ln_exp lp), V. unfold dr_value. f_equal. unfold smoothed_probability, logit, choice_values, mean, rsum, dr_lk.
      cbn [map seq length nth fold_right lk_beta_delta lk_tau INR].
      replace ((1 * x + 0 + 1 * 0) / 1) with x by field. replace ((1 * 0 + 0 + 1 * 0) / 1) with 0 by field. rewrite exp_0.
      assert (P : 0 < exp x) by apply exp_pos. field. lra. }
    rewrite L, (dr_clip x Hx). rewrite (clip_id (- max_float) max_float 0); [reflexivity|]. pose proof max_float_pos. lra.
Qed.

Lemma dr_different : dr_value 0 <> dr_value 1.
Proof.
  intros H. unfold dr_value in H. pose proof (exp_pos 0) as P0. pose proof (exp_pos 1) as P1.
  apply ln_inv in H; [|apply Rdiv_lt_0_compat; lra|apply Rdiv_lt_0_compat; lra].
  apply (f_equal (fun z => z * ((exp 0 + 1) * (exp 1 + 1)))) in H.
  assert (A : exp 0 / (exp 0 + 1) * ((exp 0 + 1) * (exp 1 + 1)) = exp 0 * (exp 1 + 1)) by (field; lra).
  assert (B : exp 1 / (exp 1 + 1) * ((exp 0 + 1) * (exp 1 + 1)) = exp 1 * (exp 0 + 1)) by (field; lra).
  rewrite A, B, exp_0 in H. pose proof (exp_ineq1 1 ltac:(lra)). lra.
Qed.

(** All observations have the same dense key, or the second individual has a smaller one. *)
Definition dr_same (i : index) (o : obs) (t : nat) : result (nat * nat) := Ok (0%nat, 0%nat).
Definition dr_smaller (i : index) (o : obs) (t : nat) : result (nat * nat) := Ok ((1 - fst i)%nat, 0%nat).

Definition dr_estimate (locate : index -> obs -> nat -> result (nat * nat)) (data : frame obs) : result (R * list R) :=
  estimate dr_generate 0 (fun _ m => m) (fun _ m => m) dr_lk locate dr_env 1 [[]] (fun _ _ _ => 0) (fun l => l) data.

Lemma dr_contribution : forall draws j r x, lr_obs r = mkObs 0 None -> draws (lr_key r) j = [[x; 0]] -> 0 <= x ->
  contributions_of_row (fun _ m => m) (fun _ m => m) dr_lk (with_draws dr_env draws) j r = Ok (r, (dr_value x, 0)).
Proof.
  intros draws j r x Ho Hd Hx. unfold contributions_of_row, with_draws, dr_env.
  cbn [le_choice_set le_wages le_nonpec le_cont le_draws]. rewrite Ho, Hd. cbn [ob_code ob_wage]. rewrite (dr_row _ _ x Hx). reflexivity.
Qed.

Lemma dr_sum : forall x, 0 <= x -> clip (- max_float) max_float (dr_value x + 0 + 0) = dr_value x.
Proof. intros x Hx. replace (dr_value x + 0 + 0) with (dr_value x) by lra. apply dr_clip. exact Hx. Qed.

Lemma dr_one : forall locate, locate = dr_same \/ locate = dr_smaller -> forall id, (id <= 1)%nat ->
  exists v, dr_estimate locate [dr_first id] = Ok (v, [dr_value 0]).
Proof.
  intros locate Hl id Hid.
  assert (G : forall k p, locate (id, 0%nat) (mkObs 0 None) 0%nat = Ok (k, p) ->
    exists v, dr_estimate locate [dr_first id] = Ok (v, [dr_value 0])).
  { intros k p E. unfold dr_estimate, estimate, log_like, duplicate_for_types, dr_first.
    cbn [Nat.leb seq flat_map map app fst snd result_all]. rewrite E. cbn [result_bind fst snd].
    set (r := mkLrow (id, 0%nat) 0 (mkObs 0 None) k p).
    assert (N : number_rows [r] = [((k, 0%nat), r)]).
    { unfold number_rows, enumerate. cbn [map drop_duplicates isort insert flat_map filter app]. unfold r at 1 2. cbn [lr_key].
      cbn. rewrite Nat.eqb_refl. reflexivity. }
    unfold compute_contributions. rewrite N. cbn [map fst snd result_all].
    rewrite (dr_contribution _ 0 r 0).
    - cbn [result_bind]. unfold contributions. cbn [Nat.leb result_bind map fst drop_duplicates isort insert].
      eexists. unfold r. cbn. do 3 f_equal. unfold per_individual. cbn. rewrite Nat.eqb_refl. cbn. apply dr_sum. lra.
    - reflexivity.
    - unfold base_draws_est, observed_keys, r. cbn [map lr_key]. cbn. rewrite !Nat.eqb_refl. cbn. rewrite Rplus_0_l. reflexivity.
    - lra. }
  destruct Hl as [->| ->]; eapply G; reflexivity.
Qed.

Lemma dr_two_same : exists v, dr_estimate dr_same [dr_first 0; dr_first 1] = Ok (v, [dr_value 0; dr_value 1]).
Proof.
  unfold dr_estimate, estimate, log_like, duplicate_for_types, dr_first, dr_same.
  cbn [Nat.leb seq flat_map map app fst snd result_all result_bind].
  set (r := mkLrow (0%nat, 0%nat) 0 (mkObs 0 None) 0 0). set (r' := mkLrow (1%nat, 0%nat) 0 (mkObs 0 None) 0 0).
  unfold compute_contributions. change (number_rows [r; r']) with [((0%nat, 0%nat), r); ((0%nat, 1%nat), r')].
  cbn [map fst snd result_all].
  rewrite (dr_contribution _ 0 r 0), (dr_contribution _ 1 r' 1); try reflexivity; try lra.
  - cbn [result_bind]. unfold contributions. cbn [Nat.leb result_bind map fst].
    eexists. unfold r, r'. cbn. unfold per_individual. cbn. rewrite !dr_sum by lra. reflexivity.
  - cbn. rewrite Rplus_0_l. reflexivity.
  - cbn. rewrite Rplus_0_l. reflexivity.
Qed.

Lemma dr_two_smaller : exists v, dr_estimate dr_smaller [dr_first 0; dr_first 1] = Ok (v, [dr_value 1; dr_value 0]).
Proof.
  unfold dr_estimate, estimate, log_like, duplicate_for_types, dr_first, dr_smaller.
  cbn [Nat.leb seq flat_map map app fst snd result_all result_bind Nat.sub].
  set (r := mkLrow (0%nat, 0%nat) 0 (mkObs 0 None) 1 0). set (r' := mkLrow (1%nat, 0%nat) 0 (mkObs 0 None) 0 0).
  unfold compute_contributions. change (number_rows [r; r']) with [((0%nat, 0%nat), r'); ((1%nat, 0%nat), r)].
  cbn [map fst snd result_all].
  rewrite (dr_contribution _ 0 r' 0), (dr_contribution _ 0 r 1); try reflexivity; try lra.
  - cbn [result_bind]. unfold contributions. cbn [Nat.leb result_bind map fst].
    eexists. unfold r, r'. cbn. unfold per_individual. cbn. rewrite !dr_sum by lra. reflexivity.
  - cbn. rewrite Rplus_0_r. reflexivity.
  - cbn. rewrite Rplus_0_r. reflexivity.
Qed.

Lemma dr_not_suffix : ~ exists more, [dr_value 0; dr_value 1] = more ++ [dr_value 0].
Proof.
  intros [more H]. change [dr_value 0; dr_value 1] with ([dr_value 0] ++ [dr_value 1]) in H.
  apply app_inj_tail in H. destruct H as [_ H]. apply dr_different. symmetry. exact H.
Qed.

Lemma dr_not_prefix : ~ exists more, [dr_value 1; dr_value 0] = [dr_value 0] ++ more.
Proof. intros [more H]. injection H as H _. apply dr_different. symmetry. exact H. Qed.

(** The example of Examples_Likelihood.v: two types with own keys, an individual added. *)
Definition dr_extra : frame obs := [((2, 0), mkObs 0 None); ((2, 1), mkObs 0 (Some 2%R))]%nat.
Definition dr_generate2 (s : Z) (n c : nat) : list (list (list R)) := map (fun i => [[IZR s + INR i; 0]; [INR i; 1]]) (seq 0 n).

Lemma dr_extendable2 : extendable dr_generate2.
Proof.
  intros s n m c H. unfold dr_generate2. split; [|rewrite map_length, seq_length; reflexivity].
  rewrite firstn_map. f_equal. replace m with (n + (m - n))%nat by lia. rewrite seq_app.
  rewrite firstn_app, seq_length, Nat.sub_diag, firstn_O, app_nil_r. rewrite firstn_all2; [reflexivity|rewrite seq_length; lia].
Qed.

Lemma dr_generates : forall s n c, length (dr_generate2 s n c) = n /\ forall d, In d (dr_generate2 s n c) -> d <> [].
Proof.
  intros s n c. unfold dr_generate2. split; [rewrite map_length, seq_length; reflexivity|].
  intros d H. apply in_map_iff in H. destruct H as [i [<- _]]. discriminate.
Qed.

Lemma dr_evaluable : forall idx ob t, In (idx, ob) (ex_data ++ dr_extra) -> (t < 2)%nat ->
  exists k pos, ex_locate idx ob t = Ok (k, pos) /\ evaluable ex_lk (with_draws ex_env (fun _ _ => [[]])) k pos ob.
Proof.
  intros idx ob t H Ht. exists t, (snd idx). split; [reflexivity|].
  unfold evaluable, with_draws. cbn [ex_env le_choice_set le_wages le_nonpec le_cont le_draws].
  assert (A : available [true; true] (ob_code ob) /\ (ob_wage ob = None \/ (ob_code ob < lk_nwages ex_lk)%nat)).
  { cbn [app ex_data dr_extra] in H. destruct H as [H|[H|[H|[H|[H|[]]]]]]; injection H as _ <-; cbn; split; try reflexivity;
      first [left; reflexivity | right; lia]. }
  destruct A as [A1 A2]. split; [exact A1|]. split; [exact A2|].
  repeat split; try reflexivity. discriminate.
Qed.

Lemma dr_case : types_separated ex_locate 2 /\ NoDup (map fst (ex_data ++ dr_extra)) /\ later_individuals ex_data dr_extra /\
  later_keys ex_locate 2 ex_data dr_extra.
Proof.
  split; [|split; [|split]].
  - intros i o t j o' t' k p p' _ _ H1 H2. injection H1 as <- _. injection H2 as <- _. reflexivity.
  - cbn. repeat constructor; cbn; intuition congruence.
  - intros i o j o' H H'. cbn [In ex_data dr_extra] in *.
    destruct H as [H|[H|[H|[]]]]; injection H as <- _; destruct H' as [H'|[H'|[]]]; injection H' as <- _; cbn; lia.
  - intros k k' _ [i [o [t [p [I [Ht E]]]]]]. left. injection E as <- _.
    exists (0%nat, 0%nat), (mkObs 0 (Some 1%R)), t, 0%nat. split; [left; reflexivity|]. split; [exact Ht|reflexivity].
Qed.
