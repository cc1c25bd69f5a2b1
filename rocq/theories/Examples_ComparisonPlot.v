(** Concrete cases for the theorems of Props_ComparisonPlot.v. *)
From Coq Require Import List Arith ZArith Bool String Reals Lra Lia Sorting.Permutation Sorting.Sorted.
From Verif Require Import Base Proof_Base Model_CoreStateSpace Model_Parallel Model_Solve Spec_Solve
  Model_ConditionalDraws Model_Likelihood Spec_Likelihood Proof_Likelihood Proof_LikelihoodRows Proof_LikelihoodPanel
  Examples_Likelihood Model_LikelihoodDraws Examples_LikelihoodDraws Model_ComparisonPlot Spec_ComparisonPlot Proof_ComparisonPlot.
Import ListNotations.
Open Scope list_scope.
Open Scope nat_scope.

Definition cp_choices : list string := ["edu"%string; "home"%string].

(** Model of Examples_LikelihoodDraws.v, the draw of the first choice is the position. *)
Definition cp_env : like_env := with_draws dr_env (fun _ j => [[INR j; 0%R]]).
Definition cp_data (n_types : nat) (params : list (list (nat * R))) (locate : index -> obs -> nat -> result (nat * nat)) (env : like_env)
  (data : frame obs) :=
  log_like_data (fun _ m => m) (fun _ m => m) dr_lk locate env n_types params (fun _ _ _ => 1%R) (fun l => l) (fun l => l)
    cp_choices [] data.

#[local] Opaque as_uint.

Definition cp_row (id : nat) (k : kind) (v : R) : plot_row := mkPlotRow (as_uint 16 id) (as_uint 8 0) (inl "edu"%string) v k.

Lemma cp_two : forall id, 0 < id -> exists v,
  cp_data 1 [[]] dr_same cp_env [dr_first 0; dr_first id] =
  Ok ((v, [dr_value 0; dr_value 1]),
      ([cp_row 0 choice_kind (dr_value 0); cp_row id choice_kind (dr_value 1); cp_row 0 wage_kind 0; cp_row id wage_kind 0], [])).
Proof.
  intros id Hid. unfold cp_data, log_like_data, duplicate_for_types, dr_first, dr_same, cp_env.
  cbn [Nat.leb seq flat_map map app fst snd result_all result_bind].
  set (r := mkLrow (0, 0) 0 (mkObs 0 None) 0 0). set (r' := mkLrow (id, 0) 0 (mkObs 0 None) 0 0).
  unfold compute_contributions. change (number_rows [r; r']) with [((0, 0), r); ((0, 1), r')].
  cbn [map fst snd result_all].
  rewrite (dr_contribution _ 0 r 0), (dr_contribution _ 1 r' 1); try reflexivity; try lra.
  cbn [result_bind]. unfold contributions. cbn [Nat.leb result_bind map fst].
  assert (I : isort Nat.leb (drop_duplicates Nat.eq_dec [fst (lr_index r); fst (lr_index r')]) = [0; id]).
  { unfold r, r'. cbn [lr_index fst]. destruct id; [lia|]. reflexivity. }
  rewrite I.
  assert (P1 : per_individual [(r, (dr_value 0, 0%R)); (r', (dr_value 1, 0%R))] 0 = (dr_value 0 + 0 + 0)%R).
  { unfold per_individual, r, r'. cbn [filter lr_index fst snd Nat.eqb]. destruct id; [lia|]. reflexivity. }
  assert (P2 : per_individual [(r, (dr_value 0, 0%R)); (r', (dr_value 1, 0%R))] id = (dr_value 1 + 0 + 0)%R).
  { unfold per_individual, r, r'. cbn [filter lr_index fst snd]. rewrite Nat.eqb_refl. destruct id; [lia|]. reflexivity. }
  cbn [map]. rewrite P1, P2, !dr_sum by lra. eexists. reflexivity.
Qed.

Lemma cp_large : exists id, 0 < id /\ as_uint 16 id = 0.
Proof.
  exists (2 ^ 16). assert (Z : 2 ^ 16 <> 0) by (apply Nat.pow_nonzero; lia). split; [apply Nat.neq_0_lt_0; exact Z|].
  Transparent as_uint. unfold as_uint. Opaque as_uint. apply Nat.mod_same. exact Z.
Qed.

Lemma cp_total : forall id, as_uint 16 id = 0 -> total_of 0 [cp_row 0 choice_kind (dr_value 0); cp_row id choice_kind (dr_value 1);
    cp_row 0 wage_kind 0; cp_row id wage_kind 0] = (dr_value 0 + dr_value 1)%R.
Proof.
  intros id W. unfold total_of, cp_row. cbn [filter pr_identifier].
  assert (Z : as_uint 16 0 = 0) by (apply as_uint_small; apply Nat.neq_0_lt_0, Nat.pow_nonzero; lia).
  rewrite Z, W. cbn [Nat.eqb map pr_value]. unfold rsum. cbn [fold_right]. lra.
Qed.

Lemma dr_negative : (dr_value 1 < 0)%R.
Proof.
  unfold dr_value. pose proof (exp_pos 1) as P. rewrite <- ln_1. apply ln_increasing; [apply Rdiv_lt_0_compat; lra|].
  apply (Rmult_lt_reg_r (exp 1 + 1)); [lra|]. replace (exp 1 / (exp 1 + 1) * (exp 1 + 1))%R with (exp 1) by (field; lra). lra.
Qed.

Lemma cp_wrong : forall n, as_uint 16 n = 0 -> [dr_value 0; dr_value 1] <> map (fun id => clip (- 10 ^ 200) (10 ^ 200)
  (total_of id [cp_row 0 choice_kind (dr_value 0); cp_row n choice_kind (dr_value 1);
    cp_row 0 wage_kind 0; cp_row n wage_kind 0])) [0; n].
Proof.
  intros n W H. cbn [map] in H. injection H as H _. rewrite (cp_total n W) in H.
  rewrite small_within in H.
  - pose proof dr_negative. lra.
  - assert (B : forall x, (0 <= x)%R -> (-5 <= dr_value x <= 0)%R); [|pose proof (B 0%R ltac:(lra)); pose proof (B 1%R ltac:(lra)); lra].
    intros x Hx. split; [|apply (dr_bounds x Hx)]. unfold dr_value.
    assert (E : (1 <= exp x)%R).
    { destruct Hx as [Hx|<-]; [pose proof (exp_ineq1 x ltac:(lra)); lra|rewrite exp_0; lra]. }
    replace (-5)%R with (Ropp 5) by lra. rewrite <- (ln_exp (Ropp 5)). left. apply ln_increasing; [apply exp_pos|].
    apply (Rmult_lt_reg_r (exp x + 1)); [lra|]. replace (exp x / (exp x + 1) * (exp x + 1))%R with (exp x) by (field; lra).
    rewrite exp_Ropp. pose proof (exp_ineq1 5 ltac:(lra)) as E5.
    assert (I5 : (/ exp 5 < / 2)%R) by (apply Rinv_lt_contravar; [apply Rmult_lt_0_compat; lra|lra]).
    assert (P5 : (0 < / exp 5)%R) by (apply Rinv_0_lt_compat; lra). nra.
Qed.

(** Two types with dense keys of their own; the draw of the first choice is one for the second
    type or for the first type. *)
Definition cp_locate (i : index) (o : obs) (t : nat) : result (nat * nat) := Ok (t, 0).
Definition cp_env1 : like_env := with_draws dr_env (fun k _ => [[INR k; 0%R]]).
Definition cp_env2 : like_env := with_draws dr_env (fun k _ => [[(1 - INR k)%R; 0%R]]).

Definition cp_mixture (a b : R) : R := (1 / (1 + exp 1) * (exp a / (exp a + 1)) + exp 1 / (1 + exp 1) * (exp b / (exp b + 1)))%R.

Lemma cp_types : forall draws a b, draws 0 0 = [[a; 0%R]] -> draws 1 0 = [[b; 0%R]] -> (0 <= a)%R -> (0 <= b)%R -> exists v lps,
  cp_data 2 ex_params cp_locate (with_draws dr_env draws) [dr_first 0] =
  Ok ((v, [clip (- 10 ^ 200) (10 ^ 200) (ln (cp_mixture a b)); clip (- 10 ^ 200) (10 ^ 200) (ln (cp_mixture a b))]),
      ([cp_row 0 choice_kind (dr_value a); cp_row 0 choice_kind (dr_value b); cp_row 0 wage_kind 0; cp_row 0 wage_kind 0],
       type_plot_rows 2 [(0, lps); (0, lps)])) /\
  lps = map ln (logits (type_indices ex_params (fun _ _ => 1%R))).
Proof.
  intros draws a b Da Db Ha Hb. unfold cp_data, log_like_data, duplicate_for_types, dr_first, cp_locate.
  cbn [Nat.leb seq flat_map map app fst snd result_all result_bind].
  set (r := mkLrow (0, 0) 0 (mkObs 0 None) 0 0). set (r' := mkLrow (0, 0) 1 (mkObs 0 None) 1 0).
  unfold compute_contributions. change (number_rows [r; r']) with [((0, 0), r); ((1, 0), r')].
  cbn [map fst snd result_all].
  rewrite (dr_contribution _ 0 r a), (dr_contribution _ 0 r' b); try reflexivity; try assumption.
  cbn [result_bind]. unfold contributions, type_rows. cbn [Nat.leb seq flat_map filter fst snd Nat.eqb map app].
  assert (PR : forall p, In p (logits (type_indices ex_params (fun _ _ => 1%R))) -> (- 10 ^ 200 <= ln p)%R).
  { intros p Hp. apply (ex_probabilities 1); [right; left; reflexivity|]. exact Hp. }
  assert (TC : type_contribution ex_params (fun _ _ _ => 1%R) [(r, (dr_value a, 0%R)); (r', (dr_value b, 0%R))] 0 =
    Ok (clip (- 10 ^ 200) (10 ^ 200) (ln (cp_mixture a b)))).
  { rewrite type_contribution_spec.
    - do 3 f_equal. unfold mixture, logits, type_indices, ex_params, likelihood_of, logit, linear_index, cp_mixture, r, r', rsum, rprod, dr_value.
      assert (Pa : (0 < exp a)%R) by apply exp_pos. assert (Pb : (0 < exp b)%R) by apply exp_pos.
      cbn. rewrite !Rplus_0_r. rewrite !exp_ln by (apply Rdiv_lt_0_compat; lra).
      rewrite exp_0. replace (1 * 1)%R with 1%R by lra. pose proof (exp_pos 1). field. lra.
    - unfold unique_rows, r, r'. cbn. repeat constructor; cbn; intuition congruence.
    - discriminate.
    - exact PR. }
  cbn [map result_all]. rewrite TC. cbn [result_bind]. unfold type_table. cbn [map result_all].
  rewrite type_x_betas_linear, log_type_spec; [|discriminate|exact PR]. cbn [result_bind].
  eexists. eexists. split; reflexivity.
Qed.

Lemma cp_mixture_bounds : forall a b, (0 <= a)%R -> (0 <= b)%R -> (1 / 10 <= cp_mixture a b <= 1)%R.
Proof.
  intros a b Ha Hb.
  assert (H : forall x, (0 <= x)%R -> (1 / 2 <= exp x / (exp x + 1) <= 1)%R).
  { intros x Hx. assert (E : (1 <= exp x)%R).
    { destruct Hx as [Hx|<-]; [pose proof (exp_ineq1 x ltac:(lra)); lra|rewrite exp_0; lra]. }
    assert (D : (exp x / (exp x + 1) * (exp x + 1) = exp x)%R) by (field; lra).
    split; apply (Rmult_le_reg_r (exp x + 1)); try lra; rewrite D; lra. }
  pose proof (H a Ha) as [A1 A2]. pose proof (H b Hb) as [B1 B2]. unfold cp_mixture.
  pose proof (exp_pos 1) as P.
  set (p := (1 / (1 + exp 1))%R). set (q := (exp 1 / (1 + exp 1))%R).
  assert (S : (p + q = 1)%R) by (unfold p, q; field; lra).
  assert (Pp : (0 < p)%R) by (unfold p; apply Rdiv_lt_0_compat; lra). assert (Pq : (0 < q)%R) by (unfold q; apply Rdiv_lt_0_compat; lra).
  split; nra.
Qed.

Lemma cp_different : clip (- 10 ^ 200) (10 ^ 200) (ln (cp_mixture 0 1)) <> clip (- 10 ^ 200) (10 ^ 200) (ln (cp_mixture 1 0)).
Proof.
  assert (C : forall a b, (0 <= a)%R -> (0 <= b)%R -> clip (- 10 ^ 200) (10 ^ 200) (ln (cp_mixture a b)) = ln (cp_mixture a b)).
  { intros a b Ha Hb. destruct (cp_mixture_bounds a b Ha Hb) as [L U]. apply clip_id. split; [apply ln_above; exact L|].
    apply Rle_trans with 0%R; [|left; apply max_float_pos]. rewrite <- ln_1.
    destruct U as [U|U]; [left; apply ln_increasing; [lra|exact U]|right; rewrite U; reflexivity]. }
  rewrite !C by lra. intros H.
  pose proof (cp_mixture_bounds 0 1 ltac:(lra) ltac:(lra)) as [L1 _]. pose proof (cp_mixture_bounds 1 0 ltac:(lra) ltac:(lra)) as [L2 _].
  apply ln_inv in H; [|lra|lra]. unfold cp_mixture in H. rewrite exp_0 in H.
  pose proof (exp_ineq1 1 ltac:(lra)) as E.
  apply (f_equal (fun z => (z * (2 * (1 + exp 1) * (1 + exp 1)))%R)) in H.
  match type of H with ?l = ?r => assert (X : l = ((1 + exp 1) + 2 * exp 1 * exp 1)%R) by (field; lra);
    assert (Y : r = (2 * exp 1 + exp 1 * (1 + exp 1))%R) by (field; lra) end.
  rewrite X, Y in H. nra.
Qed.
