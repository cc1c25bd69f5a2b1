(** Proofs about the smoothing parameter. *)
From Coq Require Import List Arith Bool Reals Lra Lia.
From Verif Require Import Base Proof_Base Model_Solve Spec_Solve Model_Likelihood Spec_Likelihood
  Proof_Likelihood Spec_Smoothing.
Import ListNotations.
Open Scope R_scope.

Definition shifted (tau M x : R) : R := exp ((x - M) / tau).

Lemma logit_shift : forall v tau M c, tau <> 0 -> (c < length v)%nat ->
  logit (map (fun x => x / tau) v) c = shifted tau M (nth c v 0) / rsum (map (shifted tau M) v).
Proof.
  intros v tau M c T Hc. unfold logit.
  assert (E : forall x, exp (x / tau) = exp (M / tau) * shifted tau M x).
  { intros x. unfold shifted. rewrite <- exp_plus. f_equal. field. exact T. }
  rewrite (nth_indep _ 0 (0 / tau)) by (rewrite map_length; exact Hc).
  rewrite (map_nth (fun x => x / tau)), map_map.
  rewrite (rsum_map_ext _ _ (fun x => exp (M / tau) * shifted tau M x)) by (intros; apply E).
  rewrite rsum_map_scal, E.
  assert (P : 0 < rsum (map (shifted tau M) v)).
  { assert (X : map (shifted tau M) v = map exp (map (fun x => (x - M) / tau) v))
      by (rewrite map_map; reflexivity).
    rewrite X. apply rsum_exp_pos. destruct v; [simpl in Hc; lia|discriminate]. }
  pose proof (exp_pos (M / tau)). field. split; lra.
Qed.

Lemma exp_small : forall x, 0 < x -> exp (- x) <= / x.
Proof.
  intros x H. rewrite exp_Ropp. apply Rinv_le_contravar; [exact H|].
  pose proof (exp_ineq1 x). lra.
Qed.

Lemma shifted_max : forall tau M, tau <> 0 -> shifted tau M M = 1.
Proof. intros tau M T. unfold shifted. replace ((M - M) / tau) with 0 by (field; exact T). apply exp_0. Qed.

Lemma shifted_pos : forall tau M x, 0 < shifted tau M x.
Proof. intros. apply exp_pos. Qed.

Lemma shifted_small : forall tau M x, 0 < tau -> x < M -> shifted tau M x <= tau * / (M - x).
Proof.
  intros tau M x T H. unfold shifted.
  replace ((x - M) / tau) with (- ((M - x) / tau)) by (field; lra).
  assert (P : 0 < (M - x) / tau) by (apply Rdiv_lt_0_compat; lra).
  apply Rle_trans with (/ ((M - x) / tau)); [apply exp_small; exact P|].
  right. field. lra.
Qed.

Definition gap (M x : R) : R := if Req_EM_T x M then 0 else / (M - x).
Definition gap_sum (M : R) (v : list R) : R := rsum (map (gap M) v).
Definition count_best (M : R) (v : list R) : nat :=
  length (filter (fun x => if Req_EM_T x M then true else false) v).

Lemma gap_nonneg : forall M x, x <= M -> 0 <= gap M x.
Proof.
  intros M x H. unfold gap. destruct (Req_EM_T x M); [lra|]. left. apply Rinv_0_lt_compat. lra.
Qed.

Lemma sum_bounds : forall tau M v, 0 < tau -> (forall x, In x v -> x <= M) ->
  0 <= gap_sum M v /\
  INR (count_best M v) <= rsum (map (shifted tau M) v) <= INR (count_best M v) + tau * gap_sum M v.
Proof.
  intros tau M v T. induction v as [|x v IH]; intros H.
  - unfold gap_sum, count_best, rsum. simpl. lra.
  - destruct IH as [G [B1 B2]]; [intros; apply H; right; assumption|].
    unfold gap_sum, count_best in *. cbn [map filter].
    change (rsum (gap M x :: map (gap M) v)) with (gap M x + rsum (map (gap M) v)).
    change (rsum (shifted tau M x :: map (shifted tau M) v))
      with (shifted tau M x + rsum (map (shifted tau M) v)).
    pose proof (gap_nonneg M x (H x (or_introl eq_refl))) as Gx.
    unfold gap in *. destruct (Req_EM_T x M) as [->|N].
    + cbn [length]. rewrite S_INR, shifted_max by lra. lra.
    + pose proof (H x (or_introl eq_refl)). pose proof (shifted_pos tau M x).
      pose proof (shifted_small tau M x T ltac:(lra)). split; [lra|]. split; [lra|].
      rewrite Rmult_plus_distr_l. lra.
Qed.

Lemma gap_in : forall M v x, (forall y, In y v -> y <= M) -> In x v -> gap M x <= gap_sum M v.
Proof.
  intros M v x. unfold gap_sum. induction v as [|y v IH]; intros H I; [destruct I|].
  cbn [map]. change (rsum (gap M y :: map (gap M) v)) with (gap M y + rsum (map (gap M) v)).
  pose proof (gap_nonneg M y (H y (or_introl eq_refl))).
  assert (P : 0 <= rsum (map (gap M) v)).
  { destruct (sum_bounds 1 M v ltac:(lra)) as [P _]; [intros; apply H; right; assumption|exact P]. }
  destruct I as [->|I]; [lra|]. specialize (IH (fun z Hz => H z (or_intror Hz)) I). lra.
Qed.

Lemma maximum_upper : forall v x, In x v -> x <= maximum v.
Proof. intros [|y v] x I; [destruct I|]. apply (proj1 (maximum_spec y v)). exact I. Qed.

Lemma count_best_pos : forall v, v <> [] -> (1 <= count_best (maximum v) v)%nat.
Proof.
  intros [|y v] N; [contradiction|]. pose proof (proj2 (maximum_spec y v)) as I.
  unfold count_best.
  assert (J : In (maximum (y :: v))
     (filter (fun x => if Req_EM_T x (maximum (y :: v)) then true else false) (y :: v))).
  { apply filter_In. split; [exact I|]. destruct (Req_EM_T _ _); [reflexivity|contradiction]. }
  destruct (filter _ _); [destruct J|]. simpl. lia.
Qed.

(** One draw. *)
Lemma logit_limit : forall v c tau, 0 < tau -> (c < length v)%nat ->
  Rabs (logit (map (fun x => x / tau) v) c - best_share v c) <= gap_sum (maximum v) v * tau.
Proof.
  intros v c tau T Hc. rewrite (logit_shift v tau (maximum v)) by (lra || exact Hc).
  assert (Nv : v <> []) by (destruct v; [simpl in Hc; lia|discriminate]).
  set (M := maximum v). assert (U : forall x, In x v -> x <= M) by apply maximum_upper.
  destruct (sum_bounds tau M v T U) as [G [B1 B2]].
  pose proof (count_best_pos v Nv) as CB. apply le_INR in CB. fold M in CB. simpl in CB.
  set (S := rsum (map (shifted tau M) v)) in *. set (m := INR (count_best M v)) in *.
  unfold best_share. fold M. change (INR (n_best v)) with m.
  assert (I : In (nth c v 0) v) by (apply nth_In; exact Hc).
  destruct (Req_EM_T (nth c v 0) M) as [E|N].
  - rewrite E, shifted_max by lra.
    assert (Q : 1 / S - / m = - ((S - m) * / (m * S))) by (field; lra).
    assert (QP : 0 <= (S - m) * / (m * S)).
    { apply Rmult_le_pos; [lra|]. left. apply Rinv_0_lt_compat. apply Rmult_lt_0_compat; lra. }
    rewrite Q, Rabs_Ropp, Rabs_right by lra.
    apply Rle_trans with ((S - m) * 1).
    + apply Rmult_le_compat_l; [lra|]. rewrite <- Rinv_1. apply Rinv_le_contravar; [lra|].
      rewrite <- (Rmult_1_l 1). apply Rmult_le_compat; lra.
    + lra.
  - pose proof (U _ I). pose proof (shifted_pos tau M (nth c v 0)) as P.
    rewrite Rminus_0_r, Rabs_right.
    + apply Rle_trans with (shifted tau M (nth c v 0)).
      * unfold Rdiv. rewrite <- (Rmult_1_r (shifted tau M (nth c v 0))) at 2.
        apply Rmult_le_compat_l; [lra|]. rewrite <- Rinv_1. apply Rinv_le_contravar; lra.
      * apply Rle_trans with (tau * / (M - nth c v 0)); [apply shifted_small; lra|].
        rewrite Rmult_comm. apply Rmult_le_compat_r; [lra|].
        pose proof (gap_in M v (nth c v 0) U I) as GI. unfold gap in GI.
        destruct (Req_EM_T (nth c v 0) M); [contradiction|exact GI].
    + apply Rle_ge. left. apply Rdiv_lt_0_compat; lra.
Qed.

(** Averages. *)
Lemma mean_close : forall A (f g : A -> R) (k : A -> R) l, l <> [] ->
  (forall a, In a l -> Rabs (f a - g a) <= k a) ->
  Rabs (mean (map f l) - mean (map g l)) <= mean (map k l).
Proof.
  intros A f g k l N H. unfold mean. rewrite !map_length.
  assert (P : 0 < INR (length l)) by (apply lt_0_INR; destruct l; [contradiction|simpl; lia]).
  assert (X : Rabs (rsum (map f l) - rsum (map g l)) <= rsum (map k l)).
  { clear P N. induction l as [|a l IH]; [unfold rsum; simpl; rewrite Rminus_0_r, Rabs_R0; lra|].
    cbn [map]. change (rsum (f a :: map f l)) with (f a + rsum (map f l)).
    change (rsum (g a :: map g l)) with (g a + rsum (map g l)).
    change (rsum (k a :: map k l)) with (k a + rsum (map k l)).
    replace (f a + rsum (map f l) - (g a + rsum (map g l)))
      with ((f a - g a) + (rsum (map f l) - rsum (map g l))) by lra.
    eapply Rle_trans; [apply Rabs_triang|].
    pose proof (H a (or_introl eq_refl)). specialize (IH (fun b Hb => H b (or_intror Hb))). lra. }
  unfold Rdiv. rewrite <- Rmult_minus_distr_r, Rabs_mult.
  rewrite (Rabs_right (/ INR (length l))) by (apply Rle_ge; left; apply Rinv_0_lt_compat; exact P).
  apply Rmult_le_compat_r; [left; apply Rinv_0_lt_compat; exact P|exact X].
Qed.

Lemma mean_scal : forall A (f : A -> R) t l, mean (map (fun a => f a * t) l) = mean (map f l) * t.
Proof.
  intros A f t l. unfold mean. rewrite !map_length.
  rewrite (rsum_map_ext _ _ (fun a => t * f a)) by (intros; apply Rmult_comm).
  rewrite rsum_map_scal. unfold Rdiv. ring.
Qed.

Lemma mean_nonneg : forall l, (forall x, In x l -> 0 <= x) -> 0 <= mean l.
Proof.
  intros [|x l] H; [unfold mean, rsum; simpl; lra|].
  unfold mean. apply Rmult_le_pos.
  - induction (x :: l) as [|y r IH]; [unfold rsum; simpl; lra|].
    change (rsum (y :: r)) with (y + rsum r). pose proof (H y (or_introl eq_refl)).
    specialize (IH (fun z Hz => H z (or_intror Hz))). lra.
  - left. apply Rinv_0_lt_compat, lt_0_INR. simpl. lia.
Qed.

Lemma smoothing_vanishes : forall wages nonpecs conts draws delta c,
  same_lengths wages nonpecs conts draws -> (c < length wages)%nat -> draws <> [] ->
  exists K, 0 <= K /\ forall tau, 0 < tau ->
    exists lp, simulate_log_probability wages nonpecs conts draws delta c tau = Ok lp /\
      Rabs (exp lp - frequency wages nonpecs conts delta draws c) <= K * tau.
Proof.
  intros wages nonpecs conts draws delta c SL Hc Hd.
  set (v := fun e => choice_values wages nonpecs conts delta e).
  assert (Lv : forall e, length (v e) = length wages) by (intros; apply choice_values_length).
  exists (mean (map (fun e => gap_sum (maximum (v e)) (v e)) draws)). split.
  - apply mean_nonneg. intros x Hx. apply in_map_iff in Hx. destruct Hx as [e [<- _]].
    apply (sum_bounds 1); [lra|]. apply maximum_upper.
  - intros tau T.
    destruct (simulate_spec wages nonpecs conts draws delta c tau SL Hc Hd ltac:(lra))
      as [lp [E [P _]]].
    exists lp. split; [exact E|]. rewrite P. unfold smoothed_probability, frequency.
    rewrite <- mean_scal. apply mean_close; [exact Hd|]. intros e He. fold (v e).
    apply logit_limit; [exact T|]. rewrite Lv. exact Hc.
Qed.

Lemma smoothing_limit : forall wages nonpecs conts draws delta c eps,
  same_lengths wages nonpecs conts draws -> (c < length wages)%nat -> draws <> [] -> 0 < eps ->
  exists t0, 0 < t0 /\ forall tau, 0 < tau < t0 ->
    exists lp, simulate_log_probability wages nonpecs conts draws delta c tau = Ok lp /\
      Rabs (exp lp - frequency wages nonpecs conts delta draws c) < eps.
Proof.
  intros wages nonpecs conts draws delta c eps SL Hc Hd He.
  destruct (smoothing_vanishes wages nonpecs conts draws delta c SL Hc Hd) as [K [K0 H]].
  exists (eps / (K + 1)). split; [apply Rdiv_lt_0_compat; lra|].
  intros tau [T1 T2]. destruct (H tau T1) as [lp [E B]]. exists lp. split; [exact E|].
  eapply Rle_lt_trans; [exact B|].
  apply Rle_lt_trans with (tau * (K + 1)); [nra|].
  apply Rmult_lt_compat_r with (r := K + 1) in T2; [|lra].
  replace (eps / (K + 1) * (K + 1)) with eps in T2 by (field; lra). exact T2.
Qed.

(** ** Much smoothing *)
Lemma exp_lower : forall x, 1 + x <= exp x.
Proof.
  intros x. destruct (Req_dec x 0) as [->|N]; [rewrite exp_0; lra|]. left. apply exp_ineq1. exact N.
Qed.

Lemma sum_between : forall (f : R -> R) lo v, (forall x, In x v -> lo <= f x <= 1) ->
  INR (length v) * lo <= rsum (map f v) <= INR (length v).
Proof.
  intros f lo. induction v as [|x v IH]; intros H; [unfold rsum; simpl; lra|].
  cbn [map length]. rewrite S_INR. change (rsum (f x :: map f v)) with (f x + rsum (map f v)).
  pose proof (H x (or_introl eq_refl)). specialize (IH (fun y Hy => H y (or_intror Hy))). lra.
Qed.

Definition spread (v : list R) : R := maximum v + maximum (map Ropp v).

Lemma spread_bound : forall v x, In x v -> 0 <= maximum v - x <= spread v.
Proof.
  intros v x I. pose proof (maximum_upper v x I).
  assert (- x <= maximum (map Ropp v)) by (apply maximum_upper, in_map, I).
  unfold spread. lra.
Qed.

Lemma logit_uniform : forall v c tau, 0 < tau -> (c < length v)%nat ->
  Rabs (logit (map (fun x => x / tau) v) c - / INR (length v)) <= 2 * spread v / tau.
Proof.
  intros v c tau T Hc.
  assert (Nv : v <> []) by (destruct v; [simpl in Hc; lia|discriminate]).
  assert (I : In (nth c v 0) v) by (apply nth_In; exact Hc).
  pose proof (spread_bound v _ I) as [_ D0]. pose proof (spread_bound v _ I) as [D1 _].
  assert (N1 : 1 <= INR (length v)).
  { change 1 with (INR 1). apply le_INR. lia. }
  assert (L01 : 0 < logit (map (fun x => x / tau) v) c <= 1).
  { split; [apply logit_pos; destruct v; [contradiction|discriminate]|].
    apply logit_le1. rewrite map_length. exact Hc. }
  assert (IN : 0 < / INR (length v) <= 1).
  { split; [apply Rinv_0_lt_compat; lra|]. rewrite <- Rinv_1. apply Rinv_le_contravar; lra. }
  set (d := spread v / tau).
  assert (Dn : 0 <= d) by (apply Rmult_le_pos; [lra|left; apply Rinv_0_lt_compat, T]).
  replace (2 * spread v / tau) with (2 * d) by (unfold d; field; lra).
  destruct (Rle_lt_dec 1 (2 * d)) as [Big|Small]; [apply Rabs_le; lra|].
  rewrite (logit_shift v tau (maximum v)) by (lra || exact Hc).
  set (M := maximum v) in *.
  assert (B : forall x, In x v -> 1 - d <= shifted tau M x <= 1).
  { intros x Ix. destruct (spread_bound v x Ix) as [X0 X1]. fold M in X0, X1. unfold shifted.
    assert (Y : (x - M) / tau = - ((M - x) / tau)) by (field; lra).
    assert (Z : (M - x) / tau <= d).
    { unfold d, Rdiv. apply Rmult_le_compat_r; [left; apply Rinv_0_lt_compat, T|exact X1]. }
    assert (Z0 : 0 <= (M - x) / tau) by (apply Rmult_le_pos; [exact X0|left; apply Rinv_0_lt_compat, T]).
    rewrite Y. pose proof (exp_lower (- ((M - x) / tau))). split; [lra|].
    rewrite <- exp_0. destruct (Req_dec ((M - x) / tau) 0) as [->|N]; [rewrite Ropp_0; lra|].
    left. apply exp_increasing. lra. }
  pose proof (B _ I) as BI. set (a := shifted tau M (nth c v 0)) in *.
  destruct (sum_between (shifted tau M) (1 - d) v B) as [S0 S1].
  set (n := INR (length v)) in *. set (S := rsum (map (shifted tau M) v)) in *.
  assert (SP : 0 < S) by nra.
  replace (a / S - / n) with ((n * a - S) / (n * S)) by (field; lra).
  assert (NS : 0 < n * S) by (apply Rmult_lt_0_compat; lra).
  unfold Rdiv. rewrite Rabs_mult, (Rabs_right (/ (n * S))) by (apply Rle_ge; left; apply Rinv_0_lt_compat, NS).
  apply (Rmult_le_reg_r (n * S)); [exact NS|]. rewrite Rmult_assoc, Rinv_l, Rmult_1_r by lra.
  assert (n * (1 - d) <= n * a <= n) by nra.
  apply Rle_trans with (n * d); [apply Rabs_le; nra|].
  assert (1 <= 2 * S) by nra. assert (0 <= n * d) by nra.
  apply Rle_trans with (n * d * (2 * S)); [nra|]. right. ring.
Qed.

Lemma smoothing_uniform : forall wages nonpecs conts draws delta c,
  same_lengths wages nonpecs conts draws -> (c < length wages)%nat -> draws <> [] ->
  exists K, 0 <= K /\ forall tau, 0 < tau ->
    exists lp, simulate_log_probability wages nonpecs conts draws delta c tau = Ok lp /\
      Rabs (exp lp - / INR (length wages)) <= K / tau.
Proof.
  intros wages nonpecs conts draws delta c SL Hc Hd.
  set (v := fun e => choice_values wages nonpecs conts delta e).
  assert (Lv : forall e, length (v e) = length wages) by (intros; apply choice_values_length).
  exists (mean (map (fun e => 2 * spread (v e)) draws)). split.
  - apply mean_nonneg. intros x Hx. apply in_map_iff in Hx. destruct Hx as [e [<- _]].
    assert (I : In (nth c (v e) 0) (v e)) by (apply nth_In; rewrite Lv; exact Hc).
    pose proof (spread_bound (v e) _ I). lra.
  - intros tau T.
    destruct (simulate_spec wages nonpecs conts draws delta c tau SL Hc Hd ltac:(lra))
      as [lp [E [P _]]].
    exists lp. split; [exact E|]. rewrite P. unfold smoothed_probability, Rdiv at 2.
    rewrite <- mean_scal.
    assert (Q : / INR (length wages) = mean (map (fun _ => / INR (length wages)) draws)).
    { unfold mean. rewrite map_length.
      assert (Nn : 0 < INR (length draws)) by (apply lt_0_INR; destruct draws; [contradiction|simpl; lia]).
      assert (X : rsum (map (fun _ : list R => / INR (length wages)) draws)
                  = INR (length draws) * / INR (length wages)).
      { clear. induction draws as [|a l IH]; [unfold rsum; simpl; lra|].
        cbn [map length]. rewrite S_INR.
        change (rsum (/ INR (length wages) :: map (fun _ : list R => / INR (length wages)) l))
          with (/ INR (length wages) + rsum (map (fun _ : list R => / INR (length wages)) l)).
        rewrite IH. ring. }
      rewrite X. assert (0 < INR (length wages)) by (apply lt_0_INR; lia). field. lra. }
    rewrite Q. apply mean_close; [exact Hd|]. intros e He. fold (v e).
    rewrite <- (Lv e). apply logit_uniform; [exact T|]. rewrite Lv. exact Hc.
Qed.

(** ** Order *)
Lemma logit_order : forall v tau c d, 0 < tau -> (c < length v)%nat -> (d < length v)%nat ->
  nth d v 0 <= nth c v 0 -> logit (map (fun x => x / tau) v) d <= logit (map (fun x => x / tau) v) c.
Proof.
  intros v tau c d T Hc Hd H. unfold logit.
  assert (P : 0 < rsum (map exp (map (fun x => x / tau) v))).
  { apply rsum_exp_pos. destruct v; [simpl in Hc; lia|discriminate]. }
  apply Rmult_le_compat_r; [left; apply Rinv_0_lt_compat, P|].
  rewrite !(nth_indep _ 0 (0 / tau)) by (rewrite map_length; assumption).
  rewrite !(map_nth (fun x => x / tau)).
  assert (Q : nth d v 0 / tau <= nth c v 0 / tau)
    by (apply Rmult_le_compat_r; [left; apply Rinv_0_lt_compat, T|exact H]).
  destruct Q as [Q|Q]; [left; apply exp_increasing, Q|rewrite Q; lra].
Qed.

Lemma smoothing_order : forall wages nonpecs conts draws delta c d tau lc ld,
  same_lengths wages nonpecs conts draws -> (c < length wages)%nat -> (d < length wages)%nat ->
  draws <> [] -> 0 < tau ->
  (forall e, In e draws -> nth d (choice_values wages nonpecs conts delta e) 0
                        <= nth c (choice_values wages nonpecs conts delta e) 0) ->
  simulate_log_probability wages nonpecs conts draws delta c tau = Ok lc ->
  simulate_log_probability wages nonpecs conts draws delta d tau = Ok ld -> ld <= lc.
Proof.
  intros wages nonpecs conts draws delta c d tau lc ld SL Hc Hd N T H Ec Ed.
  destruct (simulate_spec wages nonpecs conts draws delta c tau SL Hc N ltac:(lra)) as [x [E1 [P1 _]]].
  destruct (simulate_spec wages nonpecs conts draws delta d tau SL Hd N ltac:(lra)) as [y [E2 [P2 _]]].
  rewrite Ec in E1. injection E1 as <-. rewrite Ed in E2. injection E2 as <-.
  assert (X : exp ld <= exp lc).
  { rewrite P1, P2. unfold smoothed_probability, mean. rewrite !map_length.
    apply Rmult_le_compat_r; [left; apply Rinv_0_lt_compat, lt_0_INR; destruct draws; [contradiction|simpl; lia]|].
    clear - H T Hc Hd. induction draws as [|e l IH]; [unfold rsum; simpl; lra|].
    cbn [map].
    match goal with |- rsum (?a :: ?r) <= rsum (?b :: ?s) =>
      change (a + rsum r <= b + rsum s) end.
    apply Rplus_le_compat.
    - apply logit_order; rewrite ?choice_values_length; auto. apply H. left. reflexivity.
    - apply IH. intros e' He'. apply H. right. exact He'. }
  destruct (Rle_lt_dec ld lc) as [|L]; [assumption|]. apply exp_increasing in L. lra.
Qed.
