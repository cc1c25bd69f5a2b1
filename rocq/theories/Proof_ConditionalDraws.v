(** Proofs about the conditional draws of the likelihood. *)
From Coq Require Import List Arith Bool Reals Lra Lia.
From Verif Require Import Base Proof_Base Model_CoreStateSpace Model_StateSpace Model_Solve
  Model_ConditionalDraws Spec_ConditionalDraws Proof_Matrix.
Import ListNotations.
Open Scope R_scope.

(** ** Mean and density *)
Lemma mean_spec : forall n L c lw m meas sd, nth_error meas c = Some sd ->
  gram n L c c + sd ^ 2 <> 0 ->
  exists mean ll, update_mean_and_evaluate_likelihood (Some lw) m (gram n L) c meas = Ok (mean, ll) /\
    forall i b, prediction_coefficient (gram n L) c (sd ^ 2) i b -> mean i = b * (lw - m).
Proof.
  intros n L c lw m meas sd H NZ. unfold update_mean_and_evaluate_likelihood. rewrite H.
  eexists. eexists. split; [reflexivity|]. intros i b Hb. unfold prediction_coefficient in Hb.
  cbn beta. assert (E : gram n L c i = gram n L i c) by (unfold gram; apply sumn_ext; intros; lra).
  rewrite E. replace (gram n L i c) with (b * (gram n L c c + sd ^ 2)) by lra. field. exact NZ.
Qed.

Lemma ln_div : forall x y, 0 < x -> 0 < y -> ln (x / y) = ln x - ln y.
Proof. intros. unfold Rdiv. rewrite ln_mult, ln_Rinv; try lra. apply Rinv_0_lt_compat. assumption. Qed.

Lemma ln_sqrt : forall x, 0 < x -> ln (sqrt x) = ln x / 2.
Proof.
  intros x H. assert (S : 0 < sqrt x) by (apply sqrt_lt_R0; exact H).
  assert (E : ln x = ln (sqrt x) + ln (sqrt x)) by (rewrite <- ln_mult by assumption; rewrite sqrt_sqrt by lra; reflexivity).
  lra.
Qed.

Lemma density_spec : forall cov c lw m meas sd, nth_error meas c = Some sd ->
  0 < cov c c + sd ^ 2 ->
  exists mean ll, update_mean_and_evaluate_likelihood (Some lw) m cov c meas = Ok (mean, ll) /\
    exp ll = lognormal_density m (cov c c + sd ^ 2) (exp lw).
Proof.
  intros cov c lw m meas sd H P. unfold update_mean_and_evaluate_likelihood. rewrite H.
  eexists. eexists. split; [reflexivity|]. unfold lognormal_density.
  set (v := cov c c + sd ^ 2) in *. rewrite ln_exp.
  assert (S : 0 < sqrt v) by (apply sqrt_lt_R0; exact P).
  assert (PI0 : 0 < 2 * PI) by (pose proof PI_RGT_0; lra).
  assert (S2 : 0 < sqrt (2 * PI)) by (apply sqrt_lt_R0; exact PI0).
  assert (E : 1 / (exp lw * sqrt v * sqrt (2 * PI)) = exp (- lw - ln (sqrt v) - ln (2 * PI) / 2)).
  { rewrite <- ln_sqrt by exact PI0.
    replace (- lw - ln (sqrt v) - ln (sqrt (2 * PI))) with (- (lw + ln (sqrt v) + ln (sqrt (2 * PI)))) by lra.
    rewrite exp_Ropp, !exp_plus, !exp_ln by assumption. unfold Rdiv. rewrite Rmult_1_l. reflexivity. }
  rewrite E, <- exp_plus. f_equal. lra.
Qed.

Lemma no_wage : forall m cov c meas,
  exists mean, update_mean_and_evaluate_likelihood None m cov c meas = Ok (mean, 0) /\ forall i, mean i = 0.
Proof. intros. eexists. split; [reflexivity|]. reflexivity. Qed.

Lemma mean_at_observed : forall cov c lw m meas, nth_error meas c = Some 0 -> cov c c <> 0 ->
  exists mean ll, update_mean_and_evaluate_likelihood (Some lw) m cov c meas = Ok (mean, ll) /\
    mean c = lw - m.
Proof.
  intros cov c lw m meas H NZ. unfold update_mean_and_evaluate_likelihood. rewrite H.
  eexists. eexists. split; [reflexivity|]. cbn beta. replace (cov c c + 0 ^ 2) with (cov c c) by (simpl; lra). field. exact NZ.
Qed.

(** ** Without measurement error *)
Lemma insert_zero_row : forall i M a, insert_zero i M i a = 0.
Proof. intros i M a. unfold insert_zero. rewrite unskip_self. reflexivity. Qed.
Lemma insert_zero_col : forall i M a, insert_zero i M a i = 0.
Proof. intros i M a. unfold insert_zero. rewrite unskip_self. destruct (unskip i a); reflexivity. Qed.
Lemma insert_zero_skip : forall i M a b, insert_zero i M (skip i a) (skip i b) = M a b.
Proof. intros i M a b. unfold insert_zero. rewrite !unskip_skip. reflexivity. Qed.

Lemma skip_lt_inv : forall i a b, (skip i a < skip i b)%nat -> (a < b)%nat.
Proof. intros i a b. unfold skip. destruct (Nat.ltb_spec a i), (Nat.ltb_spec b i); lia. Qed.

Lemma cholcov_spec : forall rc n n_wages L i, cholesky_routine rc -> (i < n_wages)%nat -> (n_wages <= n)%nat ->
  gram n L i i <> 0 ->
  exists U, update_cholcov rc n n_wages L i = Ok U /\ lower_triangular n U /\
    (forall a, U i a = 0 /\ U a i = 0) /\
    forall a b ba bb, (a < n)%nat -> (b < n)%nat ->
      prediction_coefficient (gram n L) i 0 a ba -> prediction_coefficient (gram n L) i 0 b bb ->
      sumn n (fun k => U a k * U b k) = error_covariance (gram n L) i 0 a b ba bb.
Proof.
  intros rc n n_wages L i RC Hi Hn NZ. unfold update_cholcov.
  rewrite (proj2 (Nat.ltb_lt i n_wages) Hi).
  destruct n as [|n]; [lia|]. replace (S n - 1)%nat with n by lia.
  set (cov := gram (S n) L) in *.
  assert (Sy : symmetric (S n) cov) by apply gram_symmetric.
  assert (Ps : positive_semidefinite (S n) cov) by apply gram_psd.
  assert (Hi' : (i <= n)%nat) by lia.
  destruct (RC n (updated_reduced_cov cov i)) as [F1 F2];
    [apply schur_symmetric; assumption|apply schur_psd; assumption|].
  set (C := rc n (updated_reduced_cov cov i)) in *.
  exists (insert_zero i C). split; [reflexivity|]. split; [|split].
  - intros a b Ha Hb Hab. destruct (Nat.eq_dec a i) as [->|Na]; [apply insert_zero_row|].
    destruct (Nat.eq_dec b i) as [->|Nb]; [apply insert_zero_col|].
    destruct (unskip_cases n i a Ha Hi' Na) as [a' [-> Ha']].
    destruct (unskip_cases n i b Hb Hi' Nb) as [b' [-> Hb']].
    rewrite insert_zero_skip. apply F1; try assumption. eapply skip_lt_inv; eauto.
  - intros a. split; [apply insert_zero_row|apply insert_zero_col].
  - intros a b ba bb Ha Hb Pa Pb. unfold prediction_coefficient in *. unfold error_covariance.
    rewrite (sumn_skip n i) by exact Hi'.
    rewrite insert_zero_col, Rmult_0_l, Rplus_0_l.
    assert (CI : cov i i + 0 = cov i i) by lra. rewrite CI in *.
    assert (Ea : cov a i = ba * cov i i) by lra. assert (Eb : cov b i = bb * cov i i) by lra.
    destruct (Nat.eq_dec a i) as [->|Na].
    { assert (ba = 1) by (apply (Rmult_eq_reg_r (cov i i)); [lra|exact NZ]). subst ba.
      rewrite sumn_zero' by (intros; rewrite insert_zero_row; lra). rewrite (Sy i b) by lia. lra. }
    destruct (Nat.eq_dec b i) as [->|Nb].
    { assert (bb = 1) by (apply (Rmult_eq_reg_r (cov i i)); [lra|exact NZ]). subst bb.
      rewrite sumn_zero' by (intros; rewrite insert_zero_row; lra). lra. }
    destruct (unskip_cases n i a Ha Hi' Na) as [a' [-> Ha']].
    destruct (unskip_cases n i b Hb Hi' Nb) as [b' [-> Hb']].
    rewrite (sumn_ext n _ (fun k => C a' k * C b' k)) by (intros; rewrite !insert_zero_skip; reflexivity).
    rewrite (F2 a' b' Ha' Hb'). unfold updated_reduced_cov.
    rewrite (Sy i (skip i a')), (Sy i (skip i b')) by (try apply skip_lt; lia). rewrite Ea, Eb. field. exact NZ.
Qed.

Lemma cholcov_unobserved : forall rc qr n n_wages L meas,
  update_cholcov rc n n_wages L n_wages = Ok L /\
  update_cholcov_with_measurement_error qr n n_wages L meas n_wages = Ok L.
Proof.
  intros. unfold update_cholcov, update_cholcov_with_measurement_error.
  rewrite Nat.ltb_irrefl, Nat.eqb_refl. auto.
Qed.

(** ** With measurement error *)
Lemma unique_entry : forall n C a b, (b < n)%nat -> make_cholesky_unique n C a b = C a b * sign (C b b).
Proof.
  intros n C a b H. unfold make_cholesky_unique.
  rewrite (sumn_ext n _ (fun k => (C a k * sign (C k k)) * (if Nat.eqb k b then 1 else 0))).
  - apply (sumn_single n b (fun k => C a k * sign (C k k)) H).
  - intros k _. destruct (Nat.eqb k b); lra.
Qed.

Lemma sign_sqr : forall x, x <> 0 -> sign x * sign x = 1.
Proof. intros x H. unfold sign. destruct (Rlt_dec 0 x), (Rlt_dec x 0); lra. Qed.
Lemma sign_pos : forall x, x <> 0 -> 0 < x * sign x.
Proof. intros x H. unfold sign. destruct (Rlt_dec 0 x), (Rlt_dec x 0); lra. Qed.

Lemma unique_product : forall n C, (forall k, (k < n)%nat -> C k k <> 0) ->
  mat_eq n (gram n (make_cholesky_unique n C)) (gram n C).
Proof.
  intros n C H a b Ha Hb. unfold gram. apply sumn_ext. intros k Hk. rewrite !unique_entry by exact Hk.
  pose proof (sign_sqr _ (H k Hk)) as E. 
  replace (C a k * sign (C k k) * (C b k * sign (C k k))) with (C a k * C b k * (sign (C k k) * sign (C k k))) by lra.
  rewrite E. lra.
Qed.

Lemma unique_lower : forall n C, lower_triangular n C -> lower_triangular n (make_cholesky_unique n C).
Proof. intros n C H a b Ha Hb Hab. rewrite unique_entry by exact Hb. rewrite (H a b) by assumption. lra. Qed.

(** The trailing block of the triangular factor. *)
Lemma trailing_block : forall qr n L sd i, qr_routine qr -> (i < n)%nat ->
  gram n L i i + sd ^ 2 <> 0 ->
  let r := qr (S n) (extended_cholcov_t L sd i) in
  lower_triangular n (fun a b => r (S b) (S a)) /\
  forall a b ba bb, (a < n)%nat -> (b < n)%nat ->
    prediction_coefficient (gram n L) i (sd ^ 2) a ba -> prediction_coefficient (gram n L) i (sd ^ 2) b bb ->
    sumn n (fun k => r (S k) (S a) * r (S k) (S b)) = error_covariance (gram n L) i (sd ^ 2) a b ba bb.
Proof.
  intros qr n L sd i Q Hi NZ r. destruct (Q (S n) (extended_cholcov_t L sd i)) as [U P]. fold r in U, P.
  split.
  - intros a b Ha Hb Hab. apply U; lia.
  - intros a b ba bb Ha Hb Pa Pb. unfold prediction_coefficient in *. unfold error_covariance.
    assert (Z : forall k, (k < n)%nat -> r (S k) 0%nat = 0) by (intros k Hk; apply U; lia).
    pose proof (P 0%nat 0%nat (Nat.lt_0_succ n) (Nat.lt_0_succ n)) as P00.
    rewrite !sumn_front in P00. rewrite (sumn_zero' n (fun k => r (S k) 0%nat * r (S k) 0%nat)) in P00
      by (intros k Hk; rewrite Z by exact Hk; lra).
    cbn [extended_cholcov_t] in P00. fold (gram n L i i) in P00.
    assert (P0 : forall c, (c < n)%nat -> r 0%nat 0%nat * r 0%nat (S c) = gram n L i c).
    { intros c Hc. pose proof (P 0%nat (S c) (Nat.lt_0_succ n) (proj1 (Nat.succ_lt_mono c n) Hc)) as H.
      rewrite !sumn_front in H. rewrite (sumn_zero' n (fun k => r (S k) 0%nat * r (S k) (S c))) in H
        by (intros k Hk; rewrite Z by exact Hk; lra).
      cbn [extended_cholcov_t] in H. fold (gram n L i c) in H. lra. }
    pose proof (P (S a) (S b) (proj1 (Nat.succ_lt_mono a n) Ha) (proj1 (Nat.succ_lt_mono b n) Hb)) as H.
    rewrite !sumn_front in H. cbn [extended_cholcov_t] in H. fold (gram n L a b) in H.
    pose proof (P0 a Ha) as Qa. pose proof (P0 b Hb) as Qb.
    assert (Sa : gram n L i a = gram n L a i) by (unfold gram; apply sumn_ext; intros; lra).
    assert (Sb : gram n L i b = gram n L b i) by (unfold gram; apply sumn_ext; intros; lra).
    set (v := gram n L i i + sd ^ 2) in *.
    assert (V : r 0%nat 0%nat * r 0%nat 0%nat = v) by (unfold v; lra).
    assert (Ea : gram n L a i = ba * v) by lra. assert (Eb : gram n L b i = bb * v) by lra.
    assert (R0 : r 0%nat 0%nat <> 0) by (intros X; rewrite X in V; lra).
    assert (Ra : r 0%nat (S a) = ba * r 0%nat 0%nat).
    { apply (Rmult_eq_reg_l (r 0%nat 0%nat)); [|exact R0]. rewrite Qa, Sa, Ea, <- V. lra. }
    assert (Rb : r 0%nat (S b) = bb * r 0%nat 0%nat).
    { apply (Rmult_eq_reg_l (r 0%nat 0%nat)); [|exact R0]. rewrite Qb, Sb, Eb, <- V. lra. }
    rewrite Ra, Rb in H. rewrite Ea, Eb.
    assert (W : ba * r 0%nat 0%nat * (bb * r 0%nat 0%nat) = ba * bb * v) by (rewrite <- V; lra). lra.
Qed.

(** Triangular systems. *)
Lemma back_substitution : forall k (T : matrix) (b : nat -> R), 
  (forall i j, (i < k)%nat -> (j < i)%nat -> T i j = 0) -> (forall i, (i < k)%nat -> T i i <> 0) ->
  exists x, forall i, (i < k)%nat -> sumn k (fun j => T i j * x j) = b i.
Proof.
  induction k as [|k IH]; intros T b U D.
  - exists (fun _ => 0). intros i Hi. lia.
  - set (t := b k / T k k).
    destruct (IH T (fun i => b i - T i k * t)) as [x Hx].
    { intros i j Hi Hj. apply U; lia. } { intros i Hi. apply D. lia. }
    exists (fun j => if Nat.eqb j k then t else x j). intros i Hi.
    cbn [sumn]. rewrite Nat.eqb_refl.
    rewrite (sumn_ext k _ (fun j => T i j * x j))
      by (intros j Hj; destruct (Nat.eqb_spec j k); [lia|reflexivity]).
    destruct (Nat.eq_dec i k) as [->|N].
    + rewrite sumn_zero' by (intros j Hj; rewrite U by lia; lra). unfold t. field. apply D. lia.
    + rewrite Hx by lia. lra.
Qed.

Lemma triangular_kernel : forall n (T : matrix) k, (k < n)%nat ->
  (forall i j, (i < n)%nat -> (j < i)%nat -> T i j = 0) -> T k k = 0 ->
  exists x, (exists j, (j < n)%nat /\ x j <> 0) /\ forall i, (i < n)%nat -> sumn n (fun j => T i j * x j) = 0.
Proof.
  intros n T k Hk U Z.
  (* the first zero on the diagonal *)
  assert (Q : forall m, (m <= n)%nat -> (forall i, (i < m)%nat -> T i i <> 0) \/
     exists k0, (k0 < m)%nat /\ T k0 k0 = 0 /\ forall i, (i < k0)%nat -> T i i <> 0).
  { induction m as [|m IH]; intros Hm; [left; intros; lia|].
    destruct (IH ltac:(lia)) as [A|[k0 [A1 [A2 A3]]]].
    - destruct (Req_dec (T m m) 0) as [E|E].
      + right. exists m. auto.
      + left. intros i Hi. destruct (Nat.eq_dec i m) as [->|N]; [exact E|apply A; lia].
    - right. exists k0. repeat split; auto. }
  destruct (Q n (Nat.le_refl n)) as [A|[k0 [A1 [A2 A3]]]]; [exfalso; apply (A k Hk Z)|].
  destruct (back_substitution k0 T (fun i => - T i k0)) as [x Hx].
  { intros i j Hi Hj. apply U; lia. } { exact A3. }
  set (y := fun j => if Nat.ltb j k0 then x j else if Nat.eqb j k0 then 1 else 0).
  exists y. split.
  - exists k0. split; [exact A1|]. unfold y. rewrite Nat.ltb_irrefl, Nat.eqb_refl. lra.
  - intros i Hi.
    assert (G : forall m, (k0 < m)%nat -> sumn m (fun j => T i j * y j) = sumn k0 (fun j => T i j * x j) + T i k0).
    { induction m as [|m IH]; intros Hm; [lia|]. cbn [sumn]. destruct (Nat.eq_dec m k0) as [->|N].
      - unfold y at 2. rewrite Nat.ltb_irrefl, Nat.eqb_refl.
        rewrite (sumn_ext k0 (fun j => T i j * y j) (fun j => T i j * x j)); [lra|].
        intros j Hj. unfold y. rewrite (proj2 (Nat.ltb_lt j k0) Hj). reflexivity.
      - rewrite IH by lia. unfold y at 1. destruct (Nat.ltb_spec m k0); [lia|].
        destruct (Nat.eqb_spec m k0); [lia|]. lra. }
    rewrite (G n A1). destruct (Nat.lt_ge_cases i k0) as [L|L].
    + rewrite Hx by exact L. lra.
    + rewrite sumn_zero' by (intros j Hj; rewrite U by lia; lra).
      destruct (Nat.eq_dec i k0) as [->|N]; [lra|]. rewrite U by lia. lra.
Qed.

Lemma sum_sqr_zero : forall n f, sumn n (fun i => f i * f i) = 0 -> forall i, (i < n)%nat -> f i = 0.
Proof.
  induction n as [|n IH]; intros f H i Hi; [lia|]. cbn [sumn] in H.
  assert (P : 0 <= sumn n (fun i => f i * f i)) by (apply sumn_nonneg; intros; apply Rle_0_sqr).
  pose proof (Rle_0_sqr (f n)) as P2. unfold Rsqr in P2.
  destruct (Nat.eq_dec i n) as [->|N].
  - apply Rsqr_0_uniq. unfold Rsqr. lra.
  - apply IH; [lra|lia].
Qed.

Lemma norm_equal : forall n (A B : matrix) x,
  (forall i j, (i < n)%nat -> (j < n)%nat -> sumn n (fun k => A k i * A k j) = sumn n (fun k => B k i * B k j)) ->
  sumn n (fun k => sumn n (fun j => A k j * x j) * sumn n (fun j => A k j * x j)) =
  sumn n (fun k => sumn n (fun j => B k j * x j) * sumn n (fun j => B k j * x j)).
Proof.
  intros n A B x H.
  assert (E : forall M : matrix, sumn n (fun k => sumn n (fun j => M k j * x j) * sumn n (fun j => M k j * x j)) =
     sumn n (fun i => sumn n (fun j => x i * x j * sumn n (fun k => M k i * M k j)))).
  { intros M. transitivity (sumn n (fun k => sumn n (fun i => sumn n (fun j => x i * x j * (M k i * M k j))))).
    - apply sumn_ext. intros k _. rewrite <- sumn_scal_r. apply sumn_ext. intros i _. rewrite <- sumn_scal.
      apply sumn_ext. intros; lra.
    - rewrite sumn_swap. apply sumn_ext. intros i _. rewrite sumn_swap. apply sumn_ext. intros j _.
      rewrite sumn_scal. reflexivity. }
  rewrite !E. apply sumn_ext. intros i Hi. apply sumn_ext. intros j Hj. rewrite H by assumption. reflexivity.
Qed.

Lemma upper_kernel_zero : forall n (T : matrix) x,
  (forall i j, (i < n)%nat -> (j < i)%nat -> T i j = 0) -> (forall i, (i < n)%nat -> T i i <> 0) ->
  (forall i, (i < n)%nat -> sumn n (fun j => T i j * x j) = 0) -> forall i, (i < n)%nat -> x i = 0.
Proof.
  induction n as [|n IH]; intros T x U D H i Hi; [lia|].
  assert (Xn : x n = 0).
  { pose proof (H n (Nat.lt_succ_diag_r n)) as Hn. cbn [sumn] in Hn.
    rewrite sumn_zero' in Hn by (intros j Hj; rewrite U by lia; lra).
    apply (Rmult_eq_reg_l (T n n)); [lra|apply D; lia]. }
  destruct (Nat.eq_dec i n) as [->|N]; [exact Xn|].
  apply (IH T x); try lia.
  - intros a b Ha Hb. apply U; lia.
  - intros a Ha. apply D; lia.
  - intros a Ha. specialize (H a ltac:(lia)). cbn [sumn] in H. rewrite Xn in H. lra.
Qed.

(** No zero on the diagonal if there is measurement error and the factor is regular. *)
Lemma regular_diagonal : forall qr n L sd i, qr_routine qr -> (i < n)%nat -> sd <> 0 ->
  lower_triangular n L -> (forall k, (k < n)%nat -> L k k <> 0) ->
  let r := qr (S n) (extended_cholcov_t L sd i) in
  forall k, (k < n)%nat -> r (S k) (S k) <> 0.
Proof.
  intros qr n L sd i Q Hi NZ LT LD r k Hk Z.
  destruct (Q (S n) (extended_cholcov_t L sd i)) as [U P]. fold r in U, P.
  destruct (triangular_kernel (S n) r (S k)) as [x [[j [Hj Xj]] Hx]]; [lia| |exact Z|].
  { intros a b Ha Hb. apply U; lia. }
  set (M := extended_cholcov_t L sd i) in *.
  assert (N : sumn (S n) (fun k => sumn (S n) (fun j => M k j * x j) * sumn (S n) (fun j => M k j * x j)) = 0).
  { rewrite <- (norm_equal (S n) r M x P). apply sumn_zero'. intros a Ha. rewrite Hx by exact Ha. lra. }
  pose proof (sum_sqr_zero (S n) (fun k => sumn (S n) (fun j => M k j * x j)) N) as K. cbn beta in K.
  assert (X0 : x 0%nat = 0).
  { pose proof (K 0%nat (Nat.lt_0_succ n)) as K0. rewrite sumn_front in K0. unfold M in K0. cbn [extended_cholcov_t] in K0.
    rewrite sumn_zero' in K0 by (intros; lra). apply (Rmult_eq_reg_l sd); [lra|exact NZ]. }
  assert (XS : forall a, (a < n)%nat -> x (S a) = 0).
  { apply (upper_kernel_zero n (fun a b => L b a) (fun a => x (S a))).
    - intros a b Ha Hb. apply LT; lia.
    - exact LD.
    - intros a Ha. specialize (K (S a) ltac:(lia)). rewrite sumn_front in K. unfold M in K. cbn [extended_cholcov_t] in K.
      rewrite X0 in K. lra. }
  apply Xj. destruct j as [|j]; [exact X0|apply XS; lia].
Qed.

Lemma kalman_spec : forall qr n n_wages L meas sd i, qr_routine qr -> (i < n_wages)%nat -> (n_wages <= n)%nat ->
  nth_error meas i = Some sd -> gram n L i i + sd ^ 2 <> 0 ->
  (forall k, (k < n)%nat -> qr (S n) (extended_cholcov_t L sd i) (S k) (S k) <> 0) ->
  exists U, update_cholcov_with_measurement_error qr n n_wages L meas i = Ok U /\ lower_triangular n U /\
    (forall k, (k < n)%nat -> 0 < U k k) /\
    forall a b ba bb, (a < n)%nat -> (b < n)%nat ->
      prediction_coefficient (gram n L) i (sd ^ 2) a ba -> prediction_coefficient (gram n L) i (sd ^ 2) b bb ->
      sumn n (fun k => U a k * U b k) = error_covariance (gram n L) i (sd ^ 2) a b ba bb.
Proof.
  intros qr n n_wages L meas sd i Q Hi Hn Hm NZ D. unfold update_cholcov_with_measurement_error.
  rewrite (proj2 (Nat.ltb_lt i n_wages) Hi), Hm.
  destruct (trailing_block qr n L sd i Q ltac:(lia) NZ) as [T1 T2]. cbn zeta in T1, T2.
  eexists. split; [reflexivity|]. split; [|split].
  - apply unique_lower. exact T1.
  - intros k Hk. rewrite unique_entry by exact Hk. apply sign_pos. apply D. exact Hk.
  - intros a b ba bb Ha Hb Pa Pb.
    pose proof (unique_product n (fun a b => qr (S n) (extended_cholcov_t L sd i) (S b) (S a)) D a b Ha Hb) as E.
    unfold gram at 1 2 in E. rewrite E. apply T2; assumption.
Qed.

Lemma kalman_regular : forall qr n n_wages L meas sd i, qr_routine qr -> (i < n_wages)%nat -> (n_wages <= n)%nat ->
  nth_error meas i = Some sd -> sd <> 0 -> lower_triangular n L -> (forall k, (k < n)%nat -> L k k <> 0) ->
  exists U, update_cholcov_with_measurement_error qr n n_wages L meas i = Ok U /\ lower_triangular n U /\
    (forall k, (k < n)%nat -> 0 < U k k) /\
    forall a b ba bb, (a < n)%nat -> (b < n)%nat ->
      prediction_coefficient (gram n L) i (sd ^ 2) a ba -> prediction_coefficient (gram n L) i (sd ^ 2) b bb ->
      sumn n (fun k => U a k * U b k) = error_covariance (gram n L) i (sd ^ 2) a b ba bb.
Proof.
  intros qr n n_wages L meas sd i Q Hi Hn Hm NZ LT LD. apply kalman_spec; auto.
  - pose proof (psd_diag n (gram n L) i ltac:(lia) (gram_symmetric n n L) (gram_psd n n L)) as P.
    assert (0 < sd ^ 2) by (simpl; rewrite Rmult_1_r; apply Rsqr_pos_lt; exact NZ). lra.
  - apply regular_diagonal; auto. lia.
Qed.

(** A routine which leaves upper triangular matrices as they are is a QR routine. *)
Definition below_diagonal (n : nat) (M : matrix) : R :=
  sumn n (fun i => sumn n (fun j => if Nat.ltb j i then M i j * M i j else 0)).
Definition lazy_qr (n : nat) (M : matrix) : matrix :=
  if Req_EM_T (below_diagonal n M) 0 then M
  else fun i j => cholesky n (gram n (fun a b => M b a)) j i.

Lemma below_diagonal_zero : forall n M, below_diagonal n M = 0 ->
  forall i j, (i < n)%nat -> (j < n)%nat -> (j < i)%nat -> M i j = 0.
Proof.
  intros n M H i j Hi Hj Hij. unfold below_diagonal in H.
  assert (Z : forall m f, (forall k, (k < m)%nat -> 0 <= f k) -> sumn m f = 0 -> forall k, (k < m)%nat -> f k = 0).
  { clear. induction m as [|m IH]; intros f P H k Hk; [lia|]. cbn [sumn] in H.
    assert (0 <= sumn m f) by (apply sumn_nonneg; intros; apply P; lia).
    pose proof (P m ltac:(lia)). destruct (Nat.eq_dec k m) as [->|N]; [lra|].
    apply (IH f); [intros; apply P; lia|lra|lia]. }
  assert (P : forall k, (k < n)%nat -> 0 <= sumn n (fun j => if Nat.ltb j k then M k j * M k j else 0)).
  { intros k _. apply sumn_nonneg. intros b _. destruct (Nat.ltb b k); [apply Rle_0_sqr|lra]. }
  pose proof (Z n _ P H i Hi) as Z1. cbn beta in Z1.
  assert (P2 : forall k, (k < n)%nat -> 0 <= if Nat.ltb k i then M i k * M i k else 0).
  { intros k _. destruct (Nat.ltb k i); [apply Rle_0_sqr|lra]. }
  pose proof (Z n _ P2 Z1 j Hj) as Z2. cbn beta in Z2. rewrite (proj2 (Nat.ltb_lt j i) Hij) in Z2.
  apply Rsqr_0_uniq. exact Z2.
Qed.

Lemma lazy_qr_routine : qr_routine lazy_qr.
Proof.
  intros n M. unfold lazy_qr. destruct (Req_EM_T (below_diagonal n M) 0) as [E|E].
  - split; [intros i j; apply below_diagonal_zero; exact E|reflexivity].
  - destruct (cholesky_is_routine n (gram n (fun a b => M b a))) as [F1 F2].
    + apply gram_symmetric.
    + apply gram_psd.
    + split; [intros i j Hi Hj H; apply F1; assumption|intros i j Hi Hj; exact (F2 i j Hi Hj)].
Qed.

(** The first shock is constant, the second depends on two independent components: the
    variance of the second is 2, the variance used after observing the first is 1. *)
Lemma zero_diagonal_loses_variance :
  exists qr n L meas U, qr_routine qr /\ lower_triangular n L /\ nth_error meas 0 = Some 1 /\
    gram n L 0%nat 0%nat + 1 ^ 2 <> 0 /\
    update_cholcov_with_measurement_error qr n 1 L meas 0 = Ok U /\
    prediction_coefficient (gram n L) 0 (1 ^ 2) 1 0 /\
    error_covariance (gram n L) 0 (1 ^ 2) 1 1 0 0 = 2 /\
    sumn n (fun k => U 1%nat k * U 1%nat k) = 1.
Proof.
  set (L := fun i (j : nat) => match i with 1%nat => 1 | _ => 0 end).
  exists lazy_qr, 2%nat, L, [1], (make_cholesky_unique 2 (fun a b => L a b)).
  assert (E : lazy_qr 3 (extended_cholcov_t L 1 0) = extended_cholcov_t L 1 0).
  { unfold lazy_qr. destruct (Req_EM_T (below_diagonal 3 (extended_cholcov_t L 1 0)) 0) as [E|E]; [reflexivity|].
    exfalso. apply E. unfold below_diagonal, L. cbn. lra. }
  split; [exact lazy_qr_routine|]. split.
  { intros i j Hi Hj H. unfold L. destruct i as [|[|i]]; try reflexivity. lia. }
  split; [reflexivity|]. split.
  { unfold gram, L. cbn. lra. }
  split.
  { unfold update_cholcov_with_measurement_error. cbn [Nat.ltb Nat.leb nth_error]. rewrite E. reflexivity. }
  split.
  { unfold prediction_coefficient, gram, L. cbn. lra. }
  split.
  { unfold error_covariance, gram, L. cbn. lra. }
  cbn [sumn]. rewrite !unique_entry by lia. unfold L, sign.
  destruct (Rlt_dec 0 0), (Rlt_dec 0 1); lra.
Qed.
