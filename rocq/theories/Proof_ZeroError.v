(** Proofs about measurement errors whose standard deviation is zero. *)
From Coq Require Import List Arith Bool Lia Reals Lra.
From Verif Require Import Base Model_CoreStateSpace Model_StateSpace Model_Solve Model_ConditionalDraws Model_Likelihood.
From Verif Require Import Spec_ConditionalDraws Spec_Likelihood Proof_Matrix Proof_ConditionalDraws Proof_LikelihoodRows.
Import ListNotations.
Open Scope R_scope.

Lemma sign_sqr_cases : forall x, sign x * sign x = if Req_EM_T x 0 then 0 else 1.
Proof. intros x. unfold sign. destruct (Rlt_dec 0 x), (Rlt_dec x 0), (Req_EM_T x 0); lra. Qed.

Lemma sumn_le_ : forall n f g, (forall k, (k < n)%nat -> f k <= g k) -> sumn n f <= sumn n g.
Proof.
  induction n as [|n IH]; intros f g H; cbn [sumn]; [lra|].
  pose proof (IH f g (fun k Hk => H k (Nat.lt_lt_succ_r _ _ Hk))). pose proof (H n (Nat.lt_succ_diag_r n)). lra.
Qed.

Lemma sumn_le_eq_ : forall n f g, (forall k, (k < n)%nat -> f k <= g k) -> sumn n f = sumn n g ->
  forall k, (k < n)%nat -> f k = g k.
Proof.
  induction n as [|n IH]; intros f g H E k Hk; [lia|]. cbn [sumn] in E.
  assert (H' : forall k, (k < n)%nat -> f k <= g k) by (intros; apply H; lia).
  pose proof (sumn_le_ n f g H'). pose proof (H n (Nat.lt_succ_diag_r n)).
  destruct (Nat.eq_dec k n) as [->|NE]; [lra|]. apply (IH f g H'); [lra|lia].
Qed.

Lemma sumn_ext_ : forall n f g, (forall k, (k < n)%nat -> f k = g k) -> sumn n f = sumn n g.
Proof.
  induction n as [|n IH]; intros f g H; cbn [sumn]; [reflexivity|].
  rewrite (IH f g) by (intros; apply H; lia). rewrite (H n) by lia. reflexivity.
Qed.

(** The variances of the normalised factor. *)
Lemma unique_variance_le : forall n C a, 
  sumn n (fun k => make_cholesky_unique n C a k * make_cholesky_unique n C a k) <= sumn n (fun k => C a k * C a k).
Proof.
  intros n C a. apply sumn_le_. intros k Hk. rewrite unique_entry by exact Hk.
  replace (C a k * sign (C k k) * (C a k * sign (C k k))) with (C a k * C a k * (sign (C k k) * sign (C k k))) by lra.
  rewrite sign_sqr_cases. pose proof (Rle_0_sqr (C a k)) as P. unfold Rsqr in P. destruct (Req_EM_T (C k k) 0); lra.
Qed.

Lemma unique_variance_eq : forall n C a,
  sumn n (fun k => make_cholesky_unique n C a k * make_cholesky_unique n C a k) = sumn n (fun k => C a k * C a k) ->
  forall k, (k < n)%nat -> C k k = 0 -> C a k = 0.
Proof.
  intros n C a E k Hk Z.
  assert (H : forall k, (k < n)%nat -> make_cholesky_unique n C a k * make_cholesky_unique n C a k <= C a k * C a k).
  { intros j Hj. rewrite unique_entry by exact Hj.
    replace (C a j * sign (C j j) * (C a j * sign (C j j))) with (C a j * C a j * (sign (C j j) * sign (C j j))) by lra.
    rewrite sign_sqr_cases. pose proof (Rle_0_sqr (C a j)) as P. unfold Rsqr in P. destruct (Req_EM_T (C j j) 0); lra. }
  pose proof (sumn_le_eq_ n _ _ H E k Hk) as X. cbn beta in X. rewrite unique_entry in X by exact Hk.
  replace (sign (C k k)) with 0 in X by (rewrite Z; unfold sign; destruct (Rlt_dec 0 0); lra).
  apply Rsqr_0_uniq. unfold Rsqr. lra.
Qed.

Lemma unique_product_rows : forall n C, (forall a k, (a < n)%nat -> (k < n)%nat -> C k k = 0 -> C a k = 0) ->
  mat_eq n (gram n (make_cholesky_unique n C)) (gram n C).
Proof.
  intros n C H a b Ha Hb. unfold gram. apply sumn_ext_. intros k Hk. rewrite !unique_entry by exact Hk.
  replace (C a k * sign (C k k) * (C b k * sign (C k k))) with (C a k * C b k * (sign (C k k) * sign (C k k))) by lra.
  rewrite sign_sqr_cases. destruct (Req_EM_T (C k k) 0) as [Z|Z]; [|lra]. rewrite (H a k Ha Hk Z). lra.
Qed.

Lemma prediction_exists : forall cov c v a, cov c c + v <> 0 -> prediction_coefficient cov c v a (cov a c / (cov c c + v)).
Proof. intros cov c v a H. unfold prediction_coefficient. field. exact H. Qed.

(** When the variances are the conditional variances. *)
Lemma exact_condition : forall qr n n_wages L meas sd i, qr_routine qr ->
  (i < n_wages)%nat -> (n_wages <= n)%nat -> nth_error meas i = Some sd -> gram n L i i + sd ^ 2 <> 0 ->
  let r := qr (S n) (extended_cholcov_t L sd i) in
  exists U, update_cholcov_with_measurement_error qr n n_wages L meas i = Ok U /\
    lower_triangular n U /\
    (forall a ba, (a < n)%nat -> prediction_coefficient (gram n L) i (sd ^ 2) a ba ->
       sumn n (fun k => U a k * U a k) <= error_covariance (gram n L) i (sd ^ 2) a a ba ba) /\
    ((forall a ba, (a < n)%nat -> prediction_coefficient (gram n L) i (sd ^ 2) a ba ->
        sumn n (fun k => U a k * U a k) = error_covariance (gram n L) i (sd ^ 2) a a ba ba) <->
     (forall k, (k < n)%nat -> r (S k) (S k) = 0 -> forall a, (a < n)%nat -> r (S k) (S a) = 0)) /\
    ((forall k, (k < n)%nat -> r (S k) (S k) = 0 -> forall a, (a < n)%nat -> r (S k) (S a) = 0) ->
     forall a b ba bb, (a < n)%nat -> (b < n)%nat ->
       prediction_coefficient (gram n L) i (sd ^ 2) a ba -> prediction_coefficient (gram n L) i (sd ^ 2) b bb ->
       sumn n (fun k => U a k * U b k) = error_covariance (gram n L) i (sd ^ 2) a b ba bb).
Proof.
  intros qr n n_wages L meas sd i Q Hi Hn Hm NZ r.
  destruct (trailing_block qr n L sd i Q ltac:(lia) NZ) as [Lo T]. fold r in Lo, T.
  set (C := fun a b : nat => r (S b) (S a)) in *.
  exists (make_cholesky_unique n C). split.
  { unfold update_cholcov_with_measurement_error. rewrite (proj2 (Nat.ltb_lt i n_wages) Hi), Hm. reflexivity. }
  split; [apply unique_lower; exact Lo|].
  assert (G : (forall k, (k < n)%nat -> r (S k) (S k) = 0 -> forall a, (a < n)%nat -> r (S k) (S a) = 0) ->
     forall a b ba bb, (a < n)%nat -> (b < n)%nat ->
       prediction_coefficient (gram n L) i (sd ^ 2) a ba -> prediction_coefficient (gram n L) i (sd ^ 2) b bb ->
       sumn n (fun k => make_cholesky_unique n C a k * make_cholesky_unique n C b k) =
         error_covariance (gram n L) i (sd ^ 2) a b ba bb).
  { intros H a b ba bb Ha Hb Pa Pb. rewrite <- (T a b ba bb Ha Hb Pa Pb).
    apply (unique_product_rows n C); [|exact Ha|exact Hb]. intros a' k Ha' Hk Z. exact (H k Hk Z a' Ha'). }
  split.
  { intros a ba Ha Pa. rewrite <- (T a a ba ba Ha Ha Pa Pa). apply (unique_variance_le n C a). }
  split; [|exact G]. split.
  - intros H k Hk Z a Ha. pose proof (prediction_exists (gram n L) i (sd ^ 2) a NZ) as Pa.
    pose proof (H a _ Ha Pa) as E. rewrite <- (T a a _ _ Ha Ha Pa Pa) in E.
    exact (unique_variance_eq n C a E k Hk Z).
  - intros H a ba Ha Pa. apply (G H); assumption.
Qed.

(** ** A standard deviation of zero *)
Lemma zero_row : forall qr n L i, qr_routine qr -> (i < n)%nat -> gram n L i i <> 0 ->
  forall k, (k < n)%nat -> qr (S n) (extended_cholcov_t L 0 i) (S k) (S i) = 0.
Proof.
  intros qr n L i Q Hi NZ. 
  destruct (trailing_block qr n L 0 i Q Hi ltac:(lra)) as [_ T]. cbv zeta in T.
  assert (P : prediction_coefficient (gram n L) i (0 ^ 2) i 1) by (unfold prediction_coefficient; lra).
  pose proof (T i i 1 1 Hi Hi P P) as E. unfold error_covariance in E.
  intros k Hk. apply (sum_sqr_zero n (fun k => qr (S n) (extended_cholcov_t L 0 i) (S k) (S i))); [|exact Hk]. lra.
Qed.

Lemma zero_error_factor : forall qr n n_wages L meas i, qr_routine qr -> (i < n_wages)%nat -> (n_wages <= n)%nat ->
  nth_error meas i = Some 0 -> gram n L i i <> 0 ->
  exists U, update_cholcov_with_measurement_error qr n n_wages L meas i = Ok U /\
    forall a, (a < n)%nat -> U i a = 0.
Proof.
  intros qr n n_wages L meas i Q Hi Hn Hm NZ. eexists. split.
  { unfold update_cholcov_with_measurement_error. rewrite (proj2 (Nat.ltb_lt i n_wages) Hi), Hm. reflexivity. }
  intros a Ha. rewrite unique_entry by exact Ha. cbv beta. rewrite (zero_row qr n L i Q ltac:(lia) NZ a Ha). lra.
Qed.

Lemma zero_error_draws : forall rc qr wages base c chol n_wages meas w s,
  qr_routine qr -> (c < n_wages)%nat -> (n_wages <= length wages)%nat ->
  nth_error wages c = Some s -> representable w -> representable s -> nth_error meas c = Some 0 ->
  gram (length wages) (of_rows chol) c c <> 0 -> ln w - ln s <= 460 ->
  exists draws ll,
    create_draws_and_log_prob_wages rc qr (log_wage (Some w)) wages base c chol n_wages meas true = Ok (draws, ll) /\
    length draws = length base /\
    forall d, In d draws -> length d = length wages /\ s * nth c d 0 = w.
Proof.
  intros rc qr wages base c chol n_wages meas w s Q Hc Hn Hs Rw Rs Hm NZ Sh.
  unfold create_draws_and_log_prob_wages. rewrite Hs. cbn [log_wage option_map].
  rewrite (representable_clip w Rw), (representable_clip s Rs).
  destruct (mean_at_observed (gram (length wages) (of_rows chol)) c (ln w) (ln s) meas Hm NZ) as [mn [ll [E Em]]].
  rewrite E. cbn [result_bind fst snd].
  destruct (zero_error_factor qr (length wages) n_wages (of_rows chol) meas c Q Hc Hn Hm NZ) as [U [EU Z]].
  rewrite EU. cbn [result_bind]. eexists. eexists. split; [reflexivity|]. split; [apply map_length|].
  intros d Hd. apply in_map_iff in Hd. destruct Hd as [b [<- Hb]]. unfold conditional_draw. split.
  { rewrite map_length, seq_length. reflexivity. }
  rewrite nth_map_seq by lia. rewrite (proj2 (Nat.ltb_lt c n_wages) Hc).
  rewrite (fold_zero (fun j => nth j b 0) (U c)) by (intros j Hj; apply in_seq in Hj; apply Z; lia).
  rewrite Em. destruct (Rlt_dec max_log_float (ln w - ln s)) as [L|L]; [unfold max_log_float in L; lra|].
  pose proof (representable_pos w Rw). pose proof (representable_pos s Rs).
  unfold Rminus. rewrite exp_plus, exp_Ropp, !exp_ln by assumption. field. lra.
Qed.

(** The density does not depend on the flag. *)
Lemma flag_density : forall rc qr observed wages base c chol n_wages meas draws ll draws' ll',
  create_draws_and_log_prob_wages rc qr observed wages base c chol n_wages meas true = Ok (draws, ll) ->
  create_draws_and_log_prob_wages rc qr observed wages base c chol n_wages meas false = Ok (draws', ll') ->
  ll = ll'.
Proof.
  intros rc qr observed wages base c chol n_wages meas draws ll draws' ll' A B.
  unfold create_draws_and_log_prob_wages in A, B. destruct (nth_error wages c) as [wage|]; [|discriminate].
  destruct (update_mean_and_evaluate_likelihood _ _ _ _ _) as [ml| | | | |]; try discriminate. cbn [result_bind] in A, B.
  destruct (update_cholcov_with_measurement_error _ _ _ _ _ _) as [U| | | | |] in A; try discriminate.
  destruct (update_cholcov _ _ _ _ _) as [U'| | | | |] in B; try discriminate. cbn [result_bind] in A, B.
  injection A as _ <-. injection B as _ <-. reflexivity.
Qed.

(** Without a wage the two branches coincide. *)
Lemma flag_unobserved : forall rc qr wages base c chol n_wages meas,
  create_draws_and_log_prob_wages rc qr None wages base c chol n_wages meas true =
  create_draws_and_log_prob_wages rc qr None wages base c chol n_wages meas false.
Proof.
  intros. unfold create_draws_and_log_prob_wages. destruct (nth_error wages c); [|reflexivity].
  destruct (cholcov_unobserved rc qr (length wages) n_wages (of_rows chol) meas) as [A B]. rewrite A, B. reflexivity.
Qed.

(** The two branches draw from the same distribution. *)
Lemma same_covariances : forall rc qr n n_wages L meas i, cholesky_routine rc -> qr_routine qr ->
  (i < n_wages)%nat -> (n_wages <= n)%nat -> nth_error meas i = Some 0 -> gram n L i i <> 0 ->
  let r := qr (S n) (extended_cholcov_t L 0 i) in
  exists U V, update_cholcov_with_measurement_error qr n n_wages L meas i = Ok U /\
    update_cholcov rc n n_wages L i = Ok V /\
    ((forall a, (a < n)%nat -> sumn n (fun k => U a k * U a k) = sumn n (fun k => V a k * V a k)) <->
     (forall k, (k < n)%nat -> r (S k) (S k) = 0 -> forall a, (a < n)%nat -> r (S k) (S a) = 0)) /\
    ((forall a, (a < n)%nat -> sumn n (fun k => U a k * U a k) = sumn n (fun k => V a k * V a k)) ->
     mat_eq n (gram n U) (gram n V)).
Proof.
  intros rc qr n n_wages L meas i RC Q Hi Hn Hm NZ r.
  destruct (exact_condition qr n n_wages L meas 0 i Q Hi Hn Hm ltac:(lra)) as [U [EU [_ [_ [IFF G]]]]]. fold r in IFF, G.
  destruct (cholcov_spec rc n n_wages L i RC Hi Hn NZ) as [V [EV [_ [_ HV]]]].
  exists U, V. split; [exact EU|]. split; [exact EV|].
  assert (Z2 : 0 ^ 2 = 0) by lra. rewrite Z2 in *.
  assert (X : (forall a, (a < n)%nat -> sumn n (fun k => U a k * U a k) = sumn n (fun k => V a k * V a k)) <->
     (forall k, (k < n)%nat -> r (S k) (S k) = 0 -> forall a, (a < n)%nat -> r (S k) (S a) = 0)).
  { rewrite <- IFF. split.
    - intros H a ba Ha Pa. rewrite (H a Ha). apply HV; assumption.
    - intros H a Ha. pose proof (prediction_exists (gram n L) i 0 a ltac:(lra)) as Pa.
      rewrite (H a _ Ha Pa), (HV a a _ _ Ha Ha Pa Pa). reflexivity. }
  split; [exact X|]. intros H0 a b Ha Hb. pose proof (proj1 X H0) as H.
  pose proof (prediction_exists (gram n L) i 0 a ltac:(lra)) as Pa.
  pose proof (prediction_exists (gram n L) i 0 b ltac:(lra)) as Pb.
  exact (eq_trans (G H a b _ _ Ha Hb Pa Pb) (eq_sym (HV a b _ _ Ha Hb Pa Pb))).
Qed.

(** A routine whose rows vanish with their diagonal element. *)
Lemma cholesky_columns : forall n A, symmetric n A -> positive_semidefinite n A ->
  forall k a, (k < n)%nat -> (a < n)%nat -> cholesky n A k k = 0 -> cholesky n A a k = 0.
Proof.
  induction n as [|n IH]; intros A Sy P k a Hk Ha Z; [lia|].
  pose proof (psd_diag (S n) A 0 (Nat.lt_0_succ n) Sy P) as D0.
  destruct k as [|k], a as [|a].
  - exact Z.
  - cbn [cholesky] in Z |- *. destruct (Req_EM_T (A 0%nat 0%nat) 0) as [E|E]; [reflexivity|].
    apply sqrt_eq_0 in Z; [|exact D0]. contradiction.
  - reflexivity.
  - cbn [cholesky] in Z |- *. revert Z. 
    destruct (Req_EM_T (A 0%nat 0%nat) 0) as [E|E]; apply IH; try lia.
    + intros i j Hi Hj. apply Sy; lia.
    + apply minor_psd; assumption.
    + apply schur_symmetric; [lia|exact Sy].
    + apply schur_psd; [lia|exact Sy|exact P|exact E].
Qed.

Lemma exact_routine_exists : exists qr, qr_routine qr /\
  forall n M k a, (k < n)%nat -> (a < n)%nat -> qr n M k k = 0 -> qr n M k a = 0.
Proof.
  exists (fun n M i j => cholesky n (gram n (fun a b => M b a)) j i). split.
  - intros n M. destruct (cholesky_is_routine n (gram n (fun a b => M b a))) as [F1 F2].
    + apply gram_symmetric.
    + apply gram_psd.
    + split; [intros i j Hi Hj H; apply F1; assumption|intros i j Hi Hj; exact (F2 i j Hi Hj)].
  - intros n M k a Hk Ha Z. apply (cholesky_columns n _ (gram_symmetric _ _ _) (gram_psd _ _ _)); assumption.
Qed.

(** Without the condition variance is lost also if the shocks are regular. *)
Definition swap_matrix : matrix := fun a b =>
  match a, b with 0%nat, 0%nat => 1 | 0%nat, 1%nat => 1 | 1%nat, 2%nat => 1 | _, _ => 0 end.
Definition identity2 : matrix := fun a b => if Nat.eqb a b then 1 else 0.
Definition distance (n : nat) (M N : matrix) : R := sumn n (fun i => sumn n (fun j => (M i j - N i j) * (M i j - N i j))).
Definition swapping_qr (n : nat) (M : matrix) : matrix :=
  if Nat.eqb n 3 then
    if Req_EM_T (distance 3 M (extended_cholcov_t identity2 0 0)) 0 then swap_matrix else lazy_qr n M
  else lazy_qr n M.

Lemma distance_zero : forall n M N, distance n M N = 0 -> forall i j, (i < n)%nat -> (j < n)%nat -> M i j = N i j.
Proof.
  intros n M N H i j Hi Hj. unfold distance in H.
  assert (Z : forall m f, (forall k, (k < m)%nat -> 0 <= f k) -> sumn m f = 0 -> forall k, (k < m)%nat -> f k = 0).
  { clear. induction m as [|m IH]; intros f P H k Hk; [lia|]. cbn [sumn] in H.
    assert (0 <= sumn m f) by (apply sumn_nonneg; intros; apply P; lia).
    pose proof (P m ltac:(lia)). destruct (Nat.eq_dec k m) as [->|NE]; [lra|].
    apply (IH f); [intros; apply P; lia|lra|lia]. }
  assert (P : forall k, (k < n)%nat -> 0 <= sumn n (fun j => (M k j - N k j) * (M k j - N k j))).
  { intros k _. apply sumn_nonneg. intros b _. apply Rle_0_sqr. }
  pose proof (Z n _ P H i Hi) as Z1. cbn beta in Z1.
  pose proof (sum_sqr_zero n (fun j => M i j - N i j) Z1 j Hj) as Z2. cbn beta in Z2. lra.
Qed.

Lemma swapping_qr_routine : qr_routine swapping_qr.
Proof.
  intros n M. unfold swapping_qr. destruct (Nat.eqb_spec n 3) as [->|]; [|apply lazy_qr_routine].
  destruct (Req_EM_T _ 0) as [E|E]; [|apply lazy_qr_routine].
  pose proof (distance_zero 3 M _ E) as D. split.
  - intros i j Hi Hj H. destruct i as [|[|[|i]]]; try lia; destruct j as [|[|[|j]]]; try lia; reflexivity.
  - intros i j Hi Hj. 
    rewrite (sumn_ext 3 (fun k => M k i * M k j)
               (fun k => extended_cholcov_t identity2 0 0 k i * extended_cholcov_t identity2 0 0 k j))
      by (intros k Hk; rewrite !D by assumption; reflexivity).
    destruct i as [|[|[|i]]]; try lia; destruct j as [|[|[|j]]]; try lia;
      unfold swap_matrix, extended_cholcov_t, identity2; cbn [sumn Nat.eqb]; lra.
Qed.

Lemma zero_error_loses_variance :
  exists qr rc n L meas U V, qr_routine qr /\ cholesky_routine rc /\ lower_triangular n L /\
    (forall k, (k < n)%nat -> L k k <> 0) /\ nth_error meas 0 = Some 0 /\
    update_cholcov_with_measurement_error qr n 1 L meas 0 = Ok U /\ update_cholcov rc n 1 L 0 = Ok V /\
    sumn n (fun k => U 1%nat k * U 1%nat k) = 0 /\ sumn n (fun k => V 1%nat k * V 1%nat k) = 1.
Proof.
  destruct (cholcov_spec cholesky 2 1 identity2 0 cholesky_is_routine) as [V [EV [_ [_ HV]]]]; try lia.
  { unfold gram, identity2. cbn [sumn Nat.eqb]. lra. }
  exists swapping_qr, cholesky, 2%nat, identity2, [0].
  exists (make_cholesky_unique 2 (fun a b => swap_matrix (S b) (S a))), V.
  split; [exact swapping_qr_routine|]. split; [exact cholesky_is_routine|]. split.
  { intros i j Hi Hj H. unfold identity2. destruct (Nat.eqb_spec i j); [lia|reflexivity]. }
  split.
  { intros k _. unfold identity2. rewrite Nat.eqb_refl. lra. }
  split; [reflexivity|]. split.
  { unfold update_cholcov_with_measurement_error. cbn [Nat.ltb Nat.leb nth_error].
    unfold swapping_qr. cbn [Nat.eqb]. destruct (Req_EM_T _ 0) as [E|E]; [reflexivity|].
    exfalso. apply E. unfold distance. apply sumn_zero'. intros i _. apply sumn_zero'. intros j _. lra. }
  split; [exact EV|]. split.
  - cbn [sumn]. rewrite !unique_entry by lia. unfold swap_matrix, sign. destruct (Rlt_dec 0 0); lra.
  - rewrite (HV 1%nat 1%nat 0 0) by (try lia; unfold prediction_coefficient, gram, identity2; cbn [sumn Nat.eqb]; lra).
    unfold error_covariance, gram, identity2. cbn [sumn Nat.eqb]. lra.
Qed.
