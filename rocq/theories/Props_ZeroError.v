(** Property C125: measurement errors with a standard deviation of zero. *)
From Coq Require Import List Arith Bool Lia Reals Lra.
From Verif Require Import Base Model_CoreStateSpace Model_StateSpace Model_Solve Model_ConditionalDraws Model_Likelihood.
From Verif Require Import Spec_ConditionalDraws Spec_Likelihood Proof_ZeroError Examples_Likelihood Proof_LikelihoodRows.
Import ListNotations.
Open Scope R_scope.

(** The variances of the draws are never larger than the conditional variances. They are
    equal if and only if rows of the triangular factor vanish with their diagonal element,
    and then all covariances are correct. *)
Theorem C36_exact_condition : forall qr n n_wages L meas sd i, qr_routine qr ->
  (i < n_wages)%nat -> (n_wages <= n)%nat -> nth_error meas i = Some sd -> gram n L i i + sd ^ 2 <> 0 ->
  let r := qr (S n) (extended_cholcov_t L sd i) in
  exists U, update_cholcov_with_measurement_error qr n n_wages L meas i = Ok U /\
    Spec_ConditionalDraws.lower_triangular n U /\
    (forall a ba, (a < n)%nat -> prediction_coefficient (gram n L) i (sd ^ 2) a ba ->
       sumn n (fun k => U a k * U a k) <= error_covariance (gram n L) i (sd ^ 2) a a ba ba) /\
    ((forall a ba, (a < n)%nat -> prediction_coefficient (gram n L) i (sd ^ 2) a ba ->
        sumn n (fun k => U a k * U a k) = error_covariance (gram n L) i (sd ^ 2) a a ba ba) <->
     (forall k, (k < n)%nat -> r (S k) (S k) = 0 -> forall a, (a < n)%nat -> r (S k) (S a) = 0)) /\
    ((forall k, (k < n)%nat -> r (S k) (S k) = 0 -> forall a, (a < n)%nat -> r (S k) (S a) = 0) ->
     forall a b ba bb, (a < n)%nat -> (b < n)%nat ->
       prediction_coefficient (gram n L) i (sd ^ 2) a ba -> prediction_coefficient (gram n L) i (sd ^ 2) b bb ->
       sumn n (fun k => U a k * U b k) = error_covariance (gram n L) i (sd ^ 2) a b ba bb).
Proof. exact exact_condition. Qed.
Print Assumptions C36_exact_condition.

(** There is a QR decomposition with this property. *)
Theorem C36_exact_routine_exists : exists qr, qr_routine qr /\
  forall n M k a, (k < n)%nat -> (a < n)%nat -> qr n M k k = 0 -> qr n M k a = 0.
Proof. exact exact_routine_exists. Qed.
Print Assumptions C36_exact_routine_exists.

(** Every draw reproduces the observed wage. *)
Theorem C125_wage_reproduced : forall rc qr wages base c chol n_wages meas w s,
  qr_routine qr -> (c < n_wages)%nat -> (n_wages <= length wages)%nat ->
  nth_error wages c = Some s -> representable w -> representable s -> nth_error meas c = Some 0 ->
  gram (length wages) (of_rows chol) c c <> 0 -> ln w - ln s <= 460 ->
  exists draws ll,
    create_draws_and_log_prob_wages rc qr (log_wage (Some w)) wages base c chol n_wages meas true = Ok (draws, ll) /\
    length draws = length base /\
    forall d, In d draws -> length d = length wages /\ s * nth c d 0 = w.
Proof. exact zero_error_draws. Qed.
Print Assumptions C125_wage_reproduced.

(** The density of the wage is the one without measurement errors. *)
Theorem C125_same_density : forall rc qr observed wages base c chol n_wages meas draws ll draws' ll',
  create_draws_and_log_prob_wages rc qr observed wages base c chol n_wages meas true = Ok (draws, ll) ->
  create_draws_and_log_prob_wages rc qr observed wages base c chol n_wages meas false = Ok (draws', ll') ->
  ll = ll'.
Proof. exact flag_density. Qed.
Print Assumptions C125_same_density.

(** Without a wage nothing changes at all. *)
Theorem C125_without_wage : forall rc qr wages base c chol n_wages meas,
  create_draws_and_log_prob_wages rc qr None wages base c chol n_wages meas true =
  create_draws_and_log_prob_wages rc qr None wages base c chol n_wages meas false.
Proof. exact flag_unobserved. Qed.
Print Assumptions C125_without_wage.

(** The draws of the other shocks have the covariances without measurement errors if and
    only if rows of the triangular factor vanish with their diagonal element. *)
Theorem C125_same_covariances : forall rc qr n n_wages L meas i, cholesky_routine rc -> qr_routine qr ->
  (i < n_wages)%nat -> (n_wages <= n)%nat -> nth_error meas i = Some 0 -> gram n L i i <> 0 ->
  let r := qr (S n) (extended_cholcov_t L 0 i) in
  exists U V, update_cholcov_with_measurement_error qr n n_wages L meas i = Ok U /\
    update_cholcov rc n n_wages L i = Ok V /\
    ((forall a, (a < n)%nat -> sumn n (fun k => U a k * U a k) = sumn n (fun k => V a k * V a k)) <->
     (forall k, (k < n)%nat -> r (S k) (S k) = 0 -> forall a, (a < n)%nat -> r (S k) (S a) = 0)) /\
    ((forall a, (a < n)%nat -> sumn n (fun k => U a k * U a k) = sumn n (fun k => V a k * V a k)) ->
     mat_eq n (gram n U) (gram n V)).
Proof. exact same_covariances. Qed.
Print Assumptions C125_same_covariances.

(** Otherwise variance can be lost though the shocks are not degenerate. *)
Theorem C125_same_covariances_refuted : exists qr rc n L meas U V, qr_routine qr /\ cholesky_routine rc /\ Spec_ConditionalDraws.lower_triangular n L /\
    (forall k, (k < n)%nat -> L k k <> 0) /\ nth_error meas 0 = Some 0 /\
    update_cholcov_with_measurement_error qr n 1 L meas 0 = Ok U /\ update_cholcov rc n 1 L 0 = Ok V /\
    sumn n (fun k => U 1%nat k * U 1%nat k) = 0 /\ sumn n (fun k => V 1%nat k * V 1%nat k) = 1.
Proof. exact zero_error_loses_variance. Qed.
Print Assumptions C125_same_covariances_refuted.

Example C125_example :
  (0 < 1)%nat /\ (1 <= length [1; 1])%nat /\ nth_error [1; 1] 0 = Some 1 /\ representable 1 /\ ln 1 - ln 1 <= 460 /\
  nth_error [0; 0] 0 = Some 0 /\ gram 2 (of_rows ex_chol) 0%nat 0%nat <> 0.
Proof.
  split; [lia|]. split; [cbn; lia|]. split; [reflexivity|]. split; [exact one_representable|]. split; [lra|].
  split; [reflexivity|]. rewrite (proj1 ex_chol_gram). lra.
Qed.
