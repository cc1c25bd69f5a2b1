(** Independent specification of conditional distributions of normal shocks. *)
From Coq Require Import List Arith Bool Reals.
From Verif Require Import Base Model_ConditionalDraws.
Import ListNotations.
Open Scope R_scope.

(** [A] and [B] agree in dimension [n]. *)
Definition mat_eq (n : nat) (A B : matrix) : Prop :=
  forall i j, (i < n)%nat -> (j < n)%nat -> A i j = B i j.
Definition lower_triangular (n : nat) (A : matrix) : Prop :=
  forall i j, (i < n)%nat -> (j < n)%nat -> (i < j)%nat -> A i j = 0.
Definition symmetric (n : nat) (A : matrix) : Prop :=
  forall i j, (i < n)%nat -> (j < n)%nat -> A i j = A j i.
Definition positive_semidefinite (n : nat) (A : matrix) : Prop :=
  forall x : nat -> R, 0 <= sumn n (fun i => sumn n (fun j => x i * A i j * x j)).

(** [L] is a lower triangular factor of [A]. *)
Definition factor (n : nat) (L A : matrix) : Prop :=
  lower_triangular n L /\ mat_eq n (fun i j => sumn n (fun k => L i k * L j k)) A.
(** A Cholesky routine for positive semidefinite matrices. *)
Definition cholesky_routine (rc : nat -> matrix -> matrix) : Prop :=
  forall n A, symmetric n A -> positive_semidefinite n A -> factor n (rc n A) A.
(** A routine for QR decompositions which returns the triangular factor. *)
Definition qr_routine (qr : nat -> matrix -> matrix) : Prop :=
  forall n M, (forall i j, (i < n)%nat -> (j < n)%nat -> (j < i)%nat -> qr n M i j = 0) /\
    forall i j, (i < n)%nat -> (j < n)%nat ->
      sumn n (fun k => qr n M k i * qr n M k j) = sumn n (fun k => M k i * M k j).

(** Shocks with covariance [cov]; shock [c] is observed with an independent error of
    variance [v].  [b] is the coefficient of the best linear prediction of shock [i] from
    the observation [y] if the error of the prediction is uncorrelated with [y]. *)
Definition prediction_coefficient (cov : matrix) (c : nat) (v : R) (i : nat) (b : R) : Prop :=
  cov i c - b * (cov c c + v) = 0.
(** Covariance of the prediction errors of shocks [i] and [j] with coefficients [bi] and
    [bj]. *)
Definition error_covariance (cov : matrix) (c : nat) (v : R) (i j : nat) (bi bj : R) : R :=
  cov i j - bi * cov j c - bj * cov i c + bi * bj * (cov c c + v).

(** Density of the log-normal distribution: the logarithm is normal with mean [m] and
    variance [v]. *)
Definition lognormal_density (m v w : R) : R :=
  1 / (w * sqrt v * sqrt (2 * PI)) * exp (- ((ln w - m) ^ 2 / (2 * v))).
