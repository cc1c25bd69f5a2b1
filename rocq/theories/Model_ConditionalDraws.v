(** Model of the conditional draws of the likelihood (conditional_draws.py).  Definitions
    only.  Matrices are functions of row and column together with an explicit dimension;
    entries outside the dimension are never used. *)
From Coq Require Import List Arith Bool Reals.
From Verif Require Import Base Model_CoreStateSpace Model_StateSpace Model_Solve.
Import ListNotations.
Open Scope R_scope.

Definition matrix := nat -> nat -> R.
(** A NumPy array given by rows. *)
Definition of_rows (M : list (list R)) : matrix := fun i j => nth j (nth i M []) 0.

(** Sum of [f 0], ..., [f (n - 1)]. *)
Fixpoint sumn (n : nat) (f : nat -> R) : R :=
  match n with O => 0 | S m => sumn m f + f m end.

(** config.py:23: MAX_FLOAT = 1e200. *)
Definition max_float : R := 10 ^ 200.

(** conditional_draws.py:67 and 254: [chol @ chol.T]. *)
Definition gram (n : nat) (L : matrix) : matrix := fun i j => sumn n (fun k => L i k * L j k).

(** conditional_draws.py:88-185 (update_mean_and_evaluate_likelihood).  [observed] is the
    observed log wage ([None]: not a number).  Numba does not check bounds; reading beyond
    the end of [meas] is [IndexError] here. *)
Definition update_mean_and_evaluate_likelihood (observed : option R) (systematic : R)
  (cov : matrix) (choice : nat) (meas : list R) : result ((nat -> R) * R) :=
  match observed with
  | None => Ok (fun _ => 0, 0)
  | Some lw =>
      match nth_error meas choice with
      | None => IndexError
      | Some sd =>
          let shock := lw - systematic in
          let sigma_squared := cov choice choice + sd ^ 2 in
          let sigma := sqrt sigma_squared in
          Ok (fun i => cov choice i * shock / sigma_squared,
              - ln (2 * PI) / 2 - lw - ln sigma - shock ^ 2 / (2 * sigma_squared))
      end
  end.

(** [np.delete] of position [i]: the [k]-th remaining position; and the inverse. *)
Definition skip (i k : nat) : nat := if Nat.ltb k i then k else S k.
Definition unskip (i k : nat) : option nat :=
  if Nat.ltb k i then Some k else if Nat.eqb k i then None else Some (k - 1)%nat.

(** conditional_draws.py:259-264: the covariance of the other shocks. *)
Definition updated_reduced_cov (cov : matrix) (i : nat) : matrix :=
  fun a b => cov (skip i a) (skip i b) - cov i (skip i a) * cov i (skip i b) / cov i i.

(** conditional_draws.py:267-270: written into a matrix of zeros. *)
Definition insert_zero (i : nat) (M : matrix) : matrix :=
  fun a b => match unskip i a, unskip i b with
             | Some a', Some b' => M a' b'
             | _, _ => 0
             end.

(** conditional_draws.py:234-274 (update_cholcov): the factor with index [i] of the array
    of [n_wages + 1] factors.  [robust_cholesky] (estimagic) is a parameter. *)
Definition update_cholcov (robust_cholesky : nat -> matrix -> matrix) (n n_wages : nat)
  (chol : matrix) (i : nat) : result matrix :=
  let cov := gram n chol in
  if Nat.ltb i n_wages then
    Ok (insert_zero i (robust_cholesky (n - 1)%nat (updated_reduced_cov cov i)))
  else if Nat.eqb i n_wages then Ok chol
  else IndexError.

(** conditional_draws.py:222-225: the transposed factor extended by the measurement
    error. *)
Definition extended_cholcov_t (chol : matrix) (sd : R) (i : nat) : matrix :=
  fun a b => match a, b with
             | O, O => sd
             | O, S _ => 0
             | S a', O => chol i a'
             | S a', S b' => chol b' a'
             end.

(** [np.sign] *)
Definition sign (x : R) : R :=
  if Rlt_dec 0 x then 1 else if Rlt_dec x 0 then -1 else 0.

(** conditional_draws.py:328-341 (make_cholesky_unique). *)
Definition make_cholesky_unique (n : nat) (C : matrix) : matrix :=
  fun a b => sumn n (fun k => C a k * (if Nat.eqb k b then sign (C k k) else 0)).

(** conditional_draws.py:188-233 (update_cholcov_with_measurement_error): the factor with
    index [i].  [qr] ([np.linalg.qr] with mode "r") is a parameter. *)
Definition update_cholcov_with_measurement_error (qr : nat -> matrix -> matrix)
  (n n_wages : nat) (chol : matrix) (meas : list R) (i : nat) : result matrix :=
  if Nat.ltb i n_wages then
    match nth_error meas i with
    | None => IndexError
    | Some sd =>
        let r := qr (S n) (extended_cholcov_t chol sd i) in
        Ok (make_cholesky_unique n (fun a b => r (S b) (S a)))
    end
  else if Nat.eqb i n_wages then Ok chol
  else IndexError.

(** conditional_draws.py:279-325 (calculate_conditional_draws) for one draw. *)
Definition conditional_draw (n n_wages : nat) (mean : nat -> R) (chol : matrix) (base : list R)
  : list R :=
  map (fun i =>
         let cd := fold_left (fun cd j => cd + nth j base 0 * chol i j) (seq 0 (S i)) (mean i) in
         if Nat.ltb i n_wages
         then exp (if Rlt_dec max_log_float cd then max_log_float else cd)
         else cd)
      (seq 0 n).

(** conditional_draws.py:60-85 (create_draws_and_log_prob_wages) for one observation:
    [wages] are the systematic wages of the available choices, [choice] is the position of
    the observed choice among them; [np.choose] raises for a position outside of them (and
    for more than 32 choices, which is outside the model). *)
Definition create_draws_and_log_prob_wages
  (robust_cholesky qr : nat -> matrix -> matrix)
  (observed : option R) (wages : list R) (base_draws : list (list R)) (choice : nat)
  (chol : list (list R)) (n_wages : nat) (meas : list R) (has_meas_error : bool)
  : result (list (list R) * R) :=
  let n := length wages in
  match nth_error wages choice with
  | None => ValueError
  | Some wage =>
      let systematic := ln (clip (1 / max_float) max_float wage) in
      let L := of_rows chol in
      result_bind (update_mean_and_evaluate_likelihood observed systematic (gram n L) choice meas)
      (fun ml =>
      let index := match observed with Some _ => choice | None => n_wages end in
      result_bind
        (if has_meas_error
         then update_cholcov_with_measurement_error qr n n_wages L meas index
         else update_cholcov robust_cholesky n n_wages L index)
      (fun U => Ok (map (conditional_draw n n_wages (fst ml) U) base_draws, snd ml)))
  end.
