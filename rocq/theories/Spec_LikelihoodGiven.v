(** The probability of a choice given its wage according to the table of parameters. *)
From Coq Require Import List Arith Bool String Reals.
From Verif Require Import Base Model_CoreStateSpace Model_StateSpace Model_Solve Spec_Solve Model_ConditionalDraws Model_Likelihood Spec_Likelihood Model_Params Spec_Params
  Spec_SolveTable Spec_SimulateTable Spec_LikelihoodTable.
Import ListNotations.
Local Open Scope R_scope.

(** Covariance of the shocks of two choices. *)
Definition shock_covariance (L : nat -> nat -> R) (open : list nat) (c d : nat) : R :=
  rsum (map (fun j => L c j * L d j) open).

(** The shocks of the choices [open] have the mean [m] and the factor [U] (by position in
    [open]) of their distribution given the wage [w] of [code]: the shock of the wage is
    [ln w - index], observed with an error with standard deviation [sd]; [ba] and [bb] are the
    coefficients of the best linear prediction from it. *)
Definition shocks_given_wage (L : nat -> nat -> R) (open : list nat) (code : nat) (index sd w : R) (m : nat -> R) (U : nat -> nat -> R) : Prop :=
  let cov := shock_covariance L open in
  forall a b ca cb ba bb, nth_error open a = Some ca -> nth_error open b = Some cb ->
    cov ca code - ba * (cov code code + sd ^ 2) = 0 -> cov cb code - bb * (cov code code + sd ^ 2) = 0 ->
    m a = ba * (ln w - index) /\
    sumn (List.length open) (fun j => U a j * U b j) =
      cov ca cb - ba * cov cb code - bb * cov ca code + ba * bb * (cov code code + sd ^ 2).

(** Average over the draws of the logit probability of the choice number [i] of [open], where
    the shock at position [a] is [m a] plus row [a] of [U] times the draw. *)
Definition given_probability (table : list param) (choices : list string) (x : string -> R) (future : nat -> R)
  (beta delta tau : R) (open : list nat) (m : nat -> R) (U : nat -> nat -> R) (draws : list (list R)) (i : nat) : R :=
  mean (map (fun b => logit (map (fun q =>
    let choice := nth (snd q) choices ""%string in
    (table_wage table choice x * estimation_shock table choice (m (fst q) + sumn (List.length open) (fun j => U (fst q) j * nth j b 0)) +
     row_sum table ("nonpec_" ++ choice) x + beta * delta * future (snd q)) / tau) (enumerate open)) i) draws).
