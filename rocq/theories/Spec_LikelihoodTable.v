(** The likelihood of an observation according to the table of parameters. *)
From Coq Require Import List Arith Bool String Reals.
From Verif Require Import Base Model_CoreStateSpace Model_StateSpace Model_Solve Spec_Solve Model_Likelihood Spec_Likelihood Model_Params Spec_Params
  Spec_SolveTable Spec_SimulateTable.
Import ListNotations.
Local Open Scope R_scope.

(** Value of the remaining periods after the choice at position [c]. *)
Definition table_future (table : list param) (choices : list string) (L : nat -> nat -> R)
  (cov : option (list nat) -> core_state -> string -> R) (base : nat -> nat -> list (list R)) (csf : cs_fun) (delta : R) (n : nat)
  (ctx : option (list nat)) (s : core_state) (c : nat) : R :=
  value (table_problem table choices L cov base csf ctx) delta (n - S (cs_period s)) (law_of_motion c s).

(** In the likelihood the shocks of wages are only bounded from above. *)
Definition estimation_shock (table : list param) (choice : string) (e : R) : R :=
  if earns table choice then exp (Rmin 460 e) else e.

(** Value of the choice at position [c] for the standard normal draws [b] of the choices
    [open]: reward plus discounted value of the future. *)
Definition draw_value (table : list param) (choices : list string) (L : nat -> nat -> R) (x : string -> R) (future : nat -> R)
  (beta delta : R) (open : list nat) (b : list R) (c : nat) : R :=
  let choice := nth c choices ""%string in
  table_wage table choice x * estimation_shock table choice (rsum (map (fun q => fst q * L c (snd q)) (combine b open))) +
  row_sum table ("nonpec_" ++ choice) x + beta * delta * future c.

(** Average over the draws of the logit probability of the choice number [i] of [open]. *)
Definition table_probability (table : list param) (choices : list string) (L : nat -> nat -> R) (x : string -> R) (future : nat -> R)
  (beta delta tau : R) (open : list nat) (draws : list (list R)) (i : nat) : R :=
  mean (map (fun b => logit (map (fun c => draw_value table choices L x future beta delta open b c / tau) open) i) draws).

(** Variance of the shock of a choice if only the components of [open] matter. *)
Definition shock_variance (L : nat -> nat -> R) (open : list nat) (c : nat) : R :=
  rsum (map (fun j => L c j * L c j) open).
