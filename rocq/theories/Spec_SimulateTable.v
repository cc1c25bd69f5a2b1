(** What simulated individuals decide and earn according to the table of parameters. *)
From Coq Require Import List Arith Bool String Reals.
From Verif Require Import Base Model_CoreStateSpace Model_StateSpace Model_Solve Spec_Solve Model_Simulate Spec_Simulate Model_Params Spec_Params
  Spec_SolveTable.
Import ListNotations.
Local Open Scope R_scope.

(** Normal shock of the choice at position [c]: the base draws of the available choices
    multiplied with the row of the factor. *)
Definition normal_shock (L : nat -> nat -> R) (cs : list bool) (draws : list R) (c : nat) : R :=
  rsum (map (fun i => nth i draws 0 * L c i) (positions cs)).

(** Value of a choice: its reward plus the discounted value of the rest of the [n] periods,
    where only the decision maker of today is biased towards the present. *)
Definition table_decision (table : list param) (choices : list string) (L : nat -> nat -> R)
  (cov : option (list nat) -> core_state -> string -> R) (base : nat -> nat -> list (list R)) (csf : cs_fun) (beta delta : R) (n : nat)
  (ctx : option (list nat)) (s : core_state) (draws : list R) (c : nat) : R :=
  table_reward table (nth c choices ""%string) (cov ctx s) (normal_shock L (csf ctx s) draws c) +
  beta * delta * value (table_problem table choices L cov base csf ctx) delta (n - S (cs_period s)) (law_of_motion c s).

(** Present bias: the row of beta, or one. *)
Definition bias_is (table : list param) (beta : R) : Prop :=
  value_is table "beta" "beta" beta \/ (beta = 1 /\ forall v, ~ In ("beta", "beta", v)%string table).
(** Standard deviation of the measurement error of the wage of a choice. *)
Definition measurement_sd (table : list param) (choice : string) (sd : R) : Prop :=
  (sd = 0 /\ ~ In "meas_error"%string (map p_category table)) \/ In ("meas_error", "sd_" ++ choice, sd)%string table.
(** The wage in the data: of choices with rows for wages, with shock and measurement error. *)
Definition observed_wage (table : list param) (choice : string) (x : string -> R) (e m : R) (w : option R) : Prop :=
  if earns table choice
  then exists sd, measurement_sd table choice sd /\ w = Some (table_wage table choice x * table_shock table choice e * exp (m * sd))
  else w = None.
