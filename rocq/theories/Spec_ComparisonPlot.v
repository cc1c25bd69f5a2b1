(** Independent specification: data for the comparison plot of the likelihood. *)
From Coq Require Import List Arith Bool String Reals.
From Verif Require Import Base Spec_Solve Model_Parallel Model_Likelihood Model_ComparisonPlot.
Import ListNotations.

Definition is_choice_row (r : plot_row) : bool := match pr_kind r with choice_kind => true | wage_kind => false end.
Definition is_wage_row (r : plot_row) : bool := negb (is_choice_row r).

(** Sum of the values of all rows of an individual. *)
Definition total_of (id : nat) (rows : list plot_row) : R :=
  rsum (map pr_value (filter (fun r => Nat.eqb (pr_identifier r) id) rows)).

(** An observed wage, or a choice which has no wage. *)
Definition wage_or_none (n_wages : nat) (ob : obs) : bool :=
  match ob_wage ob with
  | Some _ => true
  | None => negb (Nat.ltb (ob_code ob) n_wages)
  end.

(** Number of rows with the logarithm of the probability of type [t] for [id]. *)
Definition times (id t : nat) (rows : list type_row) : nat :=
  List.length (filter (fun r => Nat.eqb (tr_identifier r) id && Nat.eqb (tr_type r) t) rows).
