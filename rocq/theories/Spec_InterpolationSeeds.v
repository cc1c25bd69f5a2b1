(** Independent specification: seeds of the approximate solution. *)
From Coq Require Import List Arith Bool ZArith Reals.
From Verif Require Import Base Model_CoreStateSpace Model_StateSpace Spec_StateSpace Model_Solve Spec_Solve Model_Interpolate Spec_Interpolate
  Model_InterpolationSeeds.
Import ListNotations.
Local Open Scope nat_scope.

(** Number of seeds of a period: none if it is solved exactly, otherwise one for each key and
    one for the distribution of points. *)
Definition seeds_of_period (ss : state_space) (points p : nat) : nat :=
  if (Nat.leb (states_in ss p) points || Nat.ltb points (2 * length (keys_in ss p)))%bool then 0
  else length (keys_in ss p) + (if Nat.ltb (2 * length (keys_in ss p)) points then 1 else 0).

(** Seeds of later periods are taken first. *)
Definition seeds_before (ss : state_space) (points p : nat) : nat :=
  list_sum (map (seeds_of_period ss points) (seq (S p) (ss_nperiods ss - S p))).

(** Seed number [n] belongs to the key [k] of period [p] ... *)
Definition seed_of_key (ss : state_space) (points p k n : nat) : Prop :=
  exists j, nth_error (keys_in ss p) j = Some k /\ n = seeds_before ss points p + j.
(** ... or to the distribution of the points of period [p]. *)
Definition seed_of_distribution (ss : state_space) (points p n : nat) : Prop :=
  n = seeds_before ss points p + length (keys_in ss p).

(** Random numbers are what they should be, for all seeds. *)
Definition proper_numbers (rn : random_numbers) : Prop :=
  (forall s, draws_position (rn_choose rn s)) /\ (forall s, draws_subset (rn_subset rn s)).
