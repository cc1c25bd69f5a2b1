(** Independent specification of the comparison of simulated paths. *)
From Coq Require Import List Arith Bool Reals.
From Verif Require Import Base Model_CoreStateSpace Model_StateSpace Model_Solve Model_Parallel
  Model_Simulate.
Import ListNotations.
Open Scope nat_scope.

(** The same state, choice, wage, values of the choices and shocks. *)
Definition same_outcome (o o' : outcome) : Prop :=
  o_ind o = o_ind o' /\ o_choice o = o_choice o' /\ o_wage o = o_wage o' /\
  o_values o = o_values o' /\ o_shocks o = o_shocks o'.

(** In an n-step-ahead simulation of [N] individuals, the draws of the individual in
    position [p] in period [t]. *)
Definition own_draws (N : nat) (base : list (list R)) (p t : nat) : option (list R) :=
  nth_error base (N * t + p).

(** The states of a panel: data for a one-step-ahead simulation. *)
Definition states_of (panel : frame outcome) : frame individual :=
  map (fun r => (fst r, o_ind (snd r))) panel.

(** The same draws, sorted by individual and period instead of period and individual. *)
Definition by_individual (N n : nat) (base : list (list R)) : list (list R) :=
  flat_map (fun p => map (fun t => nth (N * t + p) base []) (seq 0 n)) (seq 0 N).
