(** What is claimed about the smoothing parameter. *)
From Coq Require Import List Arith Bool Reals.
From Verif Require Import Base Model_Solve Spec_Solve Spec_Likelihood.
Import ListNotations.
Open Scope R_scope.

(** Number of entries that equal the maximum. *)
Definition n_best (values : list R) : nat :=
  length (filter (fun v => if Req_EM_T v (maximum values) then true else false) values).

(** One for the best choice and zero for the others; choices that are equally good share. *)
Definition best_share (values : list R) (c : nat) : R :=
  if Req_EM_T (nth c values 0) (maximum values) then / INR (n_best values) else 0.

(** Share of draws in which choice [c] is the best. *)
Definition frequency (wages nonpecs conts : list R) (delta : R) (draws : list (list R)) (c : nat) : R :=
  mean (map (fun e => best_share (choice_values wages nonpecs conts delta e) c) draws).
