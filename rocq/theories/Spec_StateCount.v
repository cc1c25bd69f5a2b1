(** Independent specification: the number of core states. *)
From Coq Require Import List Arith Bool.
From Verif Require Import Base Model_CoreStateSpace Spec_CoreStateSpace.
Import ListNotations.

(** Binomial coefficients: the number of ways to choose [k] out of [n]. *)
Fixpoint choose (n k : nat) : nat :=
  match n, k with
  | _, 0 => 1
  | 0, S _ => 0
  | S n', S k' => choose n' k' + choose n' (S k')
  end.

(** The states of period [t]. *)
Definition states_in (t : nat) (core : list core_state) : list core_state :=
  filter (fun s => Nat.eqb (cs_period s) t) core.

(** Number of choices with experience. *)
Definition n_experiences (sp : core_spec) : nat := length (sp_starts sp).

(** Number of combinations of initial experiences. *)
Definition n_initial (sp : core_spec) : nat := fold_right Nat.mul 1 (map (@length nat) (sp_starts sp)).

(** Number of different lagged choices: one in models without lagged choices; otherwise one
    of the lags is filled (see C03) with any choice. *)
Definition n_lagged (sp : core_spec) : nat :=
  match sp_nlags sp with 0 => 1 | L => L * sp_nchoices sp end.

(** Each choice with experience has one initial level, and its maximum is not below the
    level after making the choice in all periods before the last. *)
Definition unrestricted (sp : core_spec) : Prop :=
  Forall2 (fun levels m => exists x, levels = [x] /\ x + (sp_nperiods sp - 1) <= m) (sp_starts sp) (sp_max sp).
