(** Independent specification: what the expected values depend on. *)
From Coq Require Import List Arith Bool Reals.
From Verif Require Import Base Model_CoreStateSpace Model_StateSpace Spec_CoreStateSpace Model_Solve Spec_Solve.
Import ListNotations.
Local Open Scope nat_scope.

(** The two sets of inputs give the same rewards and shocks in the periods [P] for the dense
    combination [ctx]. *)
Record agree_in (P : nat -> Prop) (ctx : option (list nat)) (inp inp' : inputs) : Prop := {
  ag_delta : p_delta (in_params inp) = p_delta (in_params inp');
  ag_chol : p_chol (in_params inp) = p_chol (in_params inp');
  ag_nwages : p_nwages (in_params inp) = p_nwages (in_params inp');
  ag_wages : forall s c, P (cs_period s) -> wage_of (in_params inp) (in_cov inp ctx s) c = wage_of (in_params inp') (in_cov inp' ctx s) c;
  ag_nonpecs : forall s c, P (cs_period s) -> nonpec_of (in_params inp) (in_cov inp ctx s) c = nonpec_of (in_params inp') (in_cov inp' ctx s) c;
  ag_draws : forall n p, P p -> in_base inp n p = in_base inp' n p
}.

(** The second model has the choices of the first in the states of the first. *)
Definition same_choices (sp : core_spec) (neg : neg_set) (k : nat) (sp' : core_spec) (neg' : neg_set) (k' : nat)
  (ctx : option (list nat)) : Prop :=
  forall s, In s (create_core_state_space sp) ->
    choice_set_of sp (process sp (S k) neg) ctx s = choice_set_of sp' (process sp' (S k') neg') ctx s.
