(** Independent specification: variables that do not matter. *)
From Coq Require Import List Arith Bool Reals.
From Verif Require Import Base Model_CoreStateSpace Model_StateSpace Spec_CoreStateSpace Model_Solve Spec_Solve.
Import ListNotations.
Local Open Scope nat_scope.

(** With the dense combinations [ctx] and [ctx'] the two models offer the same choices with the
    same rewards in all states, and have the same shocks and discount factor. *)
Record same_decisions (core : list core_state) (csf : cs_fun) (inp : inputs) (ctx : option (list nat))
  (csf' : cs_fun) (inp' : inputs) (ctx' : option (list nat)) : Prop := {
  sd_delta : p_delta (in_params inp) = p_delta (in_params inp');
  sd_chol : p_chol (in_params inp) = p_chol (in_params inp');
  sd_nwages : p_nwages (in_params inp) = p_nwages (in_params inp');
  sd_draws : forall n p, in_base inp n p = in_base inp' n p;
  sd_choices : forall s, In s core -> csf ctx s = csf' ctx' s;
  sd_wages : forall s c, In s core -> nth_error (csf ctx s) c = Some true ->
     wage_of (in_params inp) (in_cov inp ctx s) c = wage_of (in_params inp') (in_cov inp' ctx' s) c;
  sd_nonpecs : forall s c, In s core -> nth_error (csf ctx s) c = Some true ->
     nonpec_of (in_params inp) (in_cov inp ctx s) c = nonpec_of (in_params inp') (in_cov inp' ctx' s) c
}.
