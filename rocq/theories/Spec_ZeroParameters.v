(** Coefficients of rewards that can be left out. *)
From Coq Require Import List String Reals.
From Verif Require Import Model_Strings Model_Choices Model_Params Spec_Params.
Import ListNotations.
Open Scope string_scope.

(** A row for the non-pecuniary reward of a choice, or a further row for a wage. *)
Definition further_coefficient (others : list param) (p : param) : Prop :=
  (exists c, p_category p = "nonpec_" ++ c \/ (p_category p = "wage_" ++ c /\ In (p_category p) (map p_category others))) /\
  ~ substring "initial_exp_" (p_category p).
