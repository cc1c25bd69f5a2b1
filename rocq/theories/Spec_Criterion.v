(** What is claimed about the likelihood of simulated data. *)
From Coq Require Import String List Arith Bool Reals.
From Verif Require Import Base Model_CoreStateSpace Spec_CoreStateSpace Model_StateSpace Spec_StateSpace Model_Choices Model_Parallel
  Model_Solve Spec_Solve Model_Simulate Spec_Simulate Model_Draws Model_ConditionalDraws Model_Likelihood Spec_Likelihood
  Model_Dataset Spec_Dataset.
Import ListNotations.
Open Scope list_scope.
Open Scope nat_scope.

(** The individual of a row if it had type [t]. *)
Definition as_type (lb : labels) (t : nat) (x : individual) : individual :=
  mkInd (i_core x) (firstn (List.length (lb_observables lb)) (i_dense x) ++ (if Nat.leb 2 (lb_ntypes lb) then [t] else [])).

(** The entries of dense key [k] in row [pos] are those of individual [x] in period [p]: the
    choice set, wages and non-pecuniary rewards at the parameters [inp], and as continuation
    values the expected values [ev] of the states which the available choices lead to. *)
Record entries_of (sp : core_spec) (neg : neg_set) (kp : nat) (grid : list (list nat)) (ss : state_space)
  (inp : inputs) (ev : list (list R)) (env : like_env) (k pos p : nat) (x : individual) : Prop := {
  en_choices : le_choice_set env k = choices_of sp neg kp grid x;
  en_wage : le_wages env k pos =
    map (wage_of (in_params inp) (in_cov inp (context grid x) (i_core x))) (positions (choices_of sp neg kp grid x));
  en_nonpecs : le_nonpec env k pos =
    map (nonpec_of (in_params inp) (in_cov inp (context grid x) (i_core x))) (positions (choices_of sp neg kp grid x));
  en_length : List.length (le_cont env k pos) = count_true (choices_of sp neg kp grid x);
  en_values : exists d, dense_combination grid d (context grid x) /\
    forall j c, nth_error (positions (choices_of sp neg kp grid x)) j = Some c ->
      exists v, nth_error (le_cont env k pos) j = Some v /\
        (S p = sp_nperiods sp -> v = 0%R) /\
        (S p < sp_nperiods sp -> value_at ss ev (law_of_motion c (i_core x)) d v) }.

(** The settings of the likelihood belong to the model with [nw] choices with wages. *)
Record like_spec_of (sp : core_spec) (nw : nat) (lk : like_spec) : Prop := {
  ls_tau : lk_tau lk <> 0%R;
  ls_wages : lk_nwages lk = nw;
  ls_few : nw <= sp_nchoices sp;
  ls_meas : List.length (lk_meas lk) = sp_nchoices sp }.
