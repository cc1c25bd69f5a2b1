(** Property theorems: what the expected values depend on. *)
From Coq Require Import List Arith Bool Reals Lra Lia.
From Verif Require Import Base Model_CoreStateSpace Spec_CoreStateSpace Model_StateSpace Spec_StateSpace Props_StateSpace
  Model_Solve Spec_Solve Examples_Solve Spec_Horizon Proof_Horizon Examples_Horizon Proof_Base.
Import ListNotations.
Local Open Scope nat_scope.

(** ** C115 *)
(** Rewards and shocks of earlier periods and of other dense combinations do not matter. *)
Theorem C115_only_the_future : forall sp neg k grid ss inp inp' ev0 ev0' ev ev' s d ctx v v',
  standard_model sp neg k grid ss inp -> standard_model sp neg k grid ss inp' ->
  agree_in (fun p => cs_period s <= p) ctx inp inp' ->
  ev_shape ss ev0 -> ev_shape ss ev0' ->
  solve_with_backward_induction ss inp ev0 = Ok ev -> solve_with_backward_induction ss inp' ev0' = Ok ev' ->
  In s (create_core_state_space sp) -> dense_combination grid d ctx ->
  value_at ss ev s d v -> value_at ss ev' s d v' -> v = v'.
Proof. exact only_the_future. Qed.
Print Assumptions C115_only_the_future.

(** More periods never decrease the expected value of a state. *)
Theorem C115_longer_horizon : forall sp neg k sp' neg' k' grid ss ss' inp inp' ev0 ev0' ev ev' s d ctx v v',
  standard_model sp neg k grid ss inp -> standard_model sp' neg' k' grid ss' inp' ->
  sp_nperiods sp <= sp_nperiods sp' -> same_choices sp neg k sp' neg' k' ctx ->
  agree_in (fun p => p < sp_nperiods sp) ctx inp inp' -> (0 <= p_delta (in_params inp))%R ->
  ev_shape ss ev0 -> ev_shape ss' ev0' ->
  solve_with_backward_induction ss inp ev0 = Ok ev -> solve_with_backward_induction ss' inp' ev0' = Ok ev' ->
  In s (create_core_state_space sp) -> In s (create_core_state_space sp') -> dense_combination grid d ctx ->
  value_at ss ev s d v -> value_at ss' ev' s d v' -> (v <= v')%R.
Proof. exact longer_horizon. Qed.
Print Assumptions C115_longer_horizon.

(** Another choice can decrease it, since the draws depend on the number of choices. *)
Theorem C115_more_choices_refuted : exists sp neg neg' k grid ss ss' inp ev ev' s v v',
  standard_model sp neg k grid ss inp /\ standard_model sp neg' k grid ss' inp /\
  (forall ctx s c, available (choice_set_of sp (process sp (S k) neg) ctx s) c ->
     available (choice_set_of sp (process sp (S k) neg') ctx s) c) /\
  solve_with_backward_induction ss inp (initial_ev ss) = Ok ev /\ solve_with_backward_induction ss' inp (initial_ev ss') = Ok ev' /\
  value_at ss ev s None v /\ value_at ss' ev' s None v' /\ (v' < v)%R.
Proof. exact more_choices_lower_value. Qed.
Print Assumptions C115_more_choices_refuted.

Example C115_example_future : standard_model ex_sp (fun _ => None) 0 ex_grid ex_ss ex_inp /\
  standard_model ex_sp (fun _ => None) 0 ex_grid ex_ss ex_other /\
  In (mkState 1 [0] []) (create_core_state_space ex_sp) /\
  agree_in (fun p => cs_period (mkState 1 [0] []) <= p) (Some [1]) ex_inp ex_other /\ in_base ex_inp 2 0 <> in_base ex_other 2 0.
Proof.
  split; [exact ex_standard|]. split; [exact ex_other_standard|].
  split; [apply (in_by_compute _ core_state_eq_dec); vm_compute; reflexivity|].
  split; [apply ex_other_agrees|]. cbn. intros E. discriminate E.
Qed.
Example C115_example_horizon : standard_model one_sp one_neg 0 [] one_ss (one_inp 2) /\
  standard_model two_sp one_neg 0 [] two_ss (one_inp 2) /\ sp_nperiods one_sp <= sp_nperiods two_sp /\
  same_choices one_sp one_neg 0 two_sp one_neg 0 None /\ agree_in (fun p => p < sp_nperiods one_sp) None (one_inp 2) (one_inp 2) /\
  In one_state (create_core_state_space one_sp) /\ In one_state (create_core_state_space two_sp).
Proof.
  split; [apply one_standard|]. split; [apply two_standard|]. split; [cbn; lia|].
  split; [intros s _; reflexivity|]. split; [constructor; reflexivity|]. split; vm_compute; left; reflexivity.
Qed.
