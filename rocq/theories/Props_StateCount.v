(** C106: the number of core states follows from the numbers of periods and choices. *)
From Coq Require Import List Arith Bool Lia.
From Verif Require Import Base Model_CoreStateSpace Spec_CoreStateSpace Spec_StateCount Proof_StateCount.
Import ListNotations.

(** Without restrictions, period [t] has as many states as there are ways to distribute at
    most [t] periods over the choices with experience, times the lagged choices. *)
Theorem C106_states_of_a_period : forall sp t, wf_spec sp -> sp_filters sp = [] -> unrestricted sp -> t < sp_nperiods sp ->
  length (states_in t (create_core_state_space sp)) = choose (t + n_experiences sp) (n_experiences sp) * n_lagged sp.
Proof. exact count_exact. Qed.
Print Assumptions C106_states_of_a_period.

(** All periods together. *)
Theorem C106_states_of_the_model : forall sp, wf_spec sp -> sp_filters sp = [] -> unrestricted sp ->
  length (create_core_state_space sp) = choose (sp_nperiods sp + n_experiences sp) (S (n_experiences sp)) * n_lagged sp.
Proof. exact total_exact. Qed.
Print Assumptions C106_states_of_the_model.

(** With any filters, maxima and initial experiences, there are at most as many states for
    each combination of initial experiences. *)
Theorem C106_bound_of_a_period : forall sp t, wf_spec sp ->
  length (states_in t (create_core_state_space sp)) <=
  n_initial sp * (choose (t + n_experiences sp) (n_experiences sp) * n_lagged sp).
Proof. exact count_bound. Qed.
Print Assumptions C106_bound_of_a_period.

Theorem C106_bound_of_the_model : forall sp, wf_spec sp ->
  length (create_core_state_space sp) <=
  n_initial sp * choose (sp_nperiods sp + n_experiences sp) (S (n_experiences sp)) * n_lagged sp.
Proof. exact total_bound. Qed.
Print Assumptions C106_bound_of_the_model.

(** Two choices with experience and one without, four periods, one lagged choice. *)
Definition count_spec : core_spec := mkSpec 4 [[0]; [2]] [3; 5] 3 1 [].

Example C106_example :
  wf_spec count_spec /\ sp_filters count_spec = [] /\ unrestricted count_spec /\
  map (fun t => length (states_in t (create_core_state_space count_spec))) [0; 1; 2; 3] = [3; 9; 18; 30] /\
  length (create_core_state_space count_spec) = 60 /\ choose 6 3 = 20.
Proof.
  split; [|split; [|split; [|split; [|split]]]]; try reflexivity.
  - unfold wf_spec. cbn. repeat split; try lia; intuition (subst; cbn in *; try discriminate; intuition lia).
  - unfold unrestricted. cbn. repeat constructor; [exists 0|exists 2]; split; try reflexivity; lia.
Qed.

(** Two initial levels and a binding maximum: the bound is not attained. *)
Definition bound_spec : core_spec := mkSpec 4 [[0; 2]; [0]] [5; 2] 3 1 [].

Example C106_example_bound :
  wf_spec bound_spec /\ n_initial bound_spec = 2 /\
  length (create_core_state_space bound_spec) < n_initial bound_spec * choose 6 3 * 3 /\
  ~ unrestricted bound_spec.
Proof.
  split; [|split; [|split]]; try reflexivity.
  - unfold wf_spec. cbn. repeat split; try lia; intuition (subst; cbn in *; try discriminate; intuition lia).
  - apply Nat.ltb_lt. vm_compute. reflexivity.
  - unfold unrestricted. cbn. intros H. inversion H as [|? ? ? ? [x [E _]]]. discriminate.
Qed.
