(** Property theorems: variables that do not matter. *)
From Coq Require Import List Arith Bool Reals Lra Lia.
From Verif Require Import Base Proof_Base Model_CoreStateSpace Spec_CoreStateSpace Model_StateSpace Spec_StateSpace Props_StateSpace
  Model_Solve Spec_Solve Proof_Solve Examples_Solve Model_Exogenous Spec_Exogenous Examples_Exogenous Spec_Irrelevant Proof_Irrelevant Examples_Irrelevant.
Import ListNotations.
Local Open Scope nat_scope.

(** ** C122 *)
(** The two models may be the same model in two combinations of observables and types, or a
    model with and a model without an observable. *)
Theorem C122_observables_and_types : forall sp neg k grid ss inp neg' k' grid' ss' inp' ev0 ev0' ev ev' s d d' ctx ctx' v v',
  standard_model sp neg k grid ss inp -> standard_model sp neg' k' grid' ss' inp' ->
  same_decisions (create_core_state_space sp) (choice_set_of sp (process sp (S k) neg)) inp ctx
    (choice_set_of sp (process sp (S k') neg')) inp' ctx' ->
  ev_shape ss ev0 -> ev_shape ss' ev0' ->
  solve_with_backward_induction ss inp ev0 = Ok ev -> solve_with_backward_induction ss' inp' ev0' = Ok ev' ->
  In s (create_core_state_space sp) -> dense_combination grid d ctx -> dense_combination grid' d' ctx' ->
  value_at ss ev s d v -> value_at ss' ev' s d' v' -> v = v'.
Proof. exact irrelevant_dense. Qed.
Print Assumptions C122_observables_and_types.

(** A model with exogenous processes that affect neither choices nor rewards has the values of
    the model without the processes. *)
Theorem C122_exogenous_processes : forall sp neg k grid procs sx inp neg' k' grid' ss inp' ev0 ev0' ev ev' s static e d ctx v v',
  exogenous_model sp neg k grid procs sx inp -> standard_model sp neg' k' grid' ss inp' -> p_delta (in_params inp) <> 0%R ->
  (forall e, combination (levels_of procs) e ->
     same_decisions (create_core_state_space sp) (choice_set_of sp (process sp (S k) neg)) inp (Some (static ++ e))
       (choice_set_of sp (process sp (S k') neg')) inp' ctx) ->
  ev_shape sx ev0 -> ev_shape ss ev0' ->
  solve_exog sx procs inp ev0 = Ok ev -> solve_with_backward_induction ss inp' ev0' = Ok ev' ->
  In s (create_core_state_space sp) -> combination (levels_of procs) e -> In (static ++ e) grid -> dense_combination grid' d ctx ->
  value_in sx ev (static ++ e) s v -> value_at ss ev' s d v' -> v = v'.
Proof. exact irrelevant_process. Qed.
Print Assumptions C122_exogenous_processes.

Theorem C122_levels_of_processes : forall sp neg k grid procs sx inp ev0 ev s static e e' v v',
  exogenous_model sp neg k grid procs sx inp -> p_delta (in_params inp) <> 0%R ->
  (forall e e', combination (levels_of procs) e -> combination (levels_of procs) e' ->
     same_decisions (create_core_state_space sp) (choice_set_of sp (process sp (S k) neg)) inp (Some (static ++ e))
       (choice_set_of sp (process sp (S k) neg)) inp (Some (static ++ e'))) ->
  ev_shape sx ev0 -> solve_exog sx procs inp ev0 = Ok ev ->
  In s (create_core_state_space sp) -> combination (levels_of procs) e -> combination (levels_of procs) e' ->
  In (static ++ e) grid -> In (static ++ e') grid ->
  value_in sx ev (static ++ e) s v -> value_in sx ev (static ++ e') s v' -> v = v'.
Proof. exact irrelevant_level. Qed.
Print Assumptions C122_levels_of_processes.

Example C122_example : standard_model ex_sp (fun _ => None) 0 exo_grid irr_ss exo_inp /\
  standard_model ex_sp (fun _ => None) 0 ex_grid ex_ss ex_inp /\
  exogenous_model ex_sp (fun _ => None) 0 exo_grid exo_procs exo_ss exo_inp /\
  (forall x e e', same_decisions (create_core_state_space ex_sp) ex_csf exo_inp (Some ([x] ++ e)) ex_csf exo_inp (Some ([x] ++ e'))) /\
  (forall x e, same_decisions (create_core_state_space ex_sp) ex_csf exo_inp (Some ([x] ++ e)) ex_csf ex_inp (Some [x])) /\
  In ([1] ++ [2]) exo_grid /\ combination (levels_of exo_procs) [2] /\ dense_combination ex_grid (Some 1) (Some [1]) /\
  p_delta (in_params exo_inp) <> 0%R.
Proof.
  split; [exact irr_standard|]. split; [exact ex_standard|]. split; [exact exo_model|].
  split; [exact irr_same|]. split; [exact irr_removed|].
  split; [vm_compute; tauto|]. split; [repeat constructor|].
  split; [exists [1]; split; reflexivity|]. cbn. lra.
Qed.
