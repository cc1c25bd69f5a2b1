(** Property theorems: choices that are never available. *)
From Coq Require Import List Arith ZArith Bool Reals Lra Lia.
From Coq Require Import Strings.String.
From Verif Require Import Base Model_CoreStateSpace Spec_CoreStateSpace Model_StateSpace Spec_StateSpace Props_StateSpace
  Model_Solve Spec_Solve Examples_Solve Model_Draws Spec_Draws Spec_Unavailable Proof_Unavailable Examples_Unavailable.
Import ListNotations.
Local Open Scope list_scope.
Local Open Scope nat_scope.

(** ** C124 *)
(** The states of the smaller model have the same expected values in the larger one. *)
Theorem C124_never_available : forall sp neg k grid ss inp sp' neg' k' grid' ss' inp' ev0 ev0' ev ev' j e s d d' ctx ctx' v v',
  standard_model sp neg k grid ss inp -> standard_model sp' neg' k' grid' ss' inp' ->
  sp_nperiods sp = sp_nperiods sp' -> j <= sp_nchoices sp ->
  one_more_choice (create_core_state_space sp) (List.length (sp_starts sp)) j e (choice_set_of sp (process sp (S k) neg)) inp ctx
    (choice_set_of sp' (process sp' (S k') neg')) inp' ctx' ->
  ev_shape ss ev0 -> ev_shape ss' ev0' ->
  solve_with_backward_induction ss inp ev0 = Ok ev -> solve_with_backward_induction ss' inp' ev0' = Ok ev' ->
  In s (create_core_state_space sp) -> In (widen j e s) (create_core_state_space sp') ->
  dense_combination grid d ctx -> dense_combination grid' d' ctx' ->
  value_at ss ev s d v -> value_at ss' ev' (widen j e s) d' v' -> v = v'.
Proof. exact never_available. Qed.
Print Assumptions C124_never_available.

(** Simulated individuals do get other draws. *)
Theorem C124_draws_of_the_simulation_refuted : exists (src : sources nat) n c j seed draws draws' i a,
  create_base_draws2 src n c seed "random" = Ok draws /\ create_base_draws2 src n (S c) seed "random" = Ok draws' /\
  i < n /\ a < c /\ entry draws i a <> entry draws' i (new_code j a).
Proof. exact un_draws. Qed.
Print Assumptions C124_draws_of_the_simulation_refuted.

(** The new choice is listed first, has a wage and experience. *)
Example C124_example : standard_model ex_sp (fun _ => None) 0 ex_grid ex_ss ex_inp /\
  standard_model un_sp un_neg 0 ex_grid un_ss un_inp /\ sp_nperiods ex_sp = sp_nperiods un_sp /\
  one_more_choice (create_core_state_space ex_sp) (List.length (sp_starts ex_sp)) 0 (Some 0) ex_csf ex_inp (Some [1]) un_csf un_inp (Some [1]) /\
  (forall s, In s (create_core_state_space ex_sp) -> In (widen 0 (Some 0) s) (create_core_state_space un_sp)) /\
  List.length (create_core_state_space ex_sp) < List.length (create_core_state_space un_sp) /\
  dense_combination ex_grid (Some 1) (Some [1]).
Proof.
  split; [exact ex_standard|]. split; [exact un_standard|]. split; [reflexivity|]. split; [exact (un_more 1)|].
  split; [|split; [apply Nat.ltb_lt; vm_compute; reflexivity|exists [1]; split; reflexivity]].
  intros s H. vm_compute in H. vm_compute. repeat (destruct H as [<-|H]; [tauto|]). destruct H.
Qed.
