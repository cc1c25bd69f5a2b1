(** Concrete settings used in the examples about the simulation. *)
From Coq Require Import List Arith Bool Reals Lra Lia Sorted.
From Verif Require Import Base Proof_Base Model_CoreStateSpace Spec_CoreStateSpace
  Proof_CoreStateSpace Model_StateSpace Spec_StateSpace Proof_StateSpace Props_StateSpace
  Model_Solve Spec_Solve Proof_Solve Proof_SolveProps Examples_Solve
  Model_Parallel Spec_Parallel Proof_Parallel Model_Simulate Spec_Simulate Proof_Simulate.
Import ListNotations.
Open Scope R_scope.

Definition ex_si : sim_spec := mkSim ex_params [0%nat; 1%nat] (9 / 10) [/ 2; 0].
(** Two individuals, three periods. *)
Definition ex_ids : list nat := [3%nat; 7%nat].
Definition ex_draws (n : nat) : list (list R) := map (fun i => [INR i; 1]) (seq 0 n).
Definition ex_df : frame individual :=
  [((3%nat, 0%nat), mkInd (mkState 0 [0%nat] []) [1%nat]);
   ((7%nat, 0%nat), mkInd (mkState 0 [1%nat] []) [0%nat])].

Lemma ex_draws_shape : forall n, draws_shape n 2 (ex_draws n).
Proof.
  intros n. split; [unfold ex_draws; rewrite map_length, seq_length; reflexivity|].
  intros row H. apply in_map_iff in H. destruct H as [i [<- _]]. reflexivity.
Qed.

Lemma ex_choice_exists : forall s x, In s (create_core_state_space ex_sp) -> In (i_dense x) ex_grid ->
  exists c, available (choice_set_of ex_sp (process ex_sp 1 (fun _ => None)) (context ex_grid x) s) c.
Proof.
  intros s x Hs Hx. exists 1%nat.
  assert (A : forallb (fun s => forallb (fun d =>
      match nth_error (choice_set_of ex_sp (process ex_sp 1 (fun _ => None)) (Some d) s) 1 with
      | Some true => true | _ => false end) ex_grid) (create_core_state_space ex_sp) = true)
    by (vm_compute; reflexivity).
  rewrite forallb_forall in A. specialize (A s Hs). rewrite forallb_forall in A. specialize (A _ Hx).
  unfold available. change (context ex_grid x) with (Some (i_dense x)).
  destruct (nth_error _ 1) as [[|]|]; [reflexivity|discriminate|discriminate].
Qed.

Lemma ex_in_model : forall t e d, In (mkState t [e] []) (create_core_state_space ex_sp) ->
  In [d] ex_grid -> in_model (create_core_state_space ex_sp) ex_grid t (mkInd (mkState t [e] []) [d]).
Proof. intros t e d H1 H2. split; [exact H1|]. split; [reflexivity|exact H2]. Qed.

Lemma ex_simulation : simulation_setup ex_sp (fun _ => None) 0 ex_grid ex_ss ex_inp (initial_ev ex_ss)
  ex_si (fun l => l) 3 ex_ids (ex_draws 6) (ex_draws 6) ex_df.
Proof.
  constructor; try reflexivity.
  - exact ex_standard.
  - apply initial_ev_shape.
  - intros l. apply Permutation.Permutation_refl.
  - simpl. split; [intros y [<-|[]]; lia|]. split; [intros y []|exact I].
  - discriminate.
  - apply ex_draws_shape.
  - apply ex_draws_shape.
  - intros i x [E|[E|[]]]; injection E as _ <-; apply ex_in_model;
      ((apply (in_by_compute _ core_state_eq_dec); vm_compute; reflexivity)
       || (apply (in_by_compute _ (list_eq_dec Nat.eq_dec)); vm_compute; reflexivity)).
  - intros s x Hs Hx. apply ex_choice_exists; [exact Hs|exact Hx].
Qed.

(** The same with the solution of the model. *)
Lemma ex_solved : exists ev, solve_with_backward_induction ex_ss ex_inp (initial_ev ex_ss) = Ok ev /\
  simulation_setup ex_sp (fun _ => None) 0 ex_grid ex_ss ex_inp ev
    ex_si (fun l => l) 3 ex_ids (ex_draws 6) (ex_draws 6) ex_df.
Proof.
  pose proof ex_standard as SM.
  destruct (backward_induction (sp_nchoices ex_sp) (sp_nperiods ex_sp) (create_core_state_space ex_sp)
      (choice_set_of ex_sp (process ex_sp 1 (fun _ => None))) ex_grid ex_ss ex_inp)
    with (ev0 := initial_ev ex_ss) as [ev [E [SH _]]].
  - apply core_nodup.
  - exact (sm_closed _ _ _ _ _ _ SM).
  - exact (sm_collisions _ _ _ _ _ _ SM).
  - exact (sm_created _ _ _ _ _ _ SM).
  - apply (standard_wf_inputs _ _ _ _ _ _ SM).
  - intros s Hs. apply (core_periods ex_sp); [exact (sm_wf _ _ _ _ _ _ SM)|exact (sm_lags _ _ _ _ _ _ SM)|exact Hs].
  - exact (sm_points _ _ _ _ _ _ SM).
  - simpl. lra.
  - apply initial_ev_shape.
  - exists ev. split; [exact E|]. destruct ex_simulation. constructor; assumption.
Qed.

(** One-step-ahead: individual 2 is observed twice, individual 5 once. *)
Definition ex_data : frame individual :=
  [((2%nat, 0%nat), mkInd (mkState 0 [0%nat] []) [1%nat]);
   ((2%nat, 1%nat), mkInd (mkState 1 [1%nat] []) [1%nat]);
   ((5%nat, 1%nat), mkInd (mkState 1 [0%nat] []) [0%nat])].

Lemma ex_one_step : one_step_setup ex_sp (fun _ => None) 0 ex_grid ex_ss ex_inp (initial_ev ex_ss)
  ex_si (fun l => l) 2 (ex_draws 3) (ex_draws 3) ex_data.
Proof.
  constructor; try reflexivity.
  - exact ex_standard.
  - apply initial_ev_shape.
  - intros l. apply Permutation.Permutation_refl.
  - unfold ordered_frame, ex_data, index_lt. simpl. repeat constructor; simpl; lia.
  - apply ex_draws_shape.
  - apply ex_draws_shape.
  - intros id t x [E|[E|[E|[]]]]; injection E as <- <- <-; (split; [lia|]); apply ex_in_model;
      ((apply (in_by_compute _ core_state_eq_dec); vm_compute; reflexivity)
       || (apply (in_by_compute _ (list_eq_dec Nat.eq_dec)); vm_compute; reflexivity)).
  - intros [|[|t]] Ht; [exists 2%nat; eexists; left; reflexivity|exists 2%nat; eexists; right; left; reflexivity|lia].
  - intros s x Hs Hx. apply ex_choice_exists; [exact Hs|exact Hx].
Qed.
