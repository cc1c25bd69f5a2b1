(** A simulation with an exogenous process, used in the examples. *)
From Coq Require Import List Arith Bool Reals Lra Lia.
From Verif Require Import Base Proof_Base Model_CoreStateSpace Spec_CoreStateSpace Proof_CoreStateSpace
  Model_StateSpace Spec_StateSpace Proof_StateSpace Props_StateSpace Model_Solve Spec_Solve Proof_Solve Proof_SolveProps Examples_Solve
  Model_Parallel Spec_Parallel Proof_Parallel Model_Simulate Spec_Simulate Proof_Simulate Examples_Simulate
  Model_Exogenous Spec_Exogenous Proof_ExogenousInduction Proof_ExogenousProps Examples_Exogenous
  Model_SimulateExog Spec_SimulateExog Proof_SimulateExog.
Import ListNotations.
Open Scope R_scope.

(** Dense variables: the static observable and the exogenous variable. *)
Definition exo_df : frame individual :=
  [((3%nat, 0%nat), mkInd (mkState 0 [0%nat] []) [1%nat; 0%nat]);
   ((7%nat, 0%nat), mkInd (mkState 0 [1%nat] []) [0%nat; 2%nat])].
Definition exo_draw : nat -> index -> R := fun t i => / INR (2 + t).

Lemma exo_simulation_of : forall ev, ev_shape exo_ss ev ->
  exogenous_setup ex_sp (fun _ => None) 0 exo_grid exo_procs exo_ss exo_inp ev
    ex_si (fun l => l) exo_draw 3 ex_ids (ex_draws 6) (ex_draws 6) exo_df.
Proof.
  intros ev SH. constructor; try reflexivity.
  - exact exo_model.
  - exact SH.
  - intros l. apply Permutation.Permutation_refl.
  - intros t i. unfold exo_draw. assert (H : 2 <= INR (2 + t)) by (rewrite plus_INR; simpl; assert (Z := pos_INR t); lra).
    split; [left; apply Rinv_0_lt_compat; lra|]. apply Rle_lt_trans with (/ 2); [|lra].
    apply Rinv_le_contravar; lra.
  - simpl. split; [intros y [<-|[]]; lia|]. split; [intros y []|exact I].
  - discriminate.
  - apply ex_draws_shape.
  - apply ex_draws_shape.
  - intros i x [E|[E|[]]]; injection E as _ <-; (split; [|split; [reflexivity|]]);
      ((apply (in_by_compute _ core_state_eq_dec); vm_compute; reflexivity)
       || (apply (in_by_compute _ (list_eq_dec Nat.eq_dec)); vm_compute; reflexivity)).
  - intros s vec Hs Hv. exists 1%nat.
    assert (A : forallb (fun s => forallb (fun d =>
      match nth_error (choice_set_of ex_sp (process ex_sp 1 (fun _ => None)) (Some d) s) 1 with
      | Some true => true | _ => false end) exo_grid) (create_core_state_space ex_sp) = true)
      by (vm_compute; reflexivity).
    rewrite forallb_forall in A. specialize (A s Hs). rewrite forallb_forall in A. specialize (A _ Hv).
    unfold available. destruct (nth_error _ 1) as [[|]|]; [reflexivity|discriminate|discriminate].
Qed.

Lemma exo_simulation : exogenous_setup ex_sp (fun _ => None) 0 exo_grid exo_procs exo_ss exo_inp (initial_ev exo_ss)
    ex_si (fun l => l) exo_draw 3 ex_ids (ex_draws 6) (ex_draws 6) exo_df.
Proof. apply exo_simulation_of. apply initial_ev_shape. Qed.

(** The same with the solution of the model. *)
Lemma exo_solved : exists ev, solve_exog exo_ss exo_procs exo_inp (initial_ev exo_ss) = Ok ev /\
  exogenous_setup ex_sp (fun _ => None) 0 exo_grid exo_procs exo_ss exo_inp ev
    ex_si (fun l => l) exo_draw 3 ex_ids (ex_draws 6) (ex_draws 6) exo_df.
Proof.
  destruct (solve_exog_shape _ _ _ _ _ _ _ (initial_ev exo_ss) exo_model) as [ev [E SH]].
  - simpl. lra.
  - apply initial_ev_shape.
  - exists ev. split; [exact E|]. apply exo_simulation_of. exact SH.
Qed.
