(** Concrete models used in the examples about variables that do not matter. *)
From Coq Require Import List Arith Bool Reals Lra Lia.
From Verif Require Import Base Proof_Base Model_CoreStateSpace Spec_CoreStateSpace Proof_CoreStateSpace
  Model_StateSpace Spec_StateSpace Proof_StateSpace Props_StateSpace Model_Solve Spec_Solve Proof_Solve Proof_SolveProps Examples_Solve
  Model_Exogenous Spec_Exogenous Examples_Exogenous Spec_Irrelevant.
Import ListNotations.
Local Open Scope nat_scope.

(** Two observables with two and three levels, of which only the first affects the rewards. *)
Definition irr_ss : state_space := Eval vm_compute in
  get_ok (create_state_space 3 (create_core_state_space ex_sp) ex_csf exo_grid).
Lemma irr_standard : standard_model ex_sp (fun _ => None) 0 exo_grid irr_ss exo_inp.
Proof.
  constructor.
  - exact ex_sp_wf.
  - simpl. lia.
  - apply model_closed; [exact ex_sp_wf|simpl; lia|reflexivity].
  - intros vec s1 s2 _ _ _ _ H. exact H.
  - vm_compute. reflexivity.
  - reflexivity.
  - split; [reflexivity|]. intros row [<-|[<-|[]]]; reflexivity.
  - intros p. left. apply Nat.leb_le. destruct p as [|[|[|p]]]; vm_compute; reflexivity.
Qed.
Lemma irr_same : forall x e e', same_decisions (create_core_state_space ex_sp) ex_csf exo_inp (Some ([x] ++ e)) ex_csf exo_inp (Some ([x] ++ e')).
Proof. 
  intros x e e'. constructor; try reflexivity.
  - intros s [|[|c]] _ _; reflexivity.
  - intros s [|[|c]] _ _; reflexivity.
Qed.
(** The model of the other examples has the first observable only. *)
Lemma irr_removed : forall x e, same_decisions (create_core_state_space ex_sp) ex_csf exo_inp (Some ([x] ++ e)) ex_csf ex_inp (Some [x]).
Proof. 
  intros x e. constructor; try reflexivity.
  - intros s [|[|c]] _ _; reflexivity.
  - intros s [|[|c]] _ _; reflexivity.
Qed.
