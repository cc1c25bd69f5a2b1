(** A model with a static observable with two levels and an exogenous process with three
    levels, used in the examples about exogenous processes. *)
From Coq Require Import List Arith Bool Reals Lra Lia.
From Verif Require Import Base Proof_Base Model_CoreStateSpace Spec_CoreStateSpace
  Proof_CoreStateSpace Model_StateSpace Spec_StateSpace Proof_StateSpace Props_StateSpace
  Model_Solve Spec_Solve Examples_Solve Model_Exogenous Spec_Exogenous.
Import ListNotations.
Open Scope R_scope.

Definition exo_grid : list (list nat) := dense_state_space_grid [2%nat; 3%nat] 0.
(** Utilities of the levels: 0, the static observable, and the exogenous variable. *)
Definition exo_procs : processes := [[[]; [(1%nat, 1)]; [(2%nat, 1)]]].
Definition exo_inp : inputs :=
  mkInputs ex_params [0%nat; 1%nat]
    (fun ctx s i => match i with
                    | O => INR (nth 0 (cs_exp s) 0%nat)
                    | S j => match ctx with Some v => INR (nth j v 0%nat) | None => 0 end end)
    (fun n p => [repeat 0 n; repeat 1 n]) 50 (fun _ _ => OtherError).
Definition exo_ss : state_space := Eval vm_compute in
  get_ok (create_state_space_exog 3 (create_core_state_space ex_sp) ex_csf exo_grid [3%nat]).
Lemma exo_created :
  create_state_space_exog 3 (create_core_state_space ex_sp) ex_csf exo_grid [3%nat] = Ok exo_ss.
Proof. vm_compute. reflexivity. Qed.

Lemma exo_no_interpolation : forall p, solved_exactly exo_ss 50 p.
Proof.
  intros p. left. apply Nat.leb_le. destruct p as [|[|[|p]]]; vm_compute; reflexivity.
Qed.

Lemma exo_model : exogenous_model ex_sp (fun _ => None) 0 exo_grid exo_procs exo_ss exo_inp.
Proof.
  constructor.
  - exact ex_sp_wf.
  - simpl. lia.
  - apply model_closed; [exact ex_sp_wf|simpl; lia|reflexivity].
  - vm_compute. discriminate.
  - unfold exo_grid. vm_compute. repeat constructor; simpl; intuition congruence.
  - discriminate.
  - intros vec s1 s2 _ _ _ _ H. exact H.
  - exact exo_created.
  - reflexivity.
  - split; [reflexivity|]. intros row [<-|[<-|[]]]; reflexivity.
  - exact exo_no_interpolation.
Qed.

(** Choice sets that differ across the levels of the process: the first choice is not
    available at the second level. *)
Definition exo_neg : neg_set := fun c =>
  if Nat.eqb c 0 then
    Some [fun ctx => match ctx with
                     | Some [1%nat] => Some (fun _ => true)
                     | Some _ => Some (fun _ => false)
                     | None => None
                     end]
  else None.
Definition exo_sp : core_spec := mkSpec 2 [[0%nat]] [1%nat] 2 0 [].
Definition exo_csf : cs_fun := choice_set_of exo_sp (process exo_sp 1 exo_neg).
Definition exo_ss2 : state_space := Eval vm_compute in
  get_ok (create_state_space_exog 2 (create_core_state_space exo_sp) exo_csf [[0%nat]; [1%nat]] [2%nat]).
Lemma exo_created2 :
  create_state_space_exog 2 (create_core_state_space exo_sp) exo_csf [[0%nat]; [1%nat]] [2%nat] = Ok exo_ss2.
Proof. vm_compute. reflexivity. Qed.
