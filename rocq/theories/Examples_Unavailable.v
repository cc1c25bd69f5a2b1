(** Concrete models used in the examples about choices that are never available. *)
From Coq Require Import List Arith ZArith Bool Reals Lra Lia.
From Coq Require Import Strings.String.
From Verif Require Import Base Proof_Base Model_CoreStateSpace Spec_CoreStateSpace Proof_CoreStateSpace
  Model_StateSpace Spec_StateSpace Proof_StateSpace Props_StateSpace Model_Solve Spec_Solve Proof_Solve Proof_SolveProps Examples_Solve
  Spec_Unavailable Model_Draws Spec_Draws.
Import ListNotations.
Local Open Scope list_scope.
Local Open Scope nat_scope.

(** A choice with wage and experience, which is listed first and forbidden. *)
Definition un_sp : core_spec := mkSpec 3 [[0]; [0; 1]] [2; 1] 3 0 [].
Definition un_neg : neg_set := fun c => if Nat.eqb c 0 then Some [fun _ => Some (fun _ => true)] else None.
Definition un_csf : cs_fun := choice_set_of un_sp (process un_sp 1 un_neg).
Definition un_params : params :=
  mkParams (fun c => match c with 0 => Some [(1, 7%R)] | 1 => Some [(0, (/ 2)%R)] | _ => None end)
           (fun c => if Nat.eqb c 2 then Some [(1, 1%R); (0, (-1)%R)] else None)
           (19 / 20) [[1; 0; 0]; [5; 1; 0]; [3; / 2; 1]]%R 2.
Definition un_inp : inputs :=
  mkInputs un_params [0; 1; 2]
    (fun ctx s i => match i with O => INR (nth 1 (cs_exp s) 0) | _ => match ctx with Some [x] => INR x | _ => 0%R end end)
    (fun n p => [repeat 0%R n; repeat 1%R n]) 50 (fun _ _ => OtherError).
Definition un_ss : state_space := Eval vm_compute in
  get_ok (create_state_space 3 (create_core_state_space un_sp) un_csf ex_grid).

Lemma un_standard : standard_model un_sp un_neg 0 ex_grid un_ss un_inp.
Proof.
  constructor.
  - unfold un_sp. solve_wf.
  - simpl. lia.
  - apply model_closed; [unfold un_sp; solve_wf|simpl; lia|reflexivity].
  - intros vec s1 s2 _ _ _ _ H. exact H.
  - vm_compute. reflexivity.
  - reflexivity.
  - split; [reflexivity|]. intros row [<-|[<-|[<-|[]]]]; reflexivity.
  - intros p. left. apply Nat.leb_le. destruct p as [|[|[|p]]]; vm_compute; reflexivity.
Qed.

Lemma un_more : forall x, one_more_choice (create_core_state_space ex_sp) 1 0 (Some 0) ex_csf ex_inp (Some [x]) un_csf un_inp (Some [x]).
Proof.
  intros x. constructor.
  - lia.
  - reflexivity.
  - reflexivity.
  - reflexivity.
  - reflexivity.
  - intros s H. vm_compute in H. repeat (destruct H as [<-|H]; [reflexivity|]). destruct H.
  - intros s [|[|c]] _ _; reflexivity.
  - intros s [|[|c]] _ _; reflexivity.
Qed.

(** The draws of the simulation of the other choices are different numbers of the stream. *)
Definition un_src : sources nat := mkSources (fun _ i => i) (fun _ _ _ _ _ _ => 0) false.
Lemma un_draws : exists (src : sources nat) n c j seed draws draws' i a,
  create_base_draws2 src n c seed "random" = Ok draws /\ create_base_draws2 src n (S c) seed "random" = Ok draws' /\
  i < n /\ a < c /\ entry draws i a <> entry draws' i (new_code j a).
Proof.
  exists un_src, 2, 2, 2, 0%Z. do 2 eexists. exists 1, 0. split; [reflexivity|]. split; [reflexivity|].
  split; [lia|]. split; [lia|]. vm_compute. discriminate.
Qed.
