(** Concrete models used in the examples about what the expected values depend on. *)
From Coq Require Import List Arith Bool Reals Lra Lia.
From Verif Require Import Base Proof_Base Model_CoreStateSpace Spec_CoreStateSpace
  Proof_CoreStateSpace Model_StateSpace Spec_StateSpace Proof_StateSpace Props_StateSpace
  Model_Solve Spec_Solve Proof_Solve Proof_Value Proof_Shocks Proof_SolveProps Examples_Solve Spec_Horizon.
Import ListNotations.
Open Scope R_scope.

(** One period and two choices; the second one is never available in the first model. *)
Definition mc_sp : core_spec := mkSpec 1 [] [] 2 0 [].
Definition mc_few : neg_set := fun c => if Nat.eqb c 1 then Some [fun _ => Some (fun _ => true)] else None.
Definition mc_all : neg_set := fun _ => None.
Definition mc_ss (neg : neg_set) : state_space :=
  get_ok (create_state_space 1 (create_core_state_space mc_sp) (choice_set_of mc_sp (process mc_sp 1 neg)) []).
Definition mc_inp : inputs :=
  mkInputs (mkParams (fun _ => None) (fun _ => None) 1 [[1; 0]; [0; 1]] 0) [0%nat; 1%nat]
    (fun _ _ _ => 1) (fun n _ => if Nat.eqb n 1 then [[1]] else [[0; 0]]) 1 (fun _ _ => OtherError).

Lemma mc_few_standard : standard_model mc_sp mc_few 0 [] (mc_ss mc_few) mc_inp.
Proof.
  constructor.
  - unfold mc_sp. solve_wf.
  - simpl. lia.
  - apply model_closed; [unfold mc_sp; solve_wf|simpl; lia|reflexivity].
  - intros vec s1 s2 [].
  - vm_compute. reflexivity.
  - reflexivity.
  - split; [reflexivity|]. intros row [<-|[<-|[]]]; reflexivity.
  - intros p. left. apply Nat.leb_le. destruct p; vm_compute; reflexivity.
Qed.
Lemma mc_all_standard : standard_model mc_sp mc_all 0 [] (mc_ss mc_all) mc_inp.
Proof.
  constructor.
  - unfold mc_sp. solve_wf.
  - simpl. lia.
  - apply model_closed; [unfold mc_sp; solve_wf|simpl; lia|reflexivity].
  - intros vec s1 s2 [].
  - vm_compute. reflexivity.
  - reflexivity.
  - split; [reflexivity|]. intros row [<-|[<-|[]]]; reflexivity.
  - intros p. left. apply Nat.leb_le. destruct p; vm_compute; reflexivity.
Qed.

Lemma more_choices_lower_value : exists sp neg neg' k grid ss ss' inp ev ev' s v v',
  standard_model sp neg k grid ss inp /\ standard_model sp neg' k grid ss' inp /\
  (forall ctx s c, available (choice_set_of sp (process sp (S k) neg) ctx s) c ->
     available (choice_set_of sp (process sp (S k) neg') ctx s) c) /\
  solve_with_backward_induction ss inp (initial_ev ss) = Ok ev /\ solve_with_backward_induction ss' inp (initial_ev ss') = Ok ev' /\
  value_at ss ev s None v /\ value_at ss' ev' s None v' /\ v' < v.
Proof.
  destruct (solve_model _ _ _ _ _ _ _ mc_few_standard ltac:(simpl; lra) (initial_ev_shape _)) as [ev [E H]].
  destruct (solve_model _ _ _ _ _ _ _ mc_all_standard ltac:(simpl; lra) (initial_ev_shape _)) as [ev' [E' H']].
  exists mc_sp, mc_few, mc_all, 0%nat, [], (mc_ss mc_few), (mc_ss mc_all), mc_inp, ev, ev', (mkState 0 [] []), 1, 0.
  assert (I : In (mkState 0 [] []) (create_core_state_space mc_sp)) by (vm_compute; left; reflexivity).
  assert (D : dense_combination [] None None) by (split; reflexivity).
  split; [exact mc_few_standard|]. split; [exact mc_all_standard|]. split.
  { intros ctx s c. unfold available, choice_set_of. intros A. destruct c as [|[|c]]; try (destruct ctx; reflexivity).
    destruct c; discriminate A. }
  split; [exact E|]. split; [exact E'|]. split; [|split; [|lra]].
  - apply (H _ None None I D). cbn. unfold transform_draw, linear_index, nonpec_of, wage_of, mean, max0. cbn.
    unfold Rmax. repeat destruct (Rle_dec _ _); try lra.
  - apply (H' _ None None I D). cbn. unfold transform_draw, linear_index, nonpec_of, wage_of, mean, max0. cbn.
    unfold Rmax. repeat destruct (Rle_dec _ _); try lra.
Qed.

(** Other rewards in the first period only. *)
Definition ex_other : inputs :=
  mkInputs ex_params [0%nat; 1%nat]
    (fun ctx s i => match cs_period s with
                    | O => 7
                    | _ => match i with O => INR (nth 0 (cs_exp s) 0%nat)
                                      | _ => match ctx with Some [x] => INR x | _ => 0 end end end)
    (fun n p => match p with O => [repeat 3 n] | _ => [repeat 0 n; repeat 1 n] end) 50 (fun _ _ => OtherError).
Lemma ex_other_standard : standard_model ex_sp (fun _ => None) 0 ex_grid ex_ss ex_other.
Proof. destruct ex_standard as [H1 H2 H3 H4 H5 H6 H7 H8]. constructor; assumption. Qed.
Lemma ex_other_agrees : forall ctx, agree_in (fun p => (1 <= p)%nat) ctx ex_inp ex_other.
Proof.
  intros ctx. constructor; try reflexivity.
  - intros s c Hs. destruct s as [[|p] e l]; [cbn in Hs; lia|reflexivity].
  - intros s c Hs. destruct s as [[|p] e l]; [cbn in Hs; lia|reflexivity].
  - intros n [|p] Hp; [lia|reflexivity].
Qed.

(** Two periods instead of one. *)
Definition two_sp : core_spec := mkSpec 2 [] [] 1 0 [].
Definition two_ss : state_space :=
  get_ok (create_state_space 2 (create_core_state_space two_sp) (choice_set_of two_sp (process two_sp 1 one_neg)) []).
Lemma two_standard : forall a, standard_model two_sp one_neg 0 [] two_ss (one_inp a).
Proof.
  intros a. constructor.
  - unfold two_sp. solve_wf.
  - simpl. lia.
  - apply model_closed; [unfold two_sp; solve_wf|simpl; lia|reflexivity].
  - intros vec s1 s2 [].
  - vm_compute. reflexivity.
  - reflexivity.
  - split; [reflexivity|]. intros row [<-|[]]; reflexivity.
  - intros p. left. apply Nat.leb_le. destruct p as [|[|p]]; vm_compute; reflexivity.
Qed.
