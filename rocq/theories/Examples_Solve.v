(** Concrete models used in the examples and refutations about the solution. *)
From Coq Require Import List Arith Bool Reals Lra Lia.
From Verif Require Import Base Proof_Base Model_CoreStateSpace Spec_CoreStateSpace
  Proof_CoreStateSpace Model_StateSpace Spec_StateSpace Proof_StateSpace Props_StateSpace
  Model_Solve Spec_Solve Proof_Solve Proof_Value Proof_Shocks Proof_SolveProps Model_Calls Proof_Calls.
Import ListNotations.
Open Scope R_scope.

(** Two choices, the first pays a wage; correlated shocks; two draws. *)
Definition ex_params : params :=
  mkParams (fun c => if Nat.eqb c 0 then Some [(0%nat, / 2)] else None)
           (fun c => if Nat.eqb c 1 then Some [(1%nat, 1); (0%nat, -1)] else None)
           (19 / 20) [[1; 0]; [/ 2; 1]] 1.
Definition ex_inp : inputs :=
  mkInputs ex_params [0%nat; 1%nat]
    (fun ctx s i => match i with O => INR (nth 0 (cs_exp s) 0%nat)
                              | _ => match ctx with Some [x] => INR x | _ => 0 end end)
    (fun n p => [repeat 0 n; repeat 1 n]) 50 (fun _ _ => OtherError).

Lemma ex_no_interpolation : forall p, solved_exactly ex_ss 50 p.
Proof.
  intros p. left. apply Nat.leb_le. destruct p as [|[|[|p]]]; vm_compute; reflexivity.
Qed.

Lemma ex_standard : standard_model ex_sp (fun _ => None) 0 ex_grid ex_ss ex_inp.
Proof.
  constructor.
  - exact ex_sp_wf.
  - simpl. lia.
  - apply model_closed; [exact ex_sp_wf|simpl; lia|reflexivity].
  - intros vec s1 s2 _ _ _ _ H. exact H.
  - exact ex_ss_created.
  - reflexivity.
  - split; [reflexivity|]. intros row [<-|[<-|[]]]; reflexivity.
  - exact ex_no_interpolation.
Qed.

(** One period, one choice with reward [a]. *)
Definition one_sp : core_spec := mkSpec 1 [] [] 1 0 [].
Definition one_neg : neg_set := fun _ => None.
Definition one_ss : state_space := Eval vm_compute in
  get_ok (create_state_space 1 (create_core_state_space one_sp)
            (choice_set_of one_sp (process one_sp 1 one_neg)) []).
Definition one_inp (a : R) : inputs :=
  mkInputs (mkParams (fun _ => None) (fun _ => Some [(0%nat, a)]) 1 [[1]] 0) [0%nat]
    (fun _ _ _ => 1) (fun _ _ => [[0]]) 1 (fun _ _ => OtherError).
Definition one_state : core_state := mkState 0 [] [].

Lemma one_standard : forall a, standard_model one_sp one_neg 0 [] one_ss (one_inp a).
Proof.
  intros a. constructor.
  - unfold one_sp. solve_wf.
  - simpl. lia.
  - apply model_closed; [unfold one_sp; solve_wf|simpl; lia|reflexivity].
  - intros vec s1 s2 [].
  - vm_compute. reflexivity.
  - reflexivity.
  - split; [reflexivity|]. intros row [<-|[]]; reflexivity.
  - intros p. left. apply Nat.leb_le. destruct p; vm_compute; reflexivity.
Qed.

Lemma one_located : located one_ss 0 0 one_state None.
Proof.
  exists (0%nat, [true], None), 0%nat. split; [reflexivity|]. split; [reflexivity|].
  exists [0%nat], 0%nat. repeat split; reflexivity.
Qed.

Lemma one_value : forall a ev0, 0 <= a -> ev_shape one_ss ev0 ->
  solve_with_backward_induction one_ss (one_inp a) ev0 = Ok [[a]].
Proof.
  intros a ev0 Ha SH.
  destruct (solve_model _ _ _ _ _ _ ev0 (one_standard a)) as [ev [E H]].
  - simpl. lra.
  - exact SH.
  - rewrite E. f_equal.
    assert (SE : ev_shape one_ss ev).
    { destruct (backward_induction 1 1 (create_core_state_space one_sp)
        (choice_set_of one_sp (process one_sp 1 one_neg)) [] one_ss (one_inp a)) with (ev0 := ev0)
        as [ev' [E' [S' _]]]; auto.
      - apply core_nodup.
      - exact (sm_closed _ _ _ _ _ _ (one_standard a)).
      - intros vec s1 s2 [].
      - apply (standard_wf_inputs _ _ _ _ _ _ (one_standard a)).
      - intros s Hs. apply (core_periods one_sp); [apply (one_standard a)|simpl; lia|exact Hs].
      - apply (one_standard a).
      - simpl. lra.
      - rewrite E in E'. injection E' as <-. exact S'. }
    assert (V : value (problem_of one_sp one_neg 0 (one_inp a) None) 1 1 one_state = a).
    { cbn. unfold transform_draw, linear_index, nonpec_of, wage_of, mean, max0. cbn.
      unfold linear_index. cbn. rewrite Rmax_left by lra. lra. }
    assert (I : In one_state (create_core_state_space one_sp)) by (vm_compute; left; reflexivity).
    assert (D : dense_combination [] None None) by (split; reflexivity).
    destruct (proj2 (H one_state None None I D a)) as [k [r [arr [L [A1 A2]]]]].
    { symmetry. exact V. }
    assert (F := create_state_space_facts _ _ _ _ _ (sm_created _ _ _ _ _ _ (one_standard a))).
    destruct (located_unique _ _ _ _ _ _ _ _ _ _ _ (core_nodup one_sp)
                (sm_collisions _ _ _ _ _ _ (one_standard a)) F one_located L) as [<- <-].
    destruct SE as [S1 S2]. cbn in S1. destruct ev as [|e [|]]; try discriminate S1.
    simpl in A1. injection A1 as ->.
    specialize (S2 0%nat arr [0%nat] eq_refl eq_refl). simpl in S2.
    destruct arr as [|x [|]]; try discriminate S2. simpl in A2. injection A2 as ->. reflexivity.
Qed.
