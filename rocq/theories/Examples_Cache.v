(** Two models sharing a cache directory. *)
From Coq Require Import List Arith Bool Reals Lra Lia String.
From Verif Require Import Base Proof_Base Model_CoreStateSpace Proof_CoreStateSpace Model_StateSpace
  Proof_StateSpace Props_StateSpace Model_Solve Model_Cache Spec_Cache Proof_Cache.
Import ListNotations.
Open Scope R_scope.

(** [n] periods, one choice with experience [e] at the beginning. *)
Definition cache_sp (n e : nat) : core_spec := mkSpec n [[e]] [5%nat] 1 0 [].
Definition cache_ss0 : state_space := Eval vm_compute in
  get_ok (create_state_space 1 (create_core_state_space (cache_sp 1 0)) (fun _ _ => [true]) []).
Definition cache_ss1 : state_space := Eval vm_compute in
  get_ok (create_state_space 1 (create_core_state_space (cache_sp 1 1)) (fun _ _ => [true]) []).
Definition cache_ss2 : state_space := Eval vm_compute in
  get_ok (create_state_space 2 (create_core_state_space (cache_sp 2 0)) (fun _ _ => [true]) []).

Definition shared_dir : dir := ["home"; ".respy"]%string.
Definition model0 : cached_model := mkCachedModel shared_dir cache_ss0.
Definition model1 : cached_model := mkCachedModel shared_dir cache_ss1.
Definition model2 : cached_model := mkCachedModel shared_dir cache_ss2.
(** The same in other directories. *)
Definition model1' : cached_model := mkCachedModel ["home"; "other"; ".respy"]%string cache_ss1.
Definition model2' : cached_model := mkCachedModel ["home"; "third"; ".respy"]%string cache_ss2.

Lemma model0_created : created model0.
Proof. exists 1%nat, (create_core_state_space (cache_sp 1 0)), (fun _ _ => [true]), []. left. vm_compute. reflexivity. Qed.
Lemma model1_created : created model1.
Proof. exists 1%nat, (create_core_state_space (cache_sp 1 1)), (fun _ _ => [true]), []. left. vm_compute. reflexivity. Qed.
Lemma model2_created : created model2.
Proof. exists 2%nat, (create_core_state_space (cache_sp 2 0)), (fun _ _ => [true]), []. left. vm_compute. reflexivity. Qed.
Lemma model1'_created : created model1'.
Proof. exact model1_created. Qed.
Lemma model2'_created : created model2'.
Proof. exact model2_created. Qed.

(** The reward of the choice is its experience; one draw without shock. *)
Definition cache_inp : inputs :=
  mkInputs (mkParams (fun _ => None) (fun _ => Some [(0%nat, 1)]) 1 [[1]] 0) [0%nat]
    (fun _ s _ => INR (nth 0 (cs_exp s) 0%nat)) (fun _ _ => [[0]]) 0 (fun _ _ => OtherError).
Definition solve_cached (ss : state_space) : result (list (list R)) :=
  solve_with_backward_induction ss cache_inp (initial_ev ss).

Definition get_disk (r : result disk) : disk := match r with Ok k => k | _ => mkDisk [] [] end.
Definition empty_disk : disk := mkDisk [[]] [].

Ltac run_solve :=
  unfold solve_cached, solve_with_backward_induction; cbn [rev seq app fold_result ss_nperiods];
  unfold solve_period, period_values; cbn -[Rmult Rplus Rmax Req_EM_T INR];
  destruct (Req_EM_T 1 0) as [Z|Z]; [exfalso; lra|];
  cbn -[Rmult Rplus Rmax Req_EM_T INR].

Lemma solved0 : solve_cached cache_ss0 = Ok [[0]].
Proof.
  run_solve. unfold emax, max_value. cbn. destruct (Rlt_dec _ _) as [L|L]; do 3 f_equal; lra.
Qed.

Definition disk01 : disk := Eval vm_compute in get_disk (run_events [model0; model1] [Create 0; Create 1] empty_disk).
Lemma disk01_run : run_events [model0; model1] [Create 0; Create 1] empty_disk = Ok disk01.
Proof. vm_compute. reflexivity. Qed.

Lemma wrong_states : snd (call_on_disk model0 None solve_cached disk01) = Ok [[1]].
Proof.
  replace (snd (call_on_disk model0 None solve_cached disk01))
    with (solve_cached (with_files cache_ss0 (ss_files cache_ss1))) by (vm_compute; reflexivity).
  unfold cache_ss0, cache_ss1, with_files. cbn [ss_nperiods ss_core ss_keys ss_groups ss_indexer ss_grid ss_dpc ss_files ss_transit ss_child].
  run_solve. unfold emax, max_value. cbn. destruct (Rlt_dec _ _) as [L|L]; do 3 f_equal; lra.
Qed.

Definition disk21 : disk := Eval vm_compute in get_disk (run_events [model2; model1] [Create 0; Create 1] empty_disk).
Lemma disk21_run : run_events [model2; model1] [Create 0; Create 1] empty_disk = Ok disk21.
Proof. vm_compute. reflexivity. Qed.
Lemma missing_states : snd (call_on_disk model2 None solve_cached disk21) = OtherError.
Proof. reflexivity. Qed.
