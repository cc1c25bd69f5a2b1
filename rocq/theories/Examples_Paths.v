(** A small model for the comparison of simulated paths: two periods, two choices without
    wages and experience, so that the choice with the higher shock is chosen. *)
From Coq Require Import List Arith Bool Reals Lia Lra.
From Verif Require Import Base Proof_Base Model_CoreStateSpace Spec_CoreStateSpace Model_StateSpace
  Spec_StateSpace Proof_CoreStateSpace Proof_StateSpace Model_Solve Spec_Solve Proof_Solve
  Proof_SolveProps Props_StateSpace Examples_Solve
  Model_Parallel Spec_Parallel Model_Simulate Spec_Simulate Proof_Simulate
  Proof_PanelModel Proof_DatasetCheck Spec_Paths Proof_Paths.
Import ListNotations.
Open Scope list_scope.
Open Scope nat_scope.

Definition pa_sp : core_spec := mkSpec 2 [] [] 2 0 [].
Definition pa_ss : state_space := Eval vm_compute in
  get_ok (create_state_space 2 (create_core_state_space pa_sp) (choice_set_of pa_sp (process pa_sp 1 (fun _ => None))) []).
Definition pa_params : params := mkParams (fun _ => None) (fun _ => None) 0 [[1; 0]; [0; 1]]%R 0.
Definition pa_inp : inputs :=
  mkInputs pa_params [0; 1] (fun _ _ _ => 0%R) (fun n p => [repeat 0%R n]) 50 (fun _ _ => OtherError).
Definition pa_si : sim_spec := mkSim pa_params [0; 1] 1 [0; 0]%R.
(** [N] individuals. *)
Definition pa_df (N : nat) : frame individual := map (fun i => ((i, 0), mkInd (mkState 0 [] []) [])) (seq 0 N).
(** One stream of draws. *)
Definition pa_stream : list (list R) := [[1; 0]; [1; 0]; [0; 1]; [0; 1]]%R.

Lemma pa_core : create_core_state_space pa_sp = [mkState 0 [] []; mkState 1 [] []].
Proof. vm_compute. reflexivity. Qed.

Lemma pa_standard : standard_model pa_sp (fun _ => None) 0 [] pa_ss pa_inp.
Proof.
  constructor.
  - unfold pa_sp. solve_wf.
  - simpl. lia.
  - apply model_closed; [unfold pa_sp; solve_wf|simpl; lia|reflexivity].
  - intros vec s1 s2 [].
  - vm_compute. reflexivity.
  - reflexivity.
  - split; [reflexivity|]. intros row [<-|[<-|[]]]; reflexivity.
  - intros p. left. apply Nat.leb_le. destruct p as [|[|p]]; vm_compute; reflexivity.
Qed.

Lemma pa_choices : forall x, In (i_core x) (create_core_state_space pa_sp) ->
  choices_of pa_sp (fun _ => None) 0 [] x = [true; true].
Proof.
  intros x H. rewrite pa_core in H. unfold choices_of. destruct H as [<-|[<-|[]]]; vm_compute; reflexivity.
Qed.

Lemma pa_setup : forall N base bw, 0 < N -> draws_shape (N * 2) 2 base -> draws_shape (N * 2) 2 bw ->
  simulation_setup pa_sp (fun _ => None) 0 [] pa_ss pa_inp (initial_ev pa_ss)
    pa_si (fun l => l) 2 (seq 0 N) base bw (pa_df N).
Proof.
  intros N base bw HN HB HW. constructor; try reflexivity.
  - exact pa_standard.
  - apply initial_ev_shape.
  - intros l. apply Permutation.Permutation_refl.
  - apply increasing_seq.
  - destruct N; [lia|discriminate].
  - rewrite seq_length. exact HB.
  - rewrite seq_length. exact HW.
  - unfold cross_section, pa_df. rewrite map_map. reflexivity.
  - intros i x H. unfold pa_df in H. apply in_map_iff in H. destruct H as [j [E _]]. injection E as _ <-.
    split; [rewrite pa_core; left; reflexivity|]. split; reflexivity.
  - intros s x Hs _. exists 0. assert (E : choices_of pa_sp (fun _ => None) 0 [] (mkInd s (i_dense x)) = [true; true]) by (apply pa_choices; exact Hs).
    unfold choices_of in E. simpl in E. simpl. rewrite E. reflexivity.
Qed.

Lemma pa_choice : forall ev t a b m o,
  right_row pa_sp (fun _ => None) 0 [] pa_ss pa_inp ev pa_si t [a; b] m o ->
  ((b < a)%R -> o_choice o = 0) /\ ((a < b)%R -> o_choice o = 1).
Proof.
  intros ev t a b m o RR. pose proof (rr_state _ _ _ _ _ _ _ _ _ _ _ _ RR) as [ST _].
  pose proof (pa_choices _ ST) as CS.
  destruct (rr_values _ _ _ _ _ _ _ _ _ _ _ _ RR) as [d [_ V]]. rewrite CS in V.
  destruct (V 0 0 eq_refl) as [v1 [V1 _]]. destruct (V 1 1 eq_refl) as [v2 [V2 _]].
  assert (F : forall c, c < 2 -> flow_of pa_inp [true; true] (context [] (o_ind o)) (i_core (o_ind o)) [a; b] c = nth c [a; b] 0%R).
  { intros c Hc. unfold flow_of, shock_of, correlated, wage_of, nonpec_of. destruct c as [|[|c]]; [| |lia]; cbn; unfold rsum, mat; cbn; lra. }
  rewrite F in V1 by lia. rewrite F in V2 by lia.
  pose proof (rr_length _ _ _ _ _ _ _ _ _ _ _ _ RR) as L. rewrite CS in L.
  assert (OV : o_values o = [a; b]).
  { destruct (o_values o) as [|x [|y [|]]]; try discriminate. simpl in V1, V2. injection V1 as ->. injection V2 as ->.
    f_equal; [lra|]. f_equal. lra. }
  pose proof (rr_choice _ _ _ _ _ _ _ _ _ _ _ _ RR) as RC. rewrite CS, OV in RC.
  unfold record_choice, argmax, argmax_from in RC.
  destruct (Rlt_dec a b).
  - change (Some 1 = Some (o_choice o)) in RC. injection RC as RC. split; [intros; lra|auto].
  - change (Some 0 = Some (o_choice o)) in RC. injection RC as RC. split; [auto|intros; lra].
Qed.

Lemma pa_shape : forall N, N <= 2 -> draws_shape (N * 2) 2 (firstn (N * 2) pa_stream).
Proof.
  intros N H. split.
  - rewrite firstn_length. simpl. lia.
  - intros row Hr. assert (I : In row pa_stream).
    { rewrite <- (firstn_skipn (N * 2) pa_stream). apply in_or_app. left. exact Hr. }
    destruct I as [<-|[<-|[<-|[<-|[]]]]]; reflexivity.
Qed.

(** The panel for [N] individuals. *)
Lemma pa_panel : forall N next_key, 0 < N -> N <= 2 -> exists panel,
  simulation_setup pa_sp (fun _ => None) 0 [] pa_ss pa_inp (initial_ev pa_ss)
    pa_si (fun l => l) 2 (seq 0 N) (firstn (N * 2) pa_stream) (firstn (N * 2) pa_stream) (pa_df N) /\
  simulate_n_step (environment_of pa_ss pa_inp (initial_ev pa_ss)) pa_si (fun l => l) next_key 0 2
    (firstn (N * 2) pa_stream) (firstn (N * 2) pa_stream) (pa_df N) = Ok panel /\
  exists o, In ((0, 1), o) panel /\ o_choice o = (if Nat.eqb N 1 then 0 else 1).
Proof.
  intros N next_key H1 H2.
  pose proof (pa_setup N _ _ H1 (pa_shape N H2) (pa_shape N H2)) as SU.
  destruct (panel_model pa_sp (fun _ => None) 0 [] pa_ss pa_inp (initial_ev pa_ss) pa_standard
     (su_ev _ _ _ _ _ _ _ _ _ _ _ _ _ _ SU) pa_si (fun l => l) next_key 2 _ _ _ _ SU) as [panel [E [I [_ [_ R]]]]].
  exists panel. split; [exact SU|]. split; [exact E|].
  assert (X : In (0, 1) (map fst panel)).
  { rewrite I. apply In_panel_index. split; [apply in_seq; lia|lia]. }
  apply in_map_iff in X. destruct X as [[i o] [Q Ho]]. simpl in Q. subst i. exists o. split; [exact Ho|].
  destruct (R 0 1 o Ho) as [p [s [m [P [Hs [_ RR]]]]]]. rewrite seq_length in Hs.
  assert (p = 0).
  { assert (L : p < N) by (apply nth_error_lt in P; rewrite seq_length in P; exact P).
    rewrite (nth_error_nth' (seq 0 N) 0) in P by (rewrite seq_length; exact L). rewrite seq_nth in P by exact L.
    simpl in P. congruence. }
  subst p. destruct N as [|[|[|N]]]; [lia| | |lia].
  - simpl in Hs. injection Hs as <-. apply (pa_choice _ _ _ _ _ _ RR). lra.
  - simpl in Hs. injection Hs as <-. apply (pa_choice _ _ _ _ _ _ RR). lra.
Qed.

Lemma pa_refuted : exists sp neg k grid ss inp ev si order next_key n ids more stream streamw df df' panel panel',
  simulation_setup sp neg k grid ss inp ev si order n ids (firstn (length ids * n) stream)
    (firstn (length ids * n) streamw) df /\
  simulation_setup sp neg k grid ss inp ev si order n (ids ++ more) (firstn (length (ids ++ more) * n) stream)
    (firstn (length (ids ++ more) * n) streamw) (df ++ df') /\
  simulate_n_step (environment_of ss inp ev) si order next_key 0 n (firstn (length ids * n) stream)
    (firstn (length ids * n) streamw) df = Ok panel /\
  simulate_n_step (environment_of ss inp ev) si order next_key 0 n (firstn (length (ids ++ more) * n) stream)
    (firstn (length (ids ++ more) * n) streamw) (df ++ df') = Ok panel' /\
  exists id t o o', In id ids /\ In ((id, t), o) panel /\ In ((id, t), o') panel' /\ o_choice o <> o_choice o'.
Proof.
  set (nk := fun (_ : nat) (_ : index) (k _ : nat) => k).
  destruct (pa_panel 1 nk) as [p1 [S1 [E1 [o1 [I1 C1]]]]]; [lia|lia|].
  destruct (pa_panel 2 nk) as [p2 [S2 [E2 [o2 [I2 C2]]]]]; [lia|lia|].
  exists pa_sp, (fun _ => None), 0, [], pa_ss, pa_inp, (initial_ev pa_ss), pa_si, (fun l => l), nk, 2, [0], [1], pa_stream, pa_stream,
    (pa_df 1), [((1, 0), mkInd (mkState 0 [] []) [])], p1, p2.
  split; [exact S1|]. split; [exact S2|]. split; [exact E1|]. split; [exact E2|].
  exists 0, 1, o1, o2. split; [left; reflexivity|]. split; [exact I1|]. split; [exact I2|].
  rewrite C1, C2. simpl. discriminate.
Qed.

(** The same draws in the same order in a one-step-ahead simulation. *)
Lemma pa_replay_refuted : exists sp neg k grid ss inp ev si order next_key n ids base base_wage df panel panel',
  simulation_setup sp neg k grid ss inp ev si order n ids base base_wage df /\
  simulate_n_step (environment_of ss inp ev) si order next_key 0 n base base_wage df = Ok panel /\
  one_step (environment_of ss inp ev) si order next_key n base base_wage (states_of panel) = Ok panel' /\
  exists id t o o', In ((id, t), o) panel /\ In ((id, t), o') panel' /\ o_choice o <> o_choice o'.
Proof.
  set (nk := fun (_ : nat) (_ : index) (k _ : nat) => k).
  destruct (pa_panel 2 nk) as [p2 [SU [E2 [o2 [I2 C2]]]]]; [lia|lia|].
  change (firstn (2 * 2) pa_stream) with pa_stream in *.
  pose proof (one_step_of_panel _ _ _ _ _ _ _ _ _ (fun l => l) nk _ _ _ _ _ _ SU (fun l => Permutation.Permutation_refl l) E2) as OS.
  specialize (OS pa_stream pa_stream (pa_shape 2 (le_n 2)) (pa_shape 2 (le_n 2))).
  destruct (one_step_model pa_sp (fun _ => None) 0 [] pa_ss pa_inp (initial_ev pa_ss) pa_standard
     (su_ev _ _ _ _ _ _ _ _ _ _ _ _ _ _ SU) pa_si (fun l => l) nk 2 _ _ _ OS) as [p' [E' [I' R']]].
  exists pa_sp, (fun _ => None), 0, [], pa_ss, pa_inp, (initial_ev pa_ss), pa_si, (fun l => l), nk, 2, (seq 0 2), pa_stream, pa_stream,
    (pa_df 2), p2, p'.
  split; [exact SU|]. split; [exact E2|]. split; [exact E'|].
  destruct (panel_model pa_sp (fun _ => None) 0 [] pa_ss pa_inp (initial_ev pa_ss) pa_standard
     (su_ev _ _ _ _ _ _ _ _ _ _ _ _ _ _ SU) pa_si (fun l => l) nk 2 _ _ _ _ SU) as [pn [E [I _]]].
  rewrite E2 in E. injection E as <-.
  assert (SI : map fst (states_of p2) = panel_index (seq 0 2) 2).
  { unfold states_of. rewrite map_map. exact I. }
  assert (D : exists x, nth_error (states_of p2) 1 = Some ((0, 1), x)).
  { destruct (states_of p2) as [|r0 [|[i x] rest]]; [discriminate SI|discriminate SI|]. injection SI as _ -> _. exists x. reflexivity. }
  destruct D as [x D].
  assert (D' : exists o', nth_error p' 1 = Some ((0, 1), o')).
  { rewrite SI in I'. destruct p' as [|r0 [|[i o'] rest]]; [discriminate I'|discriminate I'|]. injection I' as _ -> _. exists o'. reflexivity. }
  destruct D' as [o' D'].
  exists 0, 1, o2, o'. split; [exact I2|]. split; [eapply nth_error_In; exact D'|].
  destruct (R' _ _ _ _ _ D D') as [s [m [Hs [_ [_ RR]]]]]. simpl in Hs. injection Hs as <-.
  rewrite C2, (proj1 (pa_choice _ _ _ _ _ _ RR)); [discriminate|lra].
Qed.
