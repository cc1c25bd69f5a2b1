(** A small model for changes of the level of rewards: two periods, two choices without wages,
    the first with experience.  Whoever has experience has low rewards from both choices in the
    second period. *)
From Coq Require Import List Arith Bool Reals Lia Lra.
From Verif Require Import Base Proof_Base Model_CoreStateSpace Spec_CoreStateSpace Model_StateSpace
  Spec_StateSpace Proof_CoreStateSpace Proof_StateSpace Model_Solve Spec_Solve Proof_Solve Proof_Value
  Proof_SolveProps Proof_Shocks Props_StateSpace Examples_Solve
  Model_Parallel Spec_Parallel Model_Simulate Spec_Simulate Proof_Simulate
  Proof_PanelModel Proof_SimulateProps Proof_DatasetCheck Spec_Paths Proof_Paths Spec_Units Proof_Units.
Import ListNotations.
Open Scope list_scope.
Open Scope nat_scope.

Definition un_sp : core_spec := mkSpec 2 [[0]] [1] 2 0 [].
Definition un_ss : state_space := Eval vm_compute in
  get_ok (create_state_space 2 (create_core_state_space un_sp) (choice_set_of un_sp (process un_sp 1 (fun _ => None))) []).
(** Rewards of the first choice: 1 in the first period, -1 or with experience -10 in the second;
    of the second choice: 0 in the first period, -1 or with experience -10 in the second; all
    plus [kappa]. *)
Definition un_params (kappa : R) : params :=
  mkParams (fun _ => None)
    (fun c => Some (match c with
                    | O => [(0%nat, 1 + kappa); (1%nat, -2); (2%nat, -9)]
                    | _ => [(0%nat, kappa); (1%nat, -1); (2%nat, -9)]
                    end)%R) 1 [[1; 0]; [0; 1]]%R 0.
Definition un_cov (s : core_state) (i : nat) : R :=
  match i with
  | 0 => 1%R
  | 1 => INR (cs_period s)
  | _ => INR (nth 0 (cs_exp s) 0)
  end.
Definition un_inp (kappa : R) : inputs :=
  mkInputs (un_params kappa) [0; 1] (fun _ s => un_cov s) (fun n p => [repeat 0%R n]) 50 (fun _ _ => OtherError).
Definition un_si (kappa : R) : sim_spec := mkSim (un_params kappa) [0; 1] 1 [0; 0]%R.
Definition un_df : frame individual := [((0, 0), mkInd (mkState 0 [0] []) [])].
Definition un_draws : list (list R) := [[0; 0]; [0; 0]]%R.

Lemma un_core : create_core_state_space un_sp = [mkState 0 [0] []; mkState 1 [0] []; mkState 1 [1] []].
Proof. vm_compute. reflexivity. Qed.

Lemma un_standard : forall kappa, standard_model un_sp (fun _ => None) 0 [] un_ss (un_inp kappa).
Proof.
  intros kappa. constructor.
  - unfold un_sp. solve_wf.
  - simpl. lia.
  - apply model_closed; [unfold un_sp; solve_wf|simpl; lia|reflexivity].
  - intros vec s1 s2 [].
  - vm_compute. reflexivity.
  - reflexivity.
  - split; [reflexivity|]. intros row [<-|[<-|[]]]; reflexivity.
  - intros p. left. apply Nat.leb_le. destruct p as [|[|p]]; vm_compute; reflexivity.
Qed.

Lemma un_shifted : forall kappa kappa', rewards_shifted (kappa' - kappa) (un_inp kappa) (un_inp kappa').
Proof.
  intros kappa kappa'. unfold rewards_shifted. repeat (split; [reflexivity|]).
  intros ctx s c. unfold nonpec_of, linear_index. destruct c as [|c]; cbn; lra.
Qed.

Lemma un_choices : forall x, In (i_core x) (create_core_state_space un_sp) ->
  choices_of un_sp (fun _ => None) 0 [] x = [true; true] .
Proof.
  intros x H. rewrite un_core in H. unfold choices_of. destruct H as [<-|[<-|[<-|[]]]]; vm_compute; reflexivity.
Qed.

(** Value of the second period. *)
Lemma un_second : forall kappa e, e <= 1 ->
  value (problem_of un_sp (fun _ => None) 0 (un_inp kappa) None) 1 1 (mkState 1 [e] []) =
  Rmax 0 (kappa - 1 - 9 * INR e).
Proof.
  intros kappa e He. rewrite value_S. unfold problem_of.
  rewrite (flows_by_choice 2) by (apply (un_standard kappa) || reflexivity).
  assert (C : choice_set_of un_sp (process un_sp 1 (fun _ => None)) None (mkState 1 [e] []) = [true; true]).
  { destruct e as [|[|e]]; [reflexivity|reflexivity|lia]. }
  rewrite C. change (positions [true; true]) with [0; 1]. change (count_true [true; true]) with 2.
  cbn [in_base un_inp repeat map].
  unfold draw_shock, correlated, wage_of, nonpec_of, linear_index, alternatives.
  cbn [pb_moves model_problem]. rewrite C. change (positions [true; true]) with [0; 1].
  cbn [map combine fst snd in_params un_inp un_params p_wage p_nonpec p_nwages p_chol Nat.ltb Nat.leb value in_cov un_cov cs_exp nth cs_period].
  unfold mean, max0, rsum, mat. cbn [map fold_right nth fst snd length INR combine].
  match goal with |- ((Rmax ?x (Rmax ?y 0) + 0) / 1)%R = _ =>
    replace x with (kappa - 1 - 9 * INR e)%R by (cbn; lra); replace y with (kappa - 1 - 9 * INR e)%R by (cbn; lra) end.
  unfold Rmax. repeat (destruct Rle_dec); lra.
Qed.

Lemma un_setup : forall kappa ev, ev_shape un_ss ev ->
  simulation_setup un_sp (fun _ => None) 0 [] un_ss (un_inp kappa) ev (un_si kappa) (fun l => l) 2 [0] un_draws un_draws un_df.
Proof.
  intros kappa ev SH. constructor; try reflexivity.
  - apply un_standard.
  - exact SH.
  - intros l. apply Permutation.Permutation_refl.
  - simpl. split; [intros y []|exact I].
  - discriminate.
  - split; [reflexivity|]. intros row [<-|[<-|[]]]; reflexivity.
  - split; [reflexivity|]. intros row [<-|[<-|[]]]; reflexivity.
  - intros i x [E|[]]. injection E as _ <-. split; [rewrite un_core; left; reflexivity|]. split; reflexivity.
  - intros s x Hs _. exists 0. assert (E : choices_of un_sp (fun _ => None) 0 [] (mkInd s (i_dense x)) = [true; true]) by (apply un_choices; exact Hs).
    unfold choices_of in E. simpl in E. simpl. rewrite E. reflexivity.
Qed.

(** The solution and the simulated choice of the first period. *)
Lemma un_simulated : forall kappa nk, exists ev panel o,
  solve_with_backward_induction un_ss (un_inp kappa) (initial_ev un_ss) = Ok ev /\
  simulation_setup un_sp (fun _ => None) 0 [] un_ss (un_inp kappa) ev (un_si kappa) (fun l => l) 2 [0] un_draws un_draws un_df /\
  simulate_n_step (environment_of un_ss (un_inp kappa) ev) (un_si kappa) (fun l => l) nk 0 2 un_draws un_draws un_df = Ok panel /\
  In ((0, 0), o) panel /\
  ((Rmax 0 (kappa - 1) < 1 + Rmax 0 (kappa - 10))%R -> o_choice o = 0) /\
  ((1 + Rmax 0 (kappa - 10) < Rmax 0 (kappa - 1))%R -> o_choice o = 1).
Proof.
  intros kappa nk.
  destruct (backward_induction 2 2 (create_core_state_space un_sp)
        (choice_set_of un_sp (process un_sp 1 (fun _ => None))) [] un_ss (un_inp kappa)) with (ev0 := initial_ev un_ss)
        as [ev [E [SH _]]].
  { apply core_nodup. }
  { exact (sm_closed _ _ _ _ _ _ (un_standard kappa)). }
  { intros vec s1 s2 []. }
  { exact (sm_created _ _ _ _ _ _ (un_standard kappa)). }
  { apply (standard_wf_inputs _ _ _ _ _ _ (un_standard kappa)). }
  { intros s Hs. apply (core_periods un_sp); [apply (un_standard kappa)|simpl; lia|exact Hs]. }
  { apply (un_standard kappa). }
  { simpl. lra. }
  { apply initial_ev_shape. }
  pose proof (un_setup kappa ev SH) as SU.
  destruct (panel_model un_sp (fun _ => None) 0 [] un_ss (un_inp kappa) ev (un_standard kappa)
     SH (un_si kappa) (fun l => l) nk 2 _ _ _ _ SU) as [panel [P [I [F [_ R]]]]].
  assert (X : In (0, 0) (map fst panel)).
  { rewrite I. apply In_panel_index. split; [left; reflexivity|lia]. }
  apply in_map_iff in X. destruct X as [[i o] [Q Ho]]. simpl in Q. subst i.
  exists ev, panel, o. split; [exact E|]. split; [exact SU|]. split; [exact P|]. split; [exact Ho|].
  destruct (R 0 0 o Ho) as [p [s [m [Hp [Hs [_ RR]]]]]].
  assert (EO : o_ind o = mkInd (mkState 0 [0] []) []).
  { destruct (F _ _ Ho) as [W|[]]. congruence. }
  assert (p = 0) by (destruct p as [|[|p]]; [reflexivity|discriminate|discriminate]). subst p.
  simpl in Hs. injection Hs as <-.
  pose proof (right_row_values _ _ _ _ _ _ _ _ _ _ _ _ _ (un_standard kappa) (initial_ev_shape un_ss) E RR) as V.
  assert (CS : choices_of un_sp (fun _ => None) 0 [] (o_ind o) = [true; true]) by (rewrite EO; reflexivity).
  pose proof (rr_length _ _ _ _ _ _ _ _ _ _ _ _ RR) as L.
  pose proof (rr_choice _ _ _ _ _ _ _ _ _ _ _ _ RR) as RC.
  rewrite CS in V, L, RC.
  pose proof (V 0 0 eq_refl) as V0. pose proof (V 1 1 eq_refl) as V1.
  assert (D0 : decision_value un_sp (fun _ => None) 0 [] (un_inp kappa) (si_beta (un_si kappa)) 0 (o_ind o) [0%R; 0%R] 0
               = (1 + kappa + Rmax 0 (kappa - 10))%R).
  { rewrite EO. unfold decision_value. cbn [si_beta un_si].
    change (value _ _ _ _) with (value (problem_of un_sp (fun _ => None) 0 (un_inp kappa) None) 1 1 (mkState 1 [1] [])).
    rewrite un_second by lia. unfold flow_of, wage_of, nonpec_of, shock_of, correlated, linear_index.
    rewrite <- EO, CS, EO. cbn. unfold rsum, mat. cbn.
    replace (kappa - 1 - 9 * 1)%R with (kappa - 10)%R by lra. lra. }
  assert (D1 : decision_value un_sp (fun _ => None) 0 [] (un_inp kappa) (si_beta (un_si kappa)) 0 (o_ind o) [0%R; 0%R] 1
               = (kappa + Rmax 0 (kappa - 1))%R).
  { rewrite EO. unfold decision_value. cbn [si_beta un_si].
    change (value _ _ _ _) with (value (problem_of un_sp (fun _ => None) 0 (un_inp kappa) None) 1 1 (mkState 1 [0] [])).
    rewrite un_second by lia. unfold flow_of, wage_of, nonpec_of, shock_of, correlated, linear_index.
    rewrite <- EO, CS, EO. cbn. unfold rsum, mat. cbn.
    replace (kappa - 1 - 9 * 0)%R with (kappa - 1)%R by lra. lra. }
  rewrite D0 in V0. rewrite D1 in V1.
  destruct (o_values o) as [|x [|y [|]]]; try discriminate. simpl in V0, V1. injection V0 as ->. injection V1 as ->.
  unfold record_choice, argmax, argmax_from in RC.
  destruct (Rlt_dec _ _).
  - change (Some 1 = Some (o_choice o)) in RC. injection RC as RC. split; [intros; lra|auto].
  - change (Some 0 = Some (o_choice o)) in RC. injection RC as RC. split; [auto|intros; lra].
Qed.

Lemma un_level_refuted : exists sp neg k grid ss inp inp' ev0 ev ev' si si' kappa order next_key n ids base bw df panel panel',
  (0 <= kappa)%R /\ (0 < p_delta (in_params inp))%R /\ rewards_shifted kappa inp inp' /\ same_but_params si si' /\
  (forall n p, in_base inp n p <> []) /\ ev_shape ss ev0 /\
  solve_with_backward_induction ss inp ev0 = Ok ev /\ solve_with_backward_induction ss inp' ev0 = Ok ev' /\
  simulation_setup sp neg k grid ss inp ev si order n ids base bw df /\
  simulation_setup sp neg k grid ss inp' ev' si' order n ids base bw df /\
  simulate_n_step (environment_of ss inp ev) si order next_key 0 n base bw df = Ok panel /\
  simulate_n_step (environment_of ss inp' ev') si' order next_key 0 n base bw df = Ok panel' /\
  exists id t o o', In ((id, t), o) panel /\ In ((id, t), o') panel' /\ o_ind o' = o_ind o /\ o_choice o' <> o_choice o.
Proof.
  set (nk := fun (_ : nat) (_ : index) (k _ : nat) => k).
  destruct (un_simulated 0 nk) as [ev [panel [o [E [SU [P [Ho [C _]]]]]]]].
  destruct (un_simulated 20 nk) as [ev' [panel' [o' [E' [SU' [P' [Ho' [_ C']]]]]]]].
  exists un_sp, (fun _ => None), 0, [], un_ss, (un_inp 0), (un_inp 20), (initial_ev un_ss), ev, ev', (un_si 0), (un_si 20), 20%R,
    (fun l => l), nk, 2, [0], un_draws, un_draws, un_df, panel, panel'.
  split; [lra|]. split; [simpl; lra|].
  split; [pose proof (un_shifted 0 20) as Q; rewrite Rminus_0_r in Q; exact Q|].
  split; [repeat split|]. split; [intros n p; simpl; discriminate|]. split; [apply initial_ev_shape|].
  split; [exact E|]. split; [exact E'|]. split; [exact SU|]. split; [exact SU'|]. split; [exact P|]. split; [exact P'|].
  exists 0, 0, o, o'. split; [exact Ho|]. split; [exact Ho'|]. split.
  - destruct (panel_model un_sp (fun _ => None) 0 [] un_ss (un_inp 0) ev (un_standard 0)
     (su_ev _ _ _ _ _ _ _ _ _ _ _ _ _ _ SU) (un_si 0) (fun l => l) nk 2 _ _ _ _ SU) as [pn [Q [_ [F _]]]].
    rewrite P in Q. injection Q as <-.
    destruct (panel_model un_sp (fun _ => None) 0 [] un_ss (un_inp 20) ev' (un_standard 20)
     (su_ev _ _ _ _ _ _ _ _ _ _ _ _ _ _ SU') (un_si 20) (fun l => l) nk 2 _ _ _ _ SU') as [pn [Q [_ [F' _]]]].
    rewrite P' in Q. injection Q as <-.
    destruct (F _ _ Ho) as [W|[]]. destruct (F' _ _ Ho') as [W'|[]]. congruence.
  - rewrite C, C'; [discriminate| |].
    + rewrite !Rmax_right by lra. lra.
    + rewrite !Rmax_left by lra. lra.
Qed.

(** With a large level the values are never negative. *)
Lemma un_nonnegative : forall kappa ctx, (10 <= kappa)%R ->
  some_nonnegative (create_core_state_space un_sp) (sp_nperiods un_sp)
    (problem_of un_sp (fun _ => None) 0 (un_inp kappa) ctx) (p_delta (in_params (un_inp kappa))).
Proof.
  intros kappa ctx HK s u Hs Hu.
  unfold problem_of in Hu. rewrite (flows_by_choice 2) in Hu by (apply (un_standard kappa) || reflexivity).
  assert (C : choice_set_of un_sp (process un_sp 1 (fun _ => None)) ctx s = [true; true]).
  { rewrite un_core in Hs. destruct Hs as [<-|[<-|[<-|[]]]]; reflexivity. }
  rewrite C in Hu. apply in_map_iff in Hu. destruct Hu as [draw [<- Hd]].
  destruct Hd as [<-|[]].
  unfold alternatives. cbn [pb_moves model_problem problem_of]. rewrite C.
  change (positions [true; true]) with [0; 1]. cbn [map combine fst snd].
  eexists. split; [left; reflexivity|].
  match goal with |- (0 <= ?f + ?d * ?v)%R => assert (0 <= v)%R by apply value_nonneg; assert (HF : (0 <= f)%R) end.
  - unfold wage_of, nonpec_of, draw_shock, correlated, linear_index, rsum, mat. cbn.
    rewrite un_core in Hs. destruct Hs as [<-|[<-|[<-|[]]]]; cbn; lra.
  - change (p_delta (in_params (un_inp kappa))) with 1%R in *. lra.
Qed.

(** A model with a wage: one choice with wage and one without. *)
Open Scope R_scope.
Definition wage_params : params :=
  mkParams (fun c => if Nat.eqb c 0 then Some [(0%nat, 1); (1%nat, /2)] else None)
           (fun c => if Nat.eqb c 1 then Some [(0%nat, 3)] else None) (19 / 20) [[1; 0]; [/ 2; 1]] 1.
Definition wage_inp (p : params) : inputs :=
  mkInputs p [0%nat; 1%nat] (fun _ s => un_cov s) (fun n p => [repeat 0 n; repeat 1 n]) 50 (fun _ _ => OtherError).
