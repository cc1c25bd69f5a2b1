(** Concrete initial conditions and simulated data sets. *)
From Coq Require Import List Arith ZArith Bool String Reals Lia Lra.
From Verif Require Import Base Proof_Base Model_CoreStateSpace Spec_CoreStateSpace Proof_CoreStateSpace
  Model_StateSpace Spec_StateSpace Proof_StateSpace Props_StateSpace Model_Choices Model_Processing Model_Parallel Spec_Parallel Proof_Parallel
  Model_Solve Spec_Solve Proof_Solve Proof_SolveProps Examples_Solve Model_Simulate Spec_Simulate Proof_Simulate Proof_SimulateProps
  Examples_Simulate Model_Dataset Spec_Dataset Proof_Dataset Proof_DatasetCheck.
From Verif Require Model_Data.
Import ListNotations.
Open Scope list_scope.
Open Scope nat_scope.

(** ** Initial conditions of the example of the simulation: one observable with two levels,
    initial experience 0 or 1, no lagged choices and one type. *)
Definition ex_ic : initial_conditions :=
  mkInitial [[[(0, 1%R)]; []]] [[(0, [(0, 2%R)]); (1, [])]] [] [[]].

Lemma ex_declared : declared ex_sp ex_grid ex_ic.
Proof.
  constructor; try reflexivity.
  - intros l [].
  - simpl. lia.
  - intros l [<-|[]]. simpl. lia.
  - simpl. lia.
Qed.

Lemma ex_starts : starts_below_maximum ex_sp.
Proof.
  intros [|[|i]] levels m x H1 H2 Hx; simpl in *; try discriminate.
  injection H1 as <-. injection H2 as <-. destruct Hx as [<-|[<-|[]]]; lia.
Qed.

(** A row with a given observable and missing experience. *)
Definition ex_partial : partial_row := mkPartial [Some 1] [None] [] None.
Lemma ex_given : given_ok ex_sp ex_ic ex_partial.
Proof.
  constructor; simpl.
  - intros [|[|i]] v l H1 H2; simpl in *; try discriminate; try (destruct i; discriminate).
    injection H1 as <-. injection H2 as <-. simpl. lia.
  - intros [|[|i]] v l H1; simpl in *; try discriminate; try (destruct i; discriminate).
  - intros [|i] v H1; discriminate.
  - discriminate.
Qed.
Definition ex_u (c : characteristic) : R := (/ 2)%R.
Lemma ex_uniform : uniform ex_u.
Proof. intros c. unfold ex_u. lra. Qed.

(** Initial experience above the maximum. *)
Definition high_sp : core_spec := mkSpec 1 [[3]] [2] 1 0 [].
Definition high_ic : initial_conditions := mkInitial [] [[(3, [])]] [] [].

Lemma high_declared : wf_spec high_sp /\ declared high_sp [] high_ic.
Proof.
  split; [unfold high_sp; solve_wf|]. constructor; try reflexivity.
  - intros l [].
  - simpl. lia.
  - intros l [].
  - simpl. lia.
Qed.

Lemma high_start : exists sp grid ic, wf_spec sp /\ sp_nlags sp <= 1 /\ sp_filters sp = [] /\ 0 < sp_nperiods sp /\
  declared sp grid ic /\
  forall x u, uniform u -> exists i, extend_row ic x u nothing_given = Ok i /\ ~ in_model (create_core_state_space sp) grid 0 i.
Proof.
  exists high_sp, [], high_ic. destruct high_declared as [W D]. split; [exact W|]. split; [simpl; lia|]. split; [reflexivity|].
  split; [simpl; lia|]. split; [exact D|]. intros x u U.
  exists (mkInd (mkState 0 [3] []) []). split.
  - unfold extend_row, high_ic, nothing_given. cbn [ic_observables ic_start ic_lags ic_types pt_obs pt_exp pt_lag pt_type
      enumerate enumerate_from map result_all result_bind fst snd nth].
    destruct (sampled_level (x (CExp 0)) [[]] (u (CExp 0))) as [i [E Hi]]; [discriminate|apply U|].
    rewrite E. simpl in Hi. assert (i = 0) as -> by lia. reflexivity.
  - intros [H _]. vm_compute in H. exact H.
Qed.

(** ** A simulated data set *)

(** Individuals 0 and 1, three periods. *)
Definition ex_panel_df : frame individual :=
  [((0, 0), mkInd (mkState 0 [0] []) [1]); ((1, 0), mkInd (mkState 0 [1] []) [0])].
Definition ex_labels : labels :=
  mkLabels 3 ["work"; "home"]%string 1 1 0 [[Label "poor"; Label "rich"]]%string 1.

Lemma ex_panel_setup : simulation_setup ex_sp (fun _ => None) 0 ex_grid ex_ss ex_inp (initial_ev ex_ss)
  ex_si (fun l => l) 3 (seq 0 2) (ex_draws 6) (ex_draws 6) ex_panel_df.
Proof.
  constructor; try reflexivity.
  - exact ex_standard.
  - apply initial_ev_shape.
  - intros l. apply Permutation.Permutation_refl.
  - apply increasing_seq.
  - discriminate.
  - apply ex_draws_shape.
  - apply ex_draws_shape.
  - intros i x [E|[E|[]]]; injection E as _ <-; apply ex_in_model;
      ((apply (in_by_compute _ core_state_eq_dec); vm_compute; reflexivity)
       || (apply (in_by_compute _ (list_eq_dec Nat.eq_dec)); vm_compute; reflexivity)).
  - intros s x Hs Hx. apply ex_choice_exists; [exact Hs|exact Hx].
Qed.

Lemma ex_labelled : labelled ex_sp ex_grid (p_nwages (in_params ex_inp)) ex_labels.
Proof.
  constructor; try reflexivity.
  - repeat constructor; simpl; intuition discriminate.
  - simpl. lia.
  - intros l [<-|[]]. split; [repeat constructor; simpl; intuition discriminate|simpl; lia].
Qed.

Lemma ex_all_in_place : forall x, in_place (choices_of ex_sp (fun _ => None) 0 ex_grid x).
Proof.
  intros x. unfold choices_of. set (cs := choice_set_of _ _ _ _).
  assert (L : List.length cs = 2) by (unfold cs, choice_set_of; rewrite map_length, seq_length; reflexivity).
  destruct cs as [|a [|b [|]]]; try discriminate. intros j c H.
  destruct a, b; unfold positions, enumerate in H; simpl in H.
  - destruct j as [|[|j]]; simpl in H; try (injection H as <-); auto. destruct j; discriminate.
  - destruct j as [|j]; simpl in H; [injection H as <-; auto|destruct j; discriminate].
  - destruct j as [|j]; simpl in H; [injection H as <-; right; simpl; lia|destruct j; discriminate].
  - destruct j; discriminate.
Qed.

(** ** A simulated data set that is not accepted: the first of three choices is not available *)
Definition bad_sp : core_spec := mkSpec 1 [[0]; [0]] [0; 0] 3 0 [].
Definition bad_neg : neg_set := fun c => if Nat.eqb c 0 then Some [fun _ => Some (fun _ => true)] else None.
Definition bad_ss : state_space := Eval vm_compute in
  get_ok (create_state_space 1 (create_core_state_space bad_sp) (choice_set_of bad_sp (process bad_sp 1 bad_neg)) []).
Definition bad_params : params :=
  mkParams (fun c => if Nat.ltb c 2 then Some [] else None) (fun _ => None) 1 [[1; 0; 0]; [0; 1; 0]; [0; 0; 1]]%R 2.
Definition bad_inp : inputs :=
  mkInputs bad_params [0; 1; 2] (fun _ _ _ => 0%R) (fun n p => [repeat 0%R n]) 50 (fun _ _ => OtherError).
Definition bad_si : sim_spec := mkSim bad_params [0; 1; 2] 1 [0; 0; 0]%R.
Definition bad_df : frame individual := [((0, 0), mkInd (mkState 0 [0; 0] []) [])].
Definition bad_labels : labels := mkLabels 1 ["a"; "b"; "home"]%string 2 2 0 [] 1.

Lemma bad_standard : standard_model bad_sp bad_neg 0 [] bad_ss bad_inp.
Proof.
  constructor.
  - unfold bad_sp. solve_wf.
  - simpl. lia.
  - apply model_closed; [unfold bad_sp; solve_wf|simpl; lia|reflexivity].
  - intros vec s1 s2 [].
  - vm_compute. reflexivity.
  - reflexivity.
  - split; [reflexivity|]. intros row [<-|[<-|[<-|[]]]]; reflexivity.
  - intros p. left. apply Nat.leb_le. destruct p; vm_compute; reflexivity.
Qed.

Lemma bad_core : create_core_state_space bad_sp = [mkState 0 [0; 0] []].
Proof. vm_compute. reflexivity. Qed.

Lemma bad_setup : simulation_setup bad_sp bad_neg 0 [] bad_ss bad_inp (initial_ev bad_ss)
  bad_si (fun l => l) 1 (seq 0 1) [[0; 0; 0]]%R [[0; 0; 0]]%R bad_df.
Proof.
  constructor; try reflexivity.
  - exact bad_standard.
  - apply initial_ev_shape.
  - intros l. apply Permutation.Permutation_refl.
  - apply increasing_seq.
  - discriminate.
  - split; [reflexivity|]. intros row [<-|[]]; reflexivity.
  - split; [reflexivity|]. intros row [<-|[]]; reflexivity.
  - intros i x [E|[]]. injection E as _ <-. split; [rewrite bad_core; left; reflexivity|]. split; reflexivity.
  - intros s x Hs _. rewrite bad_core in Hs. destruct Hs as [<-|[]]. exists 1. vm_compute. reflexivity.
Qed.

Lemma bad_labelled : labelled bad_sp [] (p_nwages (in_params bad_inp)) bad_labels.
Proof.
  constructor; try reflexivity.
  - repeat constructor; simpl; intuition discriminate.
  - simpl. lia.
  - intros l [].
Qed.

Lemma bad_shock_1 : shock_of bad_params [false; true; true] [0; 0; 0]%R 1 = 1%R.
Proof.
  unfold shock_of, correlated. cbn. unfold rsum, mat. cbn.
  replace (0 * 1 + (0 * 0 + 0))%R with 0%R by lra. unfold clip, max_log_float.
  rewrite Rmax_right by lra. rewrite Rmin_right by lra. apply exp_0.
Qed.
Lemma bad_shock_2 : shock_of bad_params [false; true; true] [0; 0; 0]%R 2 = 0%R.
Proof. unfold shock_of, correlated. cbn. unfold rsum, mat. cbn. lra. Qed.

Lemma bad_simulation : exists sp neg k grid ss inp ev si order next_key n N base base_wage df panel lb,
  simulation_setup sp neg k grid ss inp ev si order n (seq 0 N) base base_wage df /\
  simulate_n_step (environment_of ss inp ev) si order next_key 0 n base base_wage df = Ok panel /\
  labelled sp grid (p_nwages (in_params inp)) lb /\ 0 < n /\
  Model_Data.check_simulated_data (info_of lb) (simulated_categories lb) (simulated_data lb panel) <> Ok tt.
Proof.
  set (nk := fun (_ : nat) (_ : index) (k _ : nat) => k).
  destruct (Proof_PanelModel.panel_model bad_sp bad_neg 0 [] bad_ss bad_inp (initial_ev bad_ss) bad_standard
     (su_ev _ _ _ _ _ _ _ _ _ _ _ _ _ _ bad_setup) bad_si (fun l => l) nk 1 (seq 0 1) [[0; 0; 0]]%R [[0; 0; 0]]%R bad_df bad_setup)
     as [panel [E [I [_ [_ R]]]]].
  exists bad_sp, bad_neg, 0, [], bad_ss, bad_inp, (initial_ev bad_ss), bad_si, (fun l => l), nk, 1, 1, [[0; 0; 0]]%R, [[0; 0; 0]]%R, bad_df, panel, bad_labels.
  split; [exact bad_setup|]. split; [exact E|]. split; [exact bad_labelled|]. split; [lia|].
  intros C. pose proof (proj1 (simulated_check_iff _ _ _ _ _ _ _ _ _ _ _ _ _ _ _ _ _ bad_setup E bad_labelled (le_n 1)) C) as Q.
  destruct panel as [|[[id t] o] panel]; [discriminate|]. injection I as -> -> _.
  destruct (R 0 0 o (or_introl eq_refl)) as [p [s [m [Hp [Hs [Hm RR]]]]]].
  assert (p = 0) by (destruct p as [|[|]]; [reflexivity|discriminate|discriminate]). subst p.
  simpl in Hs, Hm. injection Hs as <-. injection Hm as <-.
  assert (ST : i_core (o_ind o) = mkState 0 [0; 0] []).
  { pose proof (proj1 (rr_state _ _ _ _ _ _ _ _ _ _ _ _ RR)) as H. rewrite bad_core in H. destruct H as [H|[]]. auto. }
  assert (CS : choices_of bad_sp bad_neg 0 [] (o_ind o) = [false; true; true]).
  { unfold choices_of. rewrite ST. vm_compute. reflexivity. }
  destruct (rr_values _ _ _ _ _ _ _ _ _ _ _ _ RR) as [d [_ V]]. rewrite CS in V.
  destruct (V 0 1 eq_refl) as [v1 [V1 [Z1 _]]]. destruct (V 1 2 eq_refl) as [v2 [V2 [Z2 _]]].
  specialize (Z1 eq_refl). specialize (Z2 eq_refl). subst v1 v2.
  assert (F1 : flow_of bad_inp [false; true; true] (context [] (o_ind o)) (i_core (o_ind o)) [0; 0; 0]%R 1 = 1%R).
  { unfold flow_of. change (in_params bad_inp) with bad_params. rewrite bad_shock_1. unfold wage_of, nonpec_of, linear_index, rsum. cbn. rewrite exp_0. lra. }
  assert (F2 : flow_of bad_inp [false; true; true] (context [] (o_ind o)) (i_core (o_ind o)) [0; 0; 0]%R 2 = 0%R).
  { unfold flow_of. change (in_params bad_inp) with bad_params. rewrite bad_shock_2. unfold wage_of, nonpec_of. cbn. lra. }
  rewrite F1 in V1. rewrite F2 in V2. rewrite Rmult_0_r, Rplus_0_r in V1, V2.
  pose proof (rr_length _ _ _ _ _ _ _ _ _ _ _ _ RR) as L. rewrite CS in L.
  assert (OV : o_values o = [1; 0]%R).
  { destruct (o_values o) as [|a [|b [|]]]; try discriminate. simpl in V1, V2. congruence. }
  pose proof (rr_choice _ _ _ _ _ _ _ _ _ _ _ _ RR) as RC. rewrite CS, OV in RC.
  assert (A : argmax [1; 0]%R = Some 0).
  { unfold argmax, argmax_from. destruct (Rlt_dec 1 0); [lra|]. reflexivity. }
  unfold record_choice in RC. rewrite A in RC. change (Some 2 = Some (o_choice o)) in RC. injection RC as RC.
  destruct (rr_wage _ _ _ _ _ _ _ _ _ _ _ _ RR) as [j [c [[v [Hv [FM _]]] [Hj W]]]]. rewrite CS in Hj. rewrite OV in Hv, FM.
  assert (j = 0).
  { destruct j as [|[|j]]; [reflexivity| |destruct j; discriminate]. simpl in Hv. injection Hv as <-. specialize (FM 0 1%R eq_refl). lra. }
  subst j. change (nth_error [1; 2] 0 = Some c) in Hj. injection Hj as <-.
  change (1 <? p_nwages (in_params bad_inp)) with true in W. cbv iota in W.
  assert (X : o_choice o < p_nwages (in_params bad_inp)) by (apply (Q 0 0 o (or_introl eq_refl)); eexists; exact W).
  rewrite <- RC in X. simpl in X. lia.
Qed.
