(** Concrete populations used in the examples about what simulated individuals get on average. *)
From Coq Require Import List Arith Bool Reals Lra Lia.
From Verif Require Import Base Proof_Base Model_CoreStateSpace Spec_CoreStateSpace Proof_CoreStateSpace Model_StateSpace Spec_StateSpace
  Proof_StateSpace Props_StateSpace Model_Solve Spec_Solve Proof_Solve Proof_Value Proof_SolveProps Examples_Solve Model_Parallel Spec_Parallel Proof_Parallel
  Model_Simulate Spec_Simulate Proof_Simulate Proof_PanelModel Examples_Simulate Spec_Paths Proof_Paths Spec_Attained Proof_Attained.
Import ListNotations.
Local Open Scope R_scope.

(** Three periods with two draws each: eight individuals. *)
Definition att_si : sim_spec := mkSim ex_params [0%nat; 1%nat] 1 [/ 2; 0].
Definition att_B (t i : nat) : list R := repeat (INR i) 2.
Definition att_x : individual := mkInd (mkState 0 [0%nat] []) [1%nat].
Definition att_ids : list nat := seq 0 8.
Definition att_base : list (list R) := flat_map (fun t => map (fun q => att_B t (nth t q 0%nat)) (sequences 2 3)) (seq 0 3).
Definition att_df : frame individual := map (fun id => ((id, 0%nat), att_x)) att_ids.

Lemma att_draws : draws_shape (length att_ids * 3) 2 att_base.
Proof.
  split; [reflexivity|]. intros row H. apply in_flat_map in H. destruct H as [t [_ H]]. apply in_map_iff in H. destruct H as [q [<- _]].
  unfold att_B. apply repeat_length.
Qed.
Lemma att_core : forall s, In s (create_core_state_space ex_sp) -> exists e, cs_exp s = [e] /\ (e <= 1)%nat.
Proof.
  intros s Hs. assert (A : forallb (fun s => match cs_exp s with [e] => Nat.leb e 1 | _ => false end) (create_core_state_space ex_sp) = true) by (vm_compute; reflexivity).
  rewrite forallb_forall in A. specialize (A s Hs). destruct (cs_exp s) as [|e [|]]; try discriminate. exists e. split; [reflexivity|]. apply Nat.leb_le. exact A.
Qed.
Lemma att_choices : forall s, In s (create_core_state_space ex_sp) ->
  choice_set_of ex_sp (process ex_sp 1 (fun _ => None)) (Some [1%nat]) s = [true; true] \/
  choice_set_of ex_sp (process ex_sp 1 (fun _ => None)) (Some [1%nat]) s = [false; true].
Proof.
  intros s Hs.
  assert (A : forallb (fun s => match choice_set_of ex_sp (process ex_sp 1 (fun _ => None)) (Some [1%nat]) s with
     | [_; true] => true | _ => false end) (create_core_state_space ex_sp) = true) by (vm_compute; reflexivity).
  rewrite forallb_forall in A. specialize (A s Hs).
  destruct (choice_set_of _ _ _ s) as [|[|] [|[|] [|]]]; try discriminate; [left|right]; reflexivity.
Qed.

Lemma att_setup : forall ev, ev_shape ex_ss ev ->
  simulation_setup ex_sp (fun _ => None) 0 ex_grid ex_ss ex_inp ev att_si (fun l => l) 3 att_ids att_base att_base att_df.
Proof.
  intros ev SH. constructor; try reflexivity.
  - exact ex_standard.
  - exact SH.
  - intros l. apply Permutation.Permutation_refl.
  - cbn. repeat (split; [intros y Hy; cbn in Hy; lia|]). exact I.
  - discriminate.
  - apply att_draws.
  - apply att_draws.
  - intros i x H. apply in_map_iff in H. destruct H as [id [[= _ <-] _]]. split; [|split; [reflexivity|]].
    + apply (in_by_compute _ core_state_eq_dec); vm_compute; reflexivity.
    + apply (in_by_compute _ (list_eq_dec Nat.eq_dec)); vm_compute; reflexivity.
  - intros s x Hs Hx. apply ex_choice_exists; [exact Hs|exact Hx].
Qed.
Lemma att_every : every_sequence ex_sp (fun _ => None) 0 ex_grid ex_inp att_B 2 3 att_ids att_base att_df att_x.
Proof.
  constructor.
  - lia.
  - intros t i. apply repeat_length.
  - intros s Hs. change (context ex_grid att_x) with (Some [1%nat]). destruct (att_choices s Hs) as [-> | ->]; reflexivity.
  - reflexivity.
  - intros p q t Hp Ht. unfold own_draws. change (length att_ids) with 8%nat.
    destruct p as [|[|[|[|[|[|[|[|p]]]]]]]]; cbn in Hp; try (injection Hp as <-; destruct t as [|[|[|t]]]; [reflexivity|reflexivity|reflexivity|lia]).
    destruct p; discriminate.
  - intros i y H. apply in_map_iff in H. destruct H as [id [[= _ <-] _]]. reflexivity.
Qed.
Lemma att_in_place : forall s, In s (create_core_state_space ex_sp) ->
  in_place (choice_set_of ex_sp (process ex_sp 1 (fun _ => None)) (context ex_grid att_x) s).
Proof.
  intros s Hs. change (context ex_grid att_x) with (Some [1%nat]). destruct (att_choices s Hs) as [-> | ->]; intros j c H.
  - destruct j as [|[|j]]; cbn in H; [injection H as <-; left; reflexivity|injection H as <-; left; reflexivity|destruct j; discriminate].
  - destruct j as [|j]; cbn in H; [injection H as <-; right; cbn; lia|destruct j; discriminate].
Qed.
Lemma value_nonneg : forall (pb : problem core_state) delta n s, 0 <= value pb delta n s.
Proof.
  intros pb delta [|n] s; cbn [value]; [lra|]. unfold mean. apply Rmult_le_pos.
  - set (f := fun u => max0 _). induction (pb_flows pb s) as [|u l IH]; [cbn; lra|]. cbn [map rsum fold_right]. unfold rsum in IH.
    assert (X : 0 <= f u) by apply max0_nonneg. lra.
  - rewrite map_length. destruct (pb_flows pb s); [cbn; rewrite Rinv_0; lra|]. apply Rlt_le, Rinv_0_lt_compat, lt_0_INR. cbn. lia.
Qed.
Lemma att_pays : some_choice_pays ex_sp (fun _ => None) 0 ex_inp (context ex_grid att_x).
Proof.
  intros s u Hs Hu.
  pose proof (att_setup (initial_ev ex_ss) (initial_ev_shape ex_ss)) as SU.
  rewrite (flows _ _ _ _ _ _ _ _ _ _ _ _ _ _ _ _ SU att_every s Hs) in Hu.
  apply in_map_iff in Hu. destruct Hu as [i [<- Hi]].
  pose proof (alternatives_at ex_sp (fun _ => None) 0 ex_grid ex_inp att_B att_x s i Hs) as E. rewrite E. clear E.
  exists (decision_value ex_sp (fun _ => None) 0 ex_grid ex_inp 1 (cs_period s) (mkInd s (i_dense att_x)) (att_B (cs_period s) i) 1%nat). split.
  - apply in_map. apply In_positions. change (context ex_grid att_x) with (Some [1%nat]). destruct (att_choices s Hs) as [-> | ->]; reflexivity.
  - unfold decision_value. match goal with |- context [value ?p ?dl ?m ?st] => pose proof (value_nonneg p dl m st) as V; set (w := value p dl m st) in * end.
    unfold flow_of. cbn [i_core]. change (context ex_grid (mkInd s (i_dense att_x))) with (Some [1%nat]).
    destruct (att_core s Hs) as [e [He Le]].
    assert (N : nonpec_of (in_params ex_inp) (in_cov ex_inp (Some [1%nat]) s) 1 = 1 - INR e).
    { cbn. unfold nonpec_of, linear_index. cbn. rewrite He. cbn. ring. }
    rewrite N. assert (Ie : INR e <= 1) by (change 1 with (INR 1); apply le_INR; exact Le).
    assert (Wg : wage_of (in_params ex_inp) (in_cov ex_inp (Some [1%nat]) s) 1 = 1) by reflexivity. rewrite Wg.
    assert (P : 0 <= INR i) by apply pos_INR.
    assert (Sh : 0 <= shock_of (in_params ex_inp) (choices_of ex_sp (fun _ => None) 0 ex_grid (mkInd s (i_dense att_x))) (att_B (cs_period s) i) 1).
    { unfold choices_of. change (context ex_grid (mkInd s (i_dense att_x))) with (Some [1%nat]). cbn [i_core].
      unfold shock_of. cbn [Nat.ltb Nat.leb in_params ex_inp p_nwages ex_params p_chol].
      destruct (att_choices s Hs) as [-> | ->]; unfold correlated, mat; cbn; lra. }
    match type of Sh with 0 <= ?h => set (hh := h) in * end.
    change (p_delta (in_params ex_inp)) with (19 / 20). nra.
Qed.

(** One period, one choice with a negative reward. *)
Definition neg_si : sim_spec := mkSim (in_params (one_inp (-1))) [0%nat] 1 [0].
Definition neg_x : individual := mkInd one_state [].
Definition neg_df : frame individual := [((0%nat, 0%nat), neg_x)].
Lemma neg_setup : forall ev, ev_shape one_ss ev ->
  simulation_setup one_sp one_neg 0 [] one_ss (one_inp (-1)) ev neg_si (fun l => l) 1 [0%nat] [[0]] [[0]] neg_df.
Proof.
  intros ev SH. constructor; try reflexivity.
  - apply one_standard.
  - exact SH.
  - intros l. apply Permutation.Permutation_refl.
  - cbn. split; [intros y []|exact I].
  - discriminate.
  - split; [reflexivity|]. intros row [<-|[]]. reflexivity.
  - split; [reflexivity|]. intros row [<-|[]]. reflexivity.
  - intros i x [[= _ <-]|[]]. split; [vm_compute; left; reflexivity|]. split; [reflexivity|exact I].
  - intros s x Hs _. exists 0%nat. vm_compute in Hs. destruct Hs as [<-|[]]. reflexivity.
Qed.
Lemma neg_every : every_sequence one_sp one_neg 0 [] (one_inp (-1)) (fun _ _ => [0]) 1 1 [0%nat] [[0]] neg_df neg_x.
Proof.
  constructor.
  - lia.
  - reflexivity.
  - intros s Hs. vm_compute in Hs. destruct Hs as [<-|[]]. reflexivity.
  - reflexivity.
  - intros p q t Hp Ht. destruct p as [|p]; cbn in Hp; [|destruct p; discriminate]. injection Hp as <-. assert (t = 0)%nat by lia. subst t. reflexivity.
  - intros i y [[= _ <-]|[]]. reflexivity.
Qed.
Lemma neg_in_place : forall s, In s (create_core_state_space one_sp) -> in_place (choice_set_of one_sp (process one_sp 1 one_neg) (context [] neg_x) s).
Proof.
  intros s Hs j c H. vm_compute in Hs. destruct Hs as [<-|[]]. destruct j as [|j]; cbn in H; [injection H as <-; left; reflexivity|destruct j; discriminate].
Qed.
Lemma average_below : exists sp neg k grid ss inp ev0 ev si order next_key ids base base_wage df panel B D x d v,
  0 < p_delta (in_params inp) /\ ev_shape ss ev0 /\ solve_with_backward_induction ss inp ev0 = Ok ev /\
  simulation_setup sp neg k grid ss inp ev si order (sp_nperiods sp) ids base base_wage df /\
  every_sequence sp neg k grid inp B D (sp_nperiods sp) ids base df x /\
  simulate_n_step (environment_of ss inp ev) si order next_key 0 (sp_nperiods sp) base base_wage df = Ok panel /\
  dense_combination grid d (context grid x) /\ value_at ss ev (i_core x) d v /\ si_beta si = 1 /\
  (forall s, In s (create_core_state_space sp) -> in_place (choice_set_of sp (process sp (S k) neg) (context grid x) s)) /\
  mean (map (lifetime_utility sp neg k grid inp panel (sp_nperiods sp)) ids) < v.
Proof.
  destruct (backward_induction 1 1 (create_core_state_space one_sp) (choice_set_of one_sp (process one_sp 1 one_neg)) [] one_ss (one_inp (-1)))
    with (ev0 := initial_ev one_ss) as [ev [E [SH _]]].
  - apply core_nodup.
  - exact (sm_closed _ _ _ _ _ _ (one_standard (-1))).
  - intros vec s1 s2 [].
  - reflexivity.
  - apply (standard_wf_inputs _ _ _ _ _ _ (one_standard (-1))).
  - intros s Hs. apply (core_periods one_sp); [apply (one_standard (-1))|simpl; lia|exact Hs].
  - apply (one_standard (-1)).
  - simpl. lra.
  - apply initial_ev_shape.
  - pose proof (neg_setup ev SH) as SU.
    destruct (panel_model _ _ _ _ _ _ _ (one_standard (-1)) SH neg_si (fun l => l) (fun _ _ _ _ => 0%nat) 1 [0%nat] [[0]] [[0]] neg_df SU)
      as [panel [HP [HI [H0 [_ HR]]]]].
    destruct (solve_model _ _ _ _ _ _ (initial_ev one_ss) (one_standard (-1))) as [ev' [E' H]]; [simpl; lra|apply initial_ev_shape|].
    rewrite E in E'. injection E' as <-.
    assert (D : dense_combination [] None None) by (split; reflexivity).
    assert (I : In one_state (create_core_state_space one_sp)) by (vm_compute; left; reflexivity).
    assert (V : value (problem_of one_sp one_neg 0 (one_inp (-1)) None) 1 1 one_state = 0).
    { cbn. unfold transform_draw, linear_index, nonpec_of, wage_of, mean, max0. cbn. unfold linear_index. cbn. rewrite Rmax_right by lra. lra. }
    assert (Hv : value_at one_ss ev one_state None 0) by (apply (H one_state None None I D); symmetry; exact V).
    exists one_sp, one_neg, 0%nat, [], one_ss, (one_inp (-1)), (initial_ev one_ss), ev, neg_si, (fun l => l), (fun _ _ _ _ => 0%nat),
      [0%nat], [[0]], [[0]], neg_df, panel, (fun _ _ => [0]), 1%nat, neg_x, None, 0.
    split; [simpl; lra|]. split; [apply initial_ev_shape|]. split; [exact E|]. split; [exact SU|]. split; [exact neg_every|].
    split; [exact HP|]. split; [exact D|]. split; [exact Hv|]. split; [reflexivity|]. split; [exact neg_in_place|].
    cbn in HI. destruct panel as [|[i o] [|]]; try discriminate HI. cbn in HI. injection HI as ->.
    destruct (HR 0%nat 0%nat o (or_introl eq_refl)) as (p & s & m & Hp & Hs & _ & RR).
    assert (Ex : o_ind o = neg_x) by (destruct (H0 0%nat o (or_introl eq_refl)) as [Q|[]]; congruence).
    assert (Es : s = [0]).
    { destruct p as [|p]; [|destruct p; discriminate Hp]. cbn in Hs. congruence. }
    pose proof (rr_available _ _ _ _ _ _ _ _ _ _ _ _ RR) as A. pose proof (rr_shocks _ _ _ _ _ _ _ _ _ _ _ _ RR) as R2.
    rewrite Ex in A. assert (C : o_choice o = 0%nat).
    { unfold available in A. destruct (o_choice o) as [|c]; [reflexivity|]. vm_compute in A. destruct c; discriminate A. }
    unfold lifetime_utility, mean. cbn. unfold utility. rewrite C, Ex, R2, Es. unfold flow_of, shock_of, correlated, mat, wage_of, nonpec_of, linear_index. cbn. lra.
Qed.
