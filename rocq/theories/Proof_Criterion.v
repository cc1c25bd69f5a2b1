(** Proofs about the likelihood of simulated data. *)
From Coq Require Import String List Arith ZArith Bool Reals Lia Lra.
From Verif Require Import Base Proof_Base Model_CoreStateSpace Spec_CoreStateSpace Proof_CoreStateSpace
  Model_StateSpace Spec_StateSpace Proof_StateSpace Proof_DenseGrid Model_Choices Model_Processing Spec_Processing
  Proof_ProcessingChecks Model_Parallel Spec_Parallel
  Model_Solve Spec_Solve Proof_Solve Proof_SolveProps Model_Simulate Spec_Simulate Proof_Simulate Proof_SimulateProps Proof_Panel Proof_PanelModel
  Model_Draws Model_ConditionalDraws Model_Likelihood Spec_Likelihood Proof_Likelihood Proof_LikelihoodPanel
  Model_Dataset Spec_Dataset Proof_Dataset Proof_DatasetCheck Proof_DatasetEstimation Model_Criterion Spec_Criterion.
From Verif Require Model_Data Spec_Data.
Import ListNotations.
Open Scope list_scope.
Open Scope nat_scope.

Section Entries.
  Variables (sp : core_spec) (neg : neg_set) (kp : nat) (grid : list (list nat))
    (ss : state_space) (inp : inputs) (ev : list (list R)) (draws : nat -> nat -> list (list R)).
  Hypothesis SM : standard_model sp neg kp grid ss inp.
  Hypothesis SH : ev_shape ss ev.
  Let core := create_core_state_space sp.
  Let csf := choice_set_of sp (process sp (S kp) neg).
  Let np := sp_nperiods sp.
  Let nch := sp_nchoices sp.
  Let CF : collision_free core csf grid := sm_collisions _ _ _ _ _ _ SM.
  Let CR : create_state_space np core csf grid = Ok ss := sm_created _ _ _ _ _ _ SM.
  Let F : ss_facts np core csf grid ss := create_state_space_facts _ _ _ _ _ CR.
  Let ND : NoDup core := core_nodup sp.
  Let CL : closed_under_choices np core csf := sm_closed _ _ _ _ _ _ SM.
  Let WI : wf_inputs nch csf inp := standard_wf_inputs _ _ _ _ _ _ SM.

  Lemma entries_found : forall t x, in_model core grid t x -> exists k pos,
    locate ss (i_core x) (i_dense x) = Ok (k, pos) /\
    entries_of sp neg kp grid ss inp ev (likelihood_env ss inp ev draws) k pos t x.
  Proof.
    intros t x IM. assert (Ht : t < np) by (apply (in_model_period sp neg kp grid ss inp SM _ _ IM)).
    destruct (locate_spec sp neg kp grid ss inp SM t x IM) as [d [k [r [Dc [L E]]]]].
    destruct IM as [H1 [H2 H3]].
    destruct (located_facts _ _ _ _ _ _ _ _ _ CF F L) as
      [ctx' [cx [ck [inds [i [D' [Hk [Ecx [Gi [Hr Hi]]]]]]]]]].
    assert (ctx' = context grid x) by (eapply dense_combination_fun; eauto). subst ctx'.
    destruct (rewards_row nch np core csf grid ss inp CF CR WI _ _ _ _ _ L Dc) as [wn [inds' [Ew [_ [_ [_ [Rw Rn]]]]]]].
    destruct (continuation_values_spec R 0%R _ _ _ _ _ ev _ _ _ _ _ ND CL CF CR SH L Dc
                  ltac:(rewrite H2; exact Ht)) as [M [row [EM [Hrow [Lrow [Last Mid]]]]]].
    rewrite H2 in *.
    assert (Hcx : dense_key_to_complex ss k = Some cx).
    { unfold dense_key_to_complex. rewrite nth_error_map, Hk. reflexivity. }
    assert (P : fst (fst cx) = t) by (subst cx; reflexivity).
    exists k, r. split; [exact E|]. constructor; cbn [le_choice_set le_wages le_nonpec le_cont likelihood_env].
    - rewrite Hcx. subst cx. reflexivity.
    - rewrite Ew. exact (nth_error_nth _ _ [] Rw).
    - rewrite Ew. exact (nth_error_nth _ _ [] Rn).
    - rewrite Hcx, P, EM, (nth_error_nth _ _ [] Hrow). exact Lrow.
    - exists d. split; [exact Dc|]. intros j c Hj. rewrite Hcx, P, EM, (nth_error_nth _ _ [] Hrow).
      destruct (nth_error row j) as [v|] eqn:Ev.
      + exists v. split; [reflexivity|]. split.
        * intros Z. exact (Last Z v (nth_error_In _ _ Ev)).
        * intros Z. destruct (Mid Z j c Hj) as [v' [Hv Va]]. congruence.
      + exfalso. apply nth_error_None in Ev. pose proof (nth_error_lt _ _ _ _ Hj) as Lt.
        unfold choices_of in Lt. rewrite length_positions in Lt. fold csf in Lt. lia.
  Qed.
End Entries.

Lemma row_number_spec : forall l j idx, NoDup l -> nth_error l j = Some idx -> row_number idx l = Some j.
Proof.
  induction l as [|i l IH]; intros [|j] idx N H; try discriminate; cbn in H |- *; inversion N; subst.
  - injection H as ->. rewrite !Nat.eqb_refl. reflexivity.
  - destruct (Nat.eqb_spec (fst i) (fst idx)) as [E1|E1]; cbn [andb].
    + destruct (Nat.eqb_spec (snd i) (snd idx)) as [E2|E2].
      * exfalso. apply H2. assert (i = idx) by (destruct i, idx; cbn in *; congruence). subst. eapply nth_error_In; exact H.
      * rewrite (IH j idx H3 H). reflexivity.
    + rewrite (IH j idx H3 H). reflexivity.
Qed.

Section Criterion.
  Variables (sp : core_spec) (neg : neg_set) (k : nat) (grid : list (list nat)) (ss : state_space) (inp : inputs)
    (ev : list (list R)) (si : sim_spec) (order : list nat -> list nat) (next_key : nat -> index -> nat -> nat -> nat)
    (n N : nat) (base base_wage : list (list R)) (df : frame individual) (panel : frame outcome) (lb : labels).
  Hypothesis SU : simulation_setup sp neg k grid ss inp ev si order n (seq 0 N) base base_wage df.
  Hypothesis RUN : simulate_n_step (environment_of ss inp ev) si order next_key 0 n base base_wage df = Ok panel.
  Hypothesis LA : labelled sp grid (p_nwages (in_params inp)) lb.
  Hypothesis T1 : 1 <= lb_ntypes lb.
  Let csf := choice_set_of sp (process sp (S k) neg).

  Lemma with_type_as : forall t r, with_type lb t r = (i_core (o_ind (snd r)), i_dense (as_type lb t (o_ind (snd r)))).
  Proof. reflexivity. Qed.

  Lemma type_known : forall t, t < lb_ntypes lb -> nth_error (all_types lb) t = Some t.
  Proof.
    intros t Ht. unfold all_types. destruct (Nat.leb_spec 2 (lb_ntypes lb)).
    - rewrite nth_error_nth' with (d := 0) by (rewrite seq_length; exact Ht). rewrite seq_nth by exact Ht. reflexivity.
    - assert (t = 0) by lia. subst. reflexivity.
  Qed.

  Lemma as_type_in_model : forall id p o t, In ((id, p), o) panel -> t < lb_ntypes lb ->
    in_model (create_core_state_space sp) grid p (as_type lb t (o_ind o)).
  Proof.
    intros id p o t I Ht.
    destruct (row_facts sp neg k grid ss inp ev si order next_key n N base base_wage df panel SU RUN id p o I) as [P [_ [_ [_ [C _]]]]].
    split; [exact C|]. split; [exact P|].
    destruct (known_dense sp neg k grid ss inp ev si order next_key n N base base_wage df panel lb SU RUN LA id p o t I
       (nth_error_In _ _ (type_known t Ht))) as [G|G].
    - rewrite G. exact Logic.I.
    - destruct grid; [exact Logic.I|exact G].
  Qed.

  Lemma prepared_all : 0 < n -> exists locations,
    prepare_estimation lb sp csf grid (simulated_categories lb) (simulated_data lb panel) =
      Ok (map (observation_of lb) panel, locations) /\
    forall id p o t, In ((id, p), o) panel -> t < lb_ntypes lb ->
      stored_location (map (observation_of lb) panel) locations (id, p) (mkObs (o_choice o) (o_wage o)) t =
        locate ss (i_core (o_ind o)) (i_dense (as_type lb t (o_ind o))).
  Proof.
    intros Hn. pose proof (su_model _ _ _ _ _ _ _ _ _ _ _ _ _ _ SU) as SM.
    unfold prepare_estimation. rewrite (estimation_check sp neg k grid ss inp ev si order next_key n N base base_wage df panel lb SU RUN LA Hn).
    cbn [result_bind]. rewrite (data_processed sp neg k grid ss inp ev si order next_key n N base base_wage df panel lb SU RUN LA).
    cbn [result_bind]. rewrite for_each_type_eq.
    set (obs := flat_map (fun t => map (with_type lb t) panel) (all_types lb)).
    assert (OK : forall s dense, In (s, dense) obs -> In s (create_core_state_space sp) /\ dense_known grid dense).
    { intros s dense I. unfold obs in I. apply in_flat_map in I. destruct I as [t [Ht I]]. apply in_map_iff in I.
      destruct I as [[[id p] o] [E I]]. injection E as <- <-. split.
      - apply (row_facts sp neg k grid ss inp ev si order next_key n N base base_wage df panel SU RUN id p o I).
      - exact (known_dense sp neg k grid ss inp ev si order next_key n N base base_wage df panel lb SU RUN LA id p o t I Ht). }
    destruct (locate_data_iff sp csf grid ss obs (sm_collisions _ _ _ _ _ _ SM) (sm_created _ _ _ _ _ _ SM)) as [[_ LD] _].
    destruct (LD OK) as [[w locs] E]. rewrite E. cbn [result_bind snd]. exists locs. split; [reflexivity|].
    unfold locate_data in E. unfold csf in E. rewrite (sm_created _ _ _ _ _ _ SM) in E. cbn [result_bind] in E.
    destruct (result_all (map (fun o => locate ss (fst o) (snd o)) obs)) as [locs'| | | | |] eqn:EL; try discriminate.
    cbn [result_bind] in E. injection E as _ <-.
    intros id p o t I Ht. destruct (In_nth_error _ _ I) as [j Hj]. cbv beta in Hj.
    assert (Lt : j < List.length panel) by (exact (nth_error_lt _ _ _ _ Hj)).
    pose proof (nth_flat_blocks _ _ (fun t l => map (with_type lb t) l) panel (List.length panel) (fun t => map_length _ _) (all_types lb) _ _ j
                  (type_known t Ht) Lt) as NB.
    cbv beta in NB. fold obs in NB. pose proof (eq_trans NB (map_nth_error (with_type lb t) j panel Hj)) as NB'. clear NB.
    destruct (nth_error_result_all _ _ _ _ _ _ _ EL NB') as [kr [Hkr Lkr]].
    unfold stored_location. rewrite map_map, map_length. cbn [observation_of fst].
    rewrite (row_number_spec _ j).
    - rewrite Hkr. rewrite with_type_as in Lkr. cbn [fst snd] in Lkr. symmetry. exact Lkr.
    - pose proof (panel_facts sp neg k grid ss inp ev si order next_key n N base base_wage df panel SU RUN) as [PI _].
      assert (NP : NoDup (map fst panel)) by (rewrite PI; apply sorted_lt_NoDup; apply panel_index_sorted; eapply su_increasing; exact SU).
      exact NP.
    - exact (map_nth_error (fun r => fst r) j panel Hj).
  Qed.

  Theorem criterion_rows : 0 < n -> forall inp' ev' draws,
    standard_model sp neg k grid ss inp' -> ev_shape ss ev' ->
    exists locations,
    prepare_estimation lb sp csf grid (simulated_categories lb) (simulated_data lb panel) =
      Ok (map (observation_of lb) panel, locations) /\
    forall id p o t, In ((id, p), o) panel -> t < lb_ntypes lb -> exists key pos,
      stored_location (map (observation_of lb) panel) locations (id, p) (mkObs (o_choice o) (o_wage o)) t = Ok (key, pos) /\
      entries_of sp neg k grid ss inp' ev' (likelihood_env ss inp' ev' draws) key pos p (as_type lb t (o_ind o)).
  Proof.
    intros Hn inp' ev' draws SM' SH'. destruct (prepared_all Hn) as [locs [E L]]. exists locs. split; [exact E|].
    intros id p o t I Ht. rewrite (L id p o t I Ht).
    exact (entries_found sp neg k grid ss inp' ev' draws SM' SH' p (as_type lb t (o_ind o)) (as_type_in_model id p o t I Ht)).
  Qed.

  Theorem criterion_succeeds : 0 < n -> forall rc qr lk inp' ev' draws params x order_rows order_types,
    standard_model sp neg k grid ss inp' -> ev_shape ss ev' ->
    like_spec_of sp (p_nwages (in_params inp)) lk -> List.length params = lb_ntypes lb ->
    (forall key j, draws key j <> []) ->
    (forall id p o, In ((id, p), o) panel -> in_place (choices_of sp neg k grid (o_ind o))) ->
    (forall id p o t, In ((id, p), o) panel -> t < lb_ntypes lb ->
       available (choices_of sp neg k grid (as_type lb t (o_ind o))) (o_choice o)) ->
    exists v cs, criterion rc qr lk lb sp csf grid ss inp' ev' draws params x order_rows order_types
      (simulated_categories lb) (simulated_data lb panel) = Ok (v, cs).
  Proof.
    intros Hn rc qr lk inp' ev' draws params x order_rows order_types SM' SH' [K1 K2 K3 K4] LP DR IP AV.
    destruct (criterion_rows Hn inp' ev' draws SM' SH') as [locs [E L]].
    unfold criterion. rewrite E. cbn [result_bind fst snd].
    apply log_like_succeeds; [exact T1|exact LP|exact K1|lia|].
    intros idx ob t I Ht. unfold observed in I. rewrite map_map in I. apply in_map_iff in I. destruct I as [[[id p] o] [Er I]].
    cbn [observation_of fst snd cd_choice cd_wage] in Er. injection Er as <- <-.
    destruct (L id p o t I Ht) as [key [pos [El EN]]]. exists key, pos. split; [exact El|].
    destruct EN as [E1 E2 E3 E4 _]. unfold evaluable. cbv zeta. rewrite E1, E2, E3, E4. cbn [ob_code ob_wage].
    rewrite !map_length, !length_positions.
    split; [exact (AV id p o t I Ht)|]. split.
    - pose proof (recorded_is_best sp neg k grid ss inp ev si order next_key n N base base_wage df panel SU RUN id p o I (IP id p o I)) as [W _].
      rewrite K2. destruct (o_wage o) as [w|]; [right; apply W; eauto|left; reflexivity].
    - split.
      + rewrite K4. unfold choices_of, choice_set_of. rewrite map_length, seq_length. reflexivity.
      + split; [reflexivity|]. split; [reflexivity|]. split; [reflexivity|]. intros j. apply DR.
  Qed.
End Criterion.
