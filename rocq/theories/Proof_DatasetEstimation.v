(** Proofs about the data set of a simulation: its use in the estimation. *)
From Coq Require Import List Arith ZArith Bool String Reals Lia Lra Sorted FinFun.
From Verif Require Import Base Proof_Base Model_CoreStateSpace Spec_CoreStateSpace Proof_CoreStateSpace
  Model_StateSpace Spec_StateSpace Proof_StateSpace Proof_DenseGrid Model_Choices Proof_Labels Model_Processing Spec_Processing
  Proof_ProcessingChecks Model_Parallel Spec_Parallel
  Model_Solve Spec_Solve Model_Simulate Spec_Simulate Proof_Simulate Proof_SimulateProps Proof_Panel Proof_PanelModel
  Model_Dataset Spec_Dataset Proof_Dataset Proof_DatasetCheck.
From Verif Require Model_Data Spec_Data.
Import ListNotations.
Open Scope list_scope.
Open Scope nat_scope.

Lemma isort_sorted : forall A (leb : A -> A -> bool) l, StronglySorted (fun a b => leb a b = true) l -> isort leb l = l.
Proof.
  intros A leb l S. induction S as [|x l S IH F]; [reflexivity|]. unfold isort in *. simpl. rewrite IH.
  destruct l as [|y l]; [reflexivity|]. simpl. inversion F; subst. rewrite H1. reflexivity.
Qed.

Lemma sort_index_sorted : forall A (df : frame A), ordered_frame df -> sort_index df = df.
Proof.
  intros A df H. apply isort_sorted. unfold ordered_frame in H.
  induction df as [|[i x] df IH]; [constructor|]. simpl in H. inversion H as [|? ? S F]; subst. constructor; [apply IH; exact S|].
  apply Forall_forall. intros [j y] I. rewrite Forall_forall in F. specialize (F j (in_map fst _ _ I)).
  unfold index_lt in F. unfold index_leb. simpl. destruct (Nat.eqb_spec (fst i) (fst j)).
  - apply Nat.leb_le. lia.
  - apply Nat.ltb_lt. lia.
Qed.

Lemma seq_all_is : forall B (f : nat -> result B) n xs, List.length xs = n ->
  (forall i b, nth_error xs i = Some b -> f i = Ok b) -> result_all (map f (seq 0 n)) = Ok xs.
Proof.
  intros B f n xs L H. apply result_all_map_Ok. apply Forall2_nth_intro; [rewrite seq_length; auto|].
  intros i a b Ha Hb. assert (i < n) by (rewrite <- L; apply nth_error_Some; congruence).
  assert (X : nth_error (seq 0 n) i = Some i) by (rewrite nth_error_nth' with (d := 0) by (rewrite seq_length; lia); rewrite seq_nth by lia; reflexivity).
  rewrite X in Ha. injection Ha as <-. apply H. exact Hb.
Qed.

Lemma coded_label : forall lb c s, NoDup (lb_choices lb) -> List.length (lb_choices lb) <= 256 ->
  nth_error (lb_choices lb) c = Some s -> coded_choice lb (Some s) = Ok c.
Proof.
  intros lb c s ND L H. unfold coded_choice. rewrite (label_to_code_known (map Label (lb_choices lb)) c (Label s)).
  - rewrite Nat.mod_small; [reflexivity|]. assert (c < List.length (lb_choices lb)) by (apply nth_error_Some; congruence). lia.
  - apply Injective_map_NoDup; [|exact ND]. intros a b E. injection E. auto.
  - rewrite nth_error_map, H. reflexivity.
Qed.

Lemma nth_flat_blocks : forall A B (f : nat -> list A -> list B) (l : list A) len, (forall t, List.length (f t l) = len) ->
  forall ts a t j, nth_error ts a = Some t -> j < len ->
  nth_error (flat_map (fun t => f t l) ts) (a * len + j) = nth_error (f t l) j.
Proof.
  intros A B f l len L. induction ts as [|t0 ts IH]; intros [|a] t j Ha Hj; try discriminate; simpl in *.
  - injection Ha as ->. rewrite nth_error_app1 by (rewrite L; exact Hj). reflexivity.
  - rewrite nth_error_app2 by (rewrite L; lia). rewrite L. replace (len + a * len + j - len) with (a * len + j) by lia. apply IH; assumption.
Qed.

Section Estimation.
  Variables (sp : core_spec) (neg : neg_set) (k : nat) (grid : list (list nat)) (ss : state_space) (inp : inputs)
    (ev : list (list R)) (si : sim_spec) (order : list nat -> list nat) (next_key : nat -> index -> nat -> nat -> nat)
    (n N : nat) (base base_wage : list (list R)) (df : frame individual) (panel : frame outcome) (lb : labels).
  Hypothesis SU : simulation_setup sp neg k grid ss inp ev si order n (seq 0 N) base base_wage df.
  Hypothesis RUN : simulate_n_step (environment_of ss inp ev) si order next_key 0 n base base_wage df = Ok panel.
  Hypothesis LA : labelled sp grid (p_nwages (in_params inp)) lb.

  Lemma natural_of_nat : forall x, natural (Some (Z.of_nat x)) = Ok x.
  Proof. intros x. unfold natural. destruct (Z.leb_spec 0 (Z.of_nat x)); [rewrite Nat2Z.id; reflexivity|lia]. Qed.

  Lemma row_processed : forall id t o, In ((id, t), o) panel ->
    process_row lb (data_row lb ((id, t), o)) = Ok (observation_of lb ((id, t), o)).
  Proof.
    intros id t o H.
    destruct (row_facts sp neg k grid ss inp ev si order next_key n N base base_wage df panel SU RUN id t o H) as [Hp [Hc [Le [[Ll Hl] _]]]].
    destruct (dense_facts sp neg k grid ss inp ev si order next_key n N base base_wage df panel lb SU RUN LA id t o H) as [Hd _].
    pose proof (la_names _ _ _ _ LA) as ND. pose proof (la_choices _ _ _ _ LA) as LC. pose proof (la_few _ _ _ _ LA) as FW.
    assert (CC : forall c, c < sp_nchoices sp -> coded_choice lb (label_of lb (Some c)) = Ok c).
    { intros c Hcc. destruct (label_of_lt lb c) as [s [E [_ Ns]]]; [lia|]. rewrite E. apply coded_label; [exact ND|lia|exact Ns]. }
    unfold process_row, data_row.
    cbn [Model_Data.r_id Model_Data.r_period Model_Data.r_choice Model_Data.r_wage Model_Data.r_lags Model_Data.r_exps Model_Data.r_obs fst snd].
    rewrite !natural_of_nat. cbn [result_bind]. rewrite CC by exact Hc. cbn [result_bind].
    set (s := i_core (o_ind o)) in *.
    assert (CL : exists codes, cs_lag s = map Some codes /\ forall c, In c codes -> c < sp_nchoices sp).
    { clear Ll. induction (cs_lag s) as [|l lags IH]; [exists []; split; [reflexivity|intros c []]|].
      destruct (Hl l (or_introl eq_refl)) as [c [-> Hcc]]. destruct IH as [codes [-> Hcs]]; [intros y Hy; apply Hl; right; exact Hy|].
      exists (c :: codes). split; [reflexivity|]. intros c' [<-|I]; auto. }
    destruct CL as [codes [EL Hcs]].
    rewrite (seq_all_is _ _ _ codes).
    2:{ rewrite (la_lags _ _ _ _ LA), <- Ll, EL, map_length. reflexivity. }
    2:{ intros i c Hi. rewrite EL. rewrite (nth_error_nth (map (label_of lb) (map Some codes)) i None (x := label_of lb (Some c))).
        - apply CC. apply Hcs. eapply nth_error_In; exact Hi.
        - rewrite !nth_error_map, Hi. reflexivity. }
    cbn [result_bind]. rewrite (seq_all_is _ _ _ (cs_exp s)).
    2:{ rewrite (la_exp _ _ _ _ LA). exact Le. }
    2:{ intros i e Hi. rewrite (nth_error_nth (map (fun e => Some (Z.of_nat e)) (cs_exp s)) i None (x := Some (Z.of_nat e))).
        - apply natural_of_nat.
        - rewrite nth_error_map, Hi. reflexivity. }
    cbn [result_bind]. rewrite (enumerate_all_is _ _ _ (lb_observables lb) (firstn (List.length (lb_observables lb)) (i_dense (o_ind o)))).
    - cbn [result_bind]. unfold observation_of. cbn [fst snd]. fold s. rewrite <- EL. rewrite <- Hp. destruct s; reflexivity.
    - rewrite firstn_length. destruct (lb_observables lb) as [|l0 ls] eqn:O; [reflexivity|]. rewrite <- O in *.
      apply Nat.min_l. destruct (nth_error (lb_observables lb) (List.length (lb_observables lb) - 1)) as [l|] eqn:E.
      + destruct (Hd _ _ E) as [c [Ec _]]. assert (List.length (lb_observables lb) - 1 < List.length (i_dense (o_ind o))) by (apply nth_error_Some; congruence). lia.
      + apply nth_error_None in E. rewrite O in *. simpl in E. lia.
    - intros i l b El Hb. cbn [fst snd].
      assert (i < List.length (lb_observables lb)) by (apply nth_error_Some; congruence).
      destruct (Hd i l El) as [c [Ec Hcl]].
      assert (b = c). { rewrite <- (firstn_skipn (List.length (lb_observables lb)) (i_dense (o_ind o))) in Ec. rewrite nth_error_app1 in Ec; [congruence|]. apply nth_error_Some. congruence. }
      subst c.
      rewrite (nth_error_nth _ i None (x := Some (code_to_label l b))).
      2:{ rewrite nth_error_map, nth_error_enumerate, El. cbn [option_map fst snd]. rewrite Ec. reflexivity. }
      unfold coded_observable, code_to_label. destruct (nth_error l b) as [v|] eqn:Ev; [|apply nth_error_None in Ev; lia].
      destruct (la_levels _ _ _ _ LA l (nth_error_In _ _ El)) as [NDl Ll256].
      rewrite (label_to_code_known l b v NDl Ev). rewrite Nat.mod_small by lia. reflexivity.
  Qed.

  Lemma data_processed : process_data lb (simulated_data lb panel) = Ok (map (observation_of lb) panel).
  Proof.
    unfold process_data, simulated_data. rewrite map_map.
    assert (E : result_all (map (fun x => process_row lb (data_row lb x)) panel) = Ok (map (observation_of lb) panel)).
    { apply result_all_map_Ok. apply Forall2_nth_intro; [rewrite map_length; reflexivity|].
      intros i [[id t] o] b Ha Hb. rewrite nth_error_map, Ha in Hb. injection Hb as <-. apply row_processed. eapply nth_error_In; exact Ha. }
    rewrite E. cbn [result_bind]. rewrite sort_index_sorted; [reflexivity|].
    unfold ordered_frame. rewrite map_map. cbn [observation_of fst].
    exact (panel_sorted sp neg k grid ss inp ev si order next_key n N base base_wage df panel SU RUN).
  Qed.

  Let csf := choice_set_of sp (process sp (S k) neg).

  (** The observation of a row with type [t]. *)
  Definition with_type (t : nat) (r : index * outcome) : observation :=
    (i_core (o_ind (snd r)), firstn (List.length (lb_observables lb)) (i_dense (o_ind (snd r))) ++ (if Nat.leb 2 (lb_ntypes lb) then [t] else [])).

  Definition all_types : list nat := if Nat.leb 2 (lb_ntypes lb) then seq 0 (lb_ntypes lb) else [0].

  Lemma for_each_type_eq : for_each_type (lb_ntypes lb) (map (observation_of lb) panel) =
    flat_map (fun t => map (with_type t) panel) all_types.
  Proof.
    unfold for_each_type, all_types, with_type. destruct (Nat.leb 2 (lb_ntypes lb)).
    - apply flat_map_ext. intros t. rewrite map_map. reflexivity.
    - rewrite map_map. simpl. rewrite app_nil_r. apply map_ext. intros r. rewrite app_nil_r. reflexivity.
  Qed.

  Lemma known_dense : forall id t o c, In ((id, t), o) panel -> In c all_types -> dense_known grid (snd (with_type c ((id, t), o))).
  Proof.
    intros id t o c H Hc.
    destruct (row_facts sp neg k grid ss inp ev si order next_key n N base base_wage df panel SU RUN id t o H) as [_ [_ [_ [_ [_ HD]]]]].
    destruct (dense_facts sp neg k grid ss inp ev si order next_key n N base base_wage df panel lb SU RUN LA id t o H) as [Hd [_ Split]].
    unfold dense_known, with_type. cbn [snd]. destruct Split as [Split|G]; [|left; exact G].
    destruct grid as [|w g] eqn:Eg; [left; reflexivity|]. right. rewrite <- Eg in *.
    unfold all_types in Hc. destruct (Nat.leb_spec 2 (lb_ntypes lb)) as [T|T].
    - rewrite (la_grid _ _ _ _ LA) in HD |- *.
      assert (E : dims (map (@List.length _) (lb_observables lb)) (lb_ntypes lb) <> []).
      { unfold dims. destruct (Nat.leb_spec 2 (lb_ntypes lb)); [|lia]. intros X. apply app_eq_nil in X. destruct X. discriminate. }
      assert (HD' : In (i_dense (o_ind o)) (dense_state_space_grid (map (@List.length _) (lb_observables lb)) (lb_ntypes lb))).
      { destruct (dense_state_space_grid (map (@List.length _) (lb_observables lb)) (lb_ntypes lb)) eqn:Q; [|exact HD].
        rewrite <- (la_grid _ _ _ _ LA) in Q. rewrite Eg in Q. discriminate. }
      apply grid_In in HD'; [|exact E]. apply grid_In; [exact E|].
      rewrite <- Split in HD'. unfold dims in *. destruct (Nat.leb_spec 2 (lb_ntypes lb)); [|lia].
      apply in_seq in Hc. apply Forall2_app_inv_r in HD'. destruct HD' as [a [b [Fa [Fb Eab]]]].
      inversion Fb as [|? ? ? ? B1 B2]; subst. inversion B2; subst. apply app_inj_tail in Eab. destruct Eab as [-> _].
      apply Forall2_app; [exact Fa|]. constructor; [lia|constructor].
    - rewrite Split. destruct grid; [discriminate|exact HD].
  Qed.

  Theorem estimation_prepared : 0 < n -> exists locations,
    prepare_estimation lb sp csf grid (simulated_categories lb) (simulated_data lb panel) =
      Ok (map (observation_of lb) panel, locations) /\
    List.length locations = (if Nat.leb 2 (lb_ntypes lb) then lb_ntypes lb else 1) * List.length panel /\
    forall j r, nth_error panel j = Some r -> exists kr,
      locate ss (i_core (o_ind (snd r))) (i_dense (o_ind (snd r))) = Ok kr /\
      nth_error locations (type_of lb (o_ind (snd r)) * List.length panel + j) = Some kr.
  Proof.
    intros Hn. pose proof (su_model _ _ _ _ _ _ _ _ _ _ _ _ _ _ SU) as SM.
    unfold prepare_estimation. rewrite (estimation_check sp neg k grid ss inp ev si order next_key n N base base_wage df panel lb SU RUN LA Hn).
    cbn [result_bind]. rewrite data_processed. cbn [result_bind]. rewrite for_each_type_eq.
    set (obs := flat_map (fun t => map (with_type t) panel) all_types).
    assert (OK : forall s dense, In (s, dense) obs -> In s (create_core_state_space sp) /\ dense_known grid dense).
    { intros s dense I. unfold obs in I. apply in_flat_map in I. destruct I as [t [Ht I]]. apply in_map_iff in I.
      destruct I as [[[id p] o] [E I]]. injection E as <- <-. split.
      - apply (row_facts sp neg k grid ss inp ev si order next_key n N base base_wage df panel SU RUN id p o I).
      - exact (known_dense id p o t I Ht). }
    destruct (locate_data_iff sp csf grid ss obs (sm_collisions _ _ _ _ _ _ SM) (sm_created _ _ _ _ _ _ SM)) as [[_ LD] _].
    destruct (LD OK) as [[w locs] E]. rewrite E. cbn [result_bind snd]. exists locs. split; [reflexivity|].
    unfold locate_data in E. unfold csf in E. rewrite (sm_created _ _ _ _ _ _ SM) in E. cbn [result_bind] in E.
    destruct (result_all (map (fun o => locate ss (fst o) (snd o)) obs)) as [locs'| | | | |] eqn:EL; try discriminate.
    cbn [result_bind] in E. injection E as _ <-.
    assert (LT : List.length obs = List.length all_types * List.length panel).
    { unfold obs. clear. induction all_types as [|t ts IH]; [reflexivity|]. simpl. rewrite app_length, map_length, IH. reflexivity. }
    split.
    - apply result_all_map_Ok in EL. apply Forall2_length_eq in EL.
      etransitivity; [symmetry; exact EL|]. etransitivity; [exact LT|]. unfold all_types.
      destruct (Nat.leb 2 (lb_ntypes lb)); [rewrite seq_length|]; reflexivity.
    - intros j [[id t] o] Hj. cbn [snd]. pose proof (nth_error_In _ _ Hj) as I.
      destruct (dense_facts sp neg k grid ss inp ev si order next_key n N base base_wage df panel lb SU RUN LA id t o I) as [_ [Ht Split]].
      assert (HT : nth_error all_types (type_of lb (o_ind o)) = Some (type_of lb (o_ind o))).
      { unfold all_types, type_of. destruct (Nat.leb_spec 2 (lb_ntypes lb)) as [T|T]; [|reflexivity].
        destruct (Ht T) as [c [Ec Hc]]. rewrite (nth_error_nth _ _ 0 Ec). rewrite nth_error_nth' with (d := 0) by (rewrite seq_length; exact Hc).
        rewrite seq_nth by exact Hc. reflexivity. }
      assert (Lt : j < List.length panel) by (apply nth_error_Some; congruence).
      pose proof (nth_flat_blocks _ _ (fun t l => map (with_type t) l) panel (List.length panel) (fun t => map_length _ _) all_types _ _ j HT Lt) as NB.
      cbv beta in NB. fold obs in NB. rewrite nth_error_map, Hj in NB. cbn [option_map] in NB.
      destruct (nth_error_result_all _ _ _ _ _ _ _ EL NB) as [kr [Hkr Lkr]]. exists kr. split; [|exact Hkr].
      cbn [with_type fst snd] in Lkr. destruct Split as [Split|G].
      + rewrite <- Split. unfold type_of in Lkr. destruct (Nat.leb 2 (lb_ntypes lb)); exact Lkr.
      + clear - Lkr G SM. unfold locate in *.
        assert (GG : ss_grid ss = []).
        { pose proof (sf_grid _ _ _ _ _ (create_state_space_facts _ _ _ _ _ (sm_created _ _ _ _ _ _ SM))). congruence. }
        rewrite GG in *. exact Lkr.
  Qed.
End Estimation.
