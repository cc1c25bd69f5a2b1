(** Proofs about the data set of a simulation: the check of the data. *)
From Coq Require Import List Arith ZArith Bool String Reals Lia Lra Sorted.
From Verif Require Import Base Proof_Base Model_CoreStateSpace Spec_CoreStateSpace Proof_CoreStateSpace
  Model_StateSpace Spec_StateSpace Proof_StateSpace Proof_DenseGrid Model_Choices Model_Processing Model_Parallel Spec_Parallel
  Model_Solve Spec_Solve Model_Simulate Spec_Simulate Proof_Simulate Proof_SimulateProps Proof_Panel Proof_PanelModel
  Model_Dataset Spec_Dataset Proof_Dataset.
From Verif Require Model_Data Spec_Data Proof_DataCheck.
Import ListNotations.
Open Scope list_scope.
Open Scope nat_scope.

Lemma sorted_positions : forall A (R : A -> A -> Prop) l a b x y, StronglySorted R l -> a < b ->
  nth_error l a = Some x -> nth_error l b = Some y -> R x y.
Proof.
  intros A R l a b x y S. revert a b. induction S as [|z l S IH F]; intros a b H Ha Hb; [destruct a; discriminate|].
  destruct b as [|b]; [lia|]. destruct a as [|a]; simpl in Ha, Hb.
  - injection Ha as <-. rewrite Forall_forall in F. apply F. eapply nth_error_In; exact Hb.
  - apply (IH a b); [lia|assumption|assumption].
Qed.

Lemma increasing_seq : forall n a, increasing (seq a n).
Proof.
  induction n as [|n IH]; intros a; simpl; [exact I|]. split; [|apply IH].
  intros y Hy. apply in_seq in Hy. lia.
Qed.

Lemma label_of_lt : forall lb c, c < List.length (lb_choices lb) ->
  exists s, label_of lb (Some c) = Some s /\ In s (lb_choices lb) /\ nth_error (lb_choices lb) c = Some s.
Proof.
  intros lb c H. cbn [label_of]. destruct (nth_error (lb_choices lb) c) as [s|] eqn:E; [|apply nth_error_None in E; lia].
  exists s. split; [reflexivity|]. split; [eapply nth_error_In; exact E|reflexivity].
Qed.

Section Panel.
  Variables (sp : core_spec) (neg : neg_set) (k : nat) (grid : list (list nat)) (ss : state_space) (inp : inputs)
    (ev : list (list R)) (si : sim_spec) (order : list nat -> list nat) (next_key : nat -> index -> nat -> nat -> nat)
    (n N : nat) (base base_wage : list (list R)) (df : frame individual) (panel : frame outcome) (lb : labels).
  Hypothesis SU : simulation_setup sp neg k grid ss inp ev si order n (seq 0 N) base base_wage df.
  Hypothesis RUN : simulate_n_step (environment_of ss inp ev) si order next_key 0 n base base_wage df = Ok panel.
  Hypothesis LA : labelled sp grid (p_nwages (in_params inp)) lb.

  Lemma panel_facts :
    map fst panel = panel_index (seq 0 N) n /\
    (forall id t o o', In ((id, t), o) panel -> In ((id, S t), o') panel ->
       o_ind o' = mkInd (law_of_motion (o_choice o) (i_core (o_ind o))) (i_dense (o_ind o))) /\
    (forall id t o, In ((id, t), o) panel -> exists s m, right_row sp neg k grid ss inp ev si t s m o).
  Proof.
    destruct (panel_model sp neg k grid ss inp ev (su_model _ _ _ _ _ _ _ _ _ _ _ _ _ _ SU)
      (su_ev _ _ _ _ _ _ _ _ _ _ _ _ _ _ SU) si order next_key n (seq 0 N) base base_wage df SU) as [p [E [I [_ [L R]]]]].
    rewrite RUN in E. injection E as <-. split; [exact I|]. split; [exact L|].
    intros id t o H. destruct (R id t o H) as [? [s [m [_ [_ [_ RR]]]]]]. eauto.
  Qed.

  Lemma panel_sorted : StronglySorted index_lt (map fst panel).
  Proof. rewrite (proj1 panel_facts). apply panel_index_sorted. apply increasing_seq. Qed.

  Lemma panel_has : forall id t, In (id, t) (map fst panel) <-> id < N /\ t < n.
  Proof.
    intros id t. rewrite (proj1 panel_facts). rewrite (In_panel_index si _ (seq 0 N) eq_refl).
    rewrite in_seq. split; intros [? ?]; split; lia.
  Qed.

  Lemma panel_unique : forall i o o', In (i, o) panel -> In (i, o') panel -> o = o'.
  Proof.
    intros i o o' H H'. apply In_nth_error in H. apply In_nth_error in H'. destruct H as [a Ha]. destruct H' as [b Hb].
    assert (X : forall c x, nth_error panel c = Some x -> nth_error (map fst panel) c = Some (fst x)) by (intros c x Hc; rewrite nth_error_map, Hc; reflexivity).
    destruct (Nat.lt_trichotomy a b) as [L|[L|L]].
    - pose proof (sorted_positions _ _ _ _ _ _ _ panel_sorted L (X _ _ Ha) (X _ _ Hb)) as Q. unfold index_lt in Q. simpl in Q. lia.
    - congruence.
    - pose proof (sorted_positions _ _ _ _ _ _ _ panel_sorted L (X _ _ Hb) (X _ _ Ha)) as Q. unfold index_lt in Q. simpl in Q. lia.
  Qed.

  Lemma row_facts : forall id t o, In ((id, t), o) panel ->
    cs_period (i_core (o_ind o)) = t /\
    (o_choice o < sp_nchoices sp) /\
    List.length (cs_exp (i_core (o_ind o))) = List.length (sp_max sp) /\
    complete_lags (sp_nlags sp) (sp_nchoices sp) (cs_lag (i_core (o_ind o))) /\
    In (i_core (o_ind o)) (create_core_state_space sp) /\
    match grid with [] => True | _ => In (i_dense (o_ind o)) grid end.
  Proof.
    intros id t o H. destruct (proj2 (proj2 panel_facts) id t o H) as [s [m RR]].
    destruct (rr_state _ _ _ _ _ _ _ _ _ _ _ _ RR) as [Hc [Hp Hd]].
    pose proof (sm_wf _ _ _ _ _ _ (su_model _ _ _ _ _ _ _ _ _ _ _ _ _ _ SU)) as W.
    pose proof (sm_lags _ _ _ _ _ _ (su_model _ _ _ _ _ _ _ _ _ _ _ _ _ _ SU)) as L1.
    pose proof (proj1 (core_exact sp _ W L1) Hc) as [_ [CL [init [gain [Hi [Lg [_ [_ [FM _]]]]]]]]].
    split; [exact Hp|]. split; [|split; [|split; [|split]]]; auto.
    - pose proof (rr_available _ _ _ _ _ _ _ _ _ _ _ _ RR) as A. unfold available in A.
      apply nth_error_lt in A. unfold choices_of, choice_set_of in A. rewrite map_length, seq_length in A. exact A.
    - apply Forall2_length_eq in FM. exact FM.
  Qed.

  (** The observables and the type of an individual. *)
  Lemma dense_facts : forall id t o, In ((id, t), o) panel ->
    (forall j levels, nth_error (lb_observables lb) j = Some levels ->
       exists c, nth_error (i_dense (o_ind o)) j = Some c /\ c < List.length levels) /\
    (2 <= lb_ntypes lb -> exists c, nth_error (i_dense (o_ind o)) (List.length (lb_observables lb)) = Some c /\ c < lb_ntypes lb) /\
    (firstn (List.length (lb_observables lb)) (i_dense (o_ind o)) ++
       (if Nat.leb 2 (lb_ntypes lb) then [nth (List.length (lb_observables lb)) (i_dense (o_ind o)) 0] else []) = i_dense (o_ind o) \/ grid = []).
  Proof.
    intros id t o H. destruct (row_facts id t o H) as [_ [_ [_ [_ [_ HD]]]]].
    set (dense := i_dense (o_ind o)) in *. set (lv := map (@List.length _) (lb_observables lb)).
    assert (G : grid = dense_state_space_grid lv (lb_ntypes lb)) by apply LA.
    assert (Pd : forall d, In d (dims lv (lb_ntypes lb)) -> 0 < d).
    { intros d Hd. unfold dims in Hd. apply in_app_iff in Hd. destruct Hd as [Hd|Hd].
      - apply in_map_iff in Hd. destruct Hd as [l [<- Hl]]. apply (la_levels _ _ _ _ LA _ Hl).
      - destruct (Nat.leb_spec 2 (lb_ntypes lb)); [|destruct Hd]. destruct Hd as [<-|[]]. lia. }
    destruct (list_eq_dec Nat.eq_dec (dims lv (lb_ntypes lb)) []) as [E|E].
    - unfold dims, lv in E. apply app_eq_nil in E. destruct E as [E1 E2].
      destruct (lb_observables lb) as [|? ?] eqn:O; [|discriminate].
      destruct (Nat.leb_spec 2 (lb_ntypes lb)) as [T|T]; [discriminate|]. split; [|split].
      + intros [|j]; discriminate.
      + lia.
      + right. rewrite G. unfold lv, dense_state_space_grid. destruct (Nat.leb_spec 2 (lb_ntypes lb)); [lia|]. reflexivity.
    - assert (Hin : In dense grid).
      { destruct grid as [|w g] eqn:Eg; [|exact HD]. exfalso.
        assert (Z : In (map (fun _ => 0) (dims lv (lb_ntypes lb))) (dense_state_space_grid lv (lb_ntypes lb))).
        { apply grid_In; [exact E|]. apply Forall2_nth_intro; [rewrite map_length; reflexivity|]. intros i a b Ha Hb.
          rewrite nth_error_map, Hb in Ha. injection Ha as <-. apply Pd. eapply nth_error_In; exact Hb. }
        rewrite <- G in Z. destruct Z. }
      rewrite G in Hin. apply grid_In in Hin; [|exact E]. unfold dims in Hin.
      apply Forall2_app_inv_r in Hin. destruct Hin as [obs [type [Fo [Ft Ed]]]]. rewrite Ed.
      assert (Lo : List.length obs = List.length (lb_observables lb)) by (apply Forall2_length_eq in Fo; unfold lv in Fo; rewrite map_length in Fo; exact Fo).
      pose proof (proj2 (proj1 (Forall2_nth_lt _ _) Fo)) as Ho. split; [|split].
      + intros j levels Hj. assert (Lt : j < List.length obs) by (rewrite Lo; apply nth_error_Some; congruence).
        destruct (nth_error obs j) as [c|] eqn:Ec; [|apply nth_error_None in Ec; lia].
        exists c. rewrite nth_error_app1 by exact Lt. split; [exact Ec|]. apply (Ho j); [exact Ec|].
        unfold lv. rewrite nth_error_map, Hj. reflexivity.
      + intros T. destruct (Nat.leb_spec 2 (lb_ntypes lb)); [|lia]. inversion Ft as [|c ? ? ? Hc Ft']; subst. inversion Ft'; subst.
        exists c. rewrite nth_error_app2 by lia. rewrite Lo, Nat.sub_diag. split; [reflexivity|exact Hc].
      + left. rewrite <- Lo, firstn_app, Nat.sub_diag, firstn_all. cbn [firstn]. rewrite app_nil_r. f_equal.
        destruct (Nat.leb_spec 2 (lb_ntypes lb)).
        * inversion Ft as [|c ? ? ? Hc Ft']; subst. inversion Ft'; subst. rewrite app_nth2 by lia. rewrite Nat.sub_diag. reflexivity.
        * inversion Ft; subst. reflexivity.
  Qed.

  Let data := simulated_data lb panel.
  Let m := info_of lb.

  Lemma In_data : forall r, In r data <-> exists id t o, In ((id, t), o) panel /\ r = data_row lb ((id, t), o).
  Proof.
    intros r. unfold data, simulated_data. rewrite in_map_iff. split.
    - intros [[[id t] o] [<- H]]. eauto.
    - intros [id [t [o [H ->]]]]. eauto.
  Qed.

  Lemma nth_data : forall a r, nth_error data a = Some r -> exists id t o, nth_error panel a = Some ((id, t), o) /\ r = data_row lb ((id, t), o).
  Proof.
    intros a r H. unfold data, simulated_data in H. rewrite nth_error_map in H.
    destruct (nth_error panel a) as [[[id t] o]|]; [|discriminate]. injection H as <-. eauto.
  Qed.

  Lemma nth_index : forall a i o, nth_error panel a = Some (i, o) -> nth_error (map fst panel) a = Some i.
  Proof. intros a i o H. rewrite nth_error_map, H. reflexivity. Qed.

  Lemma data_in_order : Spec_Data.in_order data.
  Proof.
    intros a b r q L Ha Hb E. destruct (nth_data _ _ Ha) as [id [t [o [Pa ->]]]]. destruct (nth_data _ _ Hb) as [id' [t' [o' [Pb ->]]]].
    unfold data_row in *. cbn in *.
    pose proof (sorted_positions _ _ _ _ _ _ _ panel_sorted L (nth_index _ _ _ Pa) (nth_index _ _ _ Pb)) as Q. unfold index_lt in Q. simpl in Q. lia.
  Qed.

  Lemma data_individuals : Spec_Data.individuals_in_order data.
  Proof.
    intros a b r q L Ha Hb. destruct (nth_data _ _ Ha) as [id [t [o [Pa ->]]]]. destruct (nth_data _ _ Hb) as [id' [t' [o' [Pb ->]]]].
    unfold data_row in *. cbn in *.
    pose proof (sorted_positions _ _ _ _ _ _ _ panel_sorted L (nth_index _ _ _ Pa) (nth_index _ _ _ Pb)) as Q. unfold index_lt in Q. simpl in Q. lia.
  Qed.

  Lemma panel_row_exists : forall id t, id < N -> t < n -> exists o, In ((id, t), o) panel.
  Proof.
    intros id t H1 H2. assert (I : In (id, t) (map fst panel)) by (apply panel_has; split; assumption).
    apply in_map_iff in I. destruct I as [[i o] [E I]]. simpl in E. subst. eauto.
  Qed.
  Lemma panel_row_range : forall id t o, In ((id, t), o) panel -> id < N /\ t < n.
  Proof. intros id t o H. apply panel_has. apply in_map_iff. exists ((id, t), o). split; [reflexivity|exact H]. Qed.

  Lemma data_complete : 0 < n -> Spec_Data.complete_panel m data.
  Proof.
    intros Hn. split; [|split].
    - exists (Z.of_nat N). intros i. split.
      + intros [r [Hr <-]]. apply In_data in Hr. destruct Hr as [id [t [o [H ->]]]]. cbn. apply panel_row_range in H. lia.
      + intros Hi. destruct (panel_row_exists (Z.to_nat i) 0) as [o Ho]; [lia|lia|].
        exists (data_row lb ((Z.to_nat i, 0), o)). split; [apply In_data; eauto|]. cbn. lia.
    - intros r Hr. apply In_data in Hr. destruct Hr as [id [t [o [H ->]]]]. pose proof (panel_row_range _ _ _ H) as [Hid Ht].
      exists (Z.of_nat n - 1)%Z. split.
      + unfold m, info_of. cbn [Model_Data.i_periods]. rewrite (la_periods _ _ _ _ LA). pose proof (su_periods _ _ _ _ _ _ _ _ _ _ _ _ _ _ SU). lia.
      + intros t'. split.
        * intros [q [Hq [E1 E2]]]. apply In_data in Hq. destruct Hq as [id' [u [o' [H' ->]]]]. cbn in *. apply panel_row_range in H'. lia.
        * intros Ht'. destruct (panel_row_exists id (Z.to_nat t')) as [o' Ho']; [lia|lia|].
          exists (data_row lb ((id, Z.to_nat t'), o')). split; [apply In_data; eauto|]. cbn. split; [reflexivity|lia].
    - intros a b r q Ha Hb E1 E2. destruct (nth_data _ _ Ha) as [id [t [o [Pa ->]]]]. destruct (nth_data _ _ Hb) as [id' [t' [o' [Pb ->]]]].
      unfold data_row in *. cbn in *.
      destruct (Nat.lt_trichotomy a b) as [L|[L|L]]; [|exact L|].
      + pose proof (sorted_positions _ _ _ _ _ _ _ panel_sorted L (nth_index _ _ _ Pa) (nth_index _ _ _ Pb)) as Q. unfold index_lt in Q. simpl in Q. lia.
      + pose proof (sorted_positions _ _ _ _ _ _ _ panel_sorted L (nth_index _ _ _ Pb) (nth_index _ _ _ Pa)) as Q. unfold index_lt in Q. simpl in Q. lia.
  Qed.

  Lemma wage_positive : forall id t o w, In ((id, t), o) panel -> o_wage o = Some w -> (0 < w)%R.
  Proof.
    intros id t o w H E. destruct (proj2 (proj2 panel_facts) id t o H) as [s [e RR]].
    destruct (rr_wage _ _ _ _ _ _ _ _ _ _ _ _ RR) as [j [c [_ [_ W]]]]. rewrite W in E.
    destruct (Nat.ltb c (p_nwages (in_params inp))) eqn:B; [|discriminate]. injection E as <-.
    unfold wage_of, shock_of. rewrite B.
    repeat apply Rmult_lt_0_compat; try apply exp_pos.
    destruct (p_wage (in_params inp) c); [apply exp_pos|lra].
  Qed.

  Lemma data_values : Spec_Data.values_ok m data.
  Proof.
    split.
    - intros r Hr. apply In_data in Hr. destruct Hr as [id [t [o [H ->]]]].
      destruct (row_facts id t o H) as [_ [Hc [Le [[Ll Hl] _]]]].
      destruct (dense_facts id t o H) as [Hd [_ _]].
      unfold data_row, m, info_of. cbn [Model_Data.r_choice Model_Data.r_wage Model_Data.r_exps Model_Data.r_obs Model_Data.i_choices
        Model_Data.i_lags Model_Data.i_exp_choices Model_Data.i_levels fst snd]. split; [|split; [|split; [|split]]].
      + destruct (label_of_lt lb (o_choice o)) as [s [E [I _]]]; [rewrite (la_choices _ _ _ _ LA); exact Hc|]. exists s. auto.
      + intros w. apply wage_positive with (1 := H).
      + intros [|i] Hi; [lia|]. cbn [Model_Data.choice_column Model_Data.r_lags]. rewrite (la_lags _ _ _ _ LA) in Hi.
        assert (Lt : i < List.length (cs_lag (i_core (o_ind o)))) by lia.
        destruct (nth_error (cs_lag (i_core (o_ind o))) i) as [l|] eqn:El; [|apply nth_error_None in El; lia].
        destruct (Hl l (nth_error_In _ _ El)) as [c [-> Hcc]].
        destruct (label_of_lt lb c) as [s [E [I _]]]; [rewrite (la_choices _ _ _ _ LA); exact Hcc|].
        exists s. split; [exact I|]. rewrite (nth_error_nth (map (label_of lb) (cs_lag (i_core (o_ind o)))) i None (x := label_of lb (Some c))); [exact E|].
        rewrite nth_error_map, El. reflexivity.
      + intros j Hj. rewrite firstn_length, (la_exp _ _ _ _ LA) in Hj.
        destruct (nth_error (cs_exp (i_core (o_ind o))) j) as [e|] eqn:Ee; [|apply nth_error_None in Ee; lia].
        exists (Z.of_nat e). rewrite nth_error_map, Ee. reflexivity.
      + intros j Hj. rewrite map_length in Hj.
        destruct (nth_error (lb_observables lb) j) as [levels|] eqn:El; [|apply nth_error_None in El; lia].
        destruct (Hd j levels El) as [c [Ec _]]. exists (code_to_label levels c).
        rewrite nth_error_map, nth_error_enumerate, El. cbn [option_map fst snd]. rewrite Ec. reflexivity.
    - intros j cnt Hj levels ND Hl. unfold m, info_of in Hj. cbn [Model_Data.i_levels] in Hj. rewrite nth_error_map in Hj.
      destruct (nth_error (lb_observables lb) j) as [declared|] eqn:El; [|discriminate]. injection Hj as <-.
      apply NoDup_incl_length; [exact ND|]. intros l I. destruct (Hl l I) as [r [Hr Er]].
      apply In_data in Hr. destruct Hr as [id [t [o [H ->]]]]. destruct (dense_facts id t o H) as [Hd _].
      destruct (Hd j declared El) as [c [Ec Hc]]. unfold data_row in Er. cbn [Model_Data.r_obs fst snd] in Er.
      rewrite nth_error_map, nth_error_enumerate, El in Er. cbn [option_map fst snd] in Er. rewrite Ec in Er. cbn [option_map] in Er.
      injection Er as <-. unfold code_to_label.
      destruct (nth_error declared c) as [l'|] eqn:E; [eapply nth_error_In; exact E|apply nth_error_None in E; lia].
  Qed.

  Lemma nth_bump : forall c e j x, nth_error e j = Some x -> nth_error (bump_exp c e) j = Some (x + (if Nat.eqb c j then 1 else 0)).
  Proof. intros c e j x H. unfold bump_exp. rewrite nth_error_map, nth_error_enumerate, H. reflexivity. Qed.

  Lemma data_experience : Spec_Data.experience_follows m data.
  Proof.
    intros r q j c [Hr [Hq [E1 E2]]] Hj.
    apply In_data in Hr. destruct Hr as [id [t [o [H ->]]]]. apply In_data in Hq. destruct Hq as [id' [t' [o' [H' ->]]]].
    unfold data_row in E1, E2. cbn in E1, E2. assert (id' = id) by lia. assert (t' = S t) by lia. subst id' t'.
    pose proof (proj1 (proj2 panel_facts) _ _ _ _ H H') as LM.
    destruct (row_facts id t o H) as [_ [Hc [Le _]]].
    assert (Hjc : nth_error (lb_choices lb) j = Some c /\ j < lb_nexp lb).
    { unfold m, info_of in Hj. cbn [Model_Data.i_exp_choices] in Hj.
      assert (j < List.length (firstn (lb_nexp lb) (lb_choices lb))) by (apply nth_error_Some; congruence).
      rewrite firstn_length in H0. split; [|lia]. rewrite <- (firstn_skipn (lb_nexp lb) (lb_choices lb)).
      rewrite nth_error_app1; [exact Hj|]. rewrite firstn_length. lia. }
    destruct Hjc as [Hjc Hlt]. rewrite (la_exp _ _ _ _ LA) in Hlt.
    destruct (nth_error (cs_exp (i_core (o_ind o))) j) as [e|] eqn:Ee; [|apply nth_error_None in Ee; lia].
    exists (Z.of_nat e). unfold data_row. cbn [Model_Data.r_exps Model_Data.r_choice fst snd].
    rewrite nth_error_map, Ee. split; [reflexivity|].
    rewrite LM. cbn [i_core]. unfold law_of_motion. cbn [cs_exp]. rewrite !nth_error_map, (nth_bump _ _ _ _ Ee). cbn [option_map].
    destruct (label_of_lt lb (o_choice o)) as [s [Es [_ Ns]]]; [rewrite (la_choices _ _ _ _ LA); exact Hc|]. rewrite Es.
    split; intros X.
    - injection X as ->. assert (o_choice o = j).
      { pose proof (la_names _ _ _ _ LA) as ND. rewrite NoDup_nth_error in ND. apply ND; [apply nth_error_Some; congruence|congruence]. }
      subst j. rewrite Nat.eqb_refl. do 2 f_equal. lia.
    - destruct (Nat.eqb_spec (o_choice o) j) as [Eq|Ne]; [exfalso; apply X; congruence|]. do 2 f_equal. lia.
  Qed.

  Theorem estimation_check : 0 < n ->
    Model_Data.check_estimation_data m (simulated_categories lb) data = Ok tt.
  Proof.
    intros Hn. apply Proof_DataCheck.accepted_iff.
    - intros r Hr. apply In_data in Hr. destruct Hr as [id [t [o [_ ->]]]]. cbn. lia.
    - exact data_individuals.
    - exact data_in_order.
    - reflexivity.
    - intros x Hx. exact Hx.
    - split; [exact data_values|]. split; [exact (data_complete Hn)|]. split; [exact data_experience|].
      unfold m, info_of. cbn [Model_Data.i_lags]. rewrite (la_lags _ _ _ _ LA).
      pose proof (sm_lags _ _ _ _ _ _ (su_model _ _ _ _ _ _ _ _ _ _ _ _ _ _ SU)). split; intros; lia.
  Qed.

  Lemma types_constant : forall t id o0 o, In ((id, 0), o0) panel -> In ((id, t), o) panel -> i_dense (o_ind o) = i_dense (o_ind o0).
  Proof.
    induction t as [|t IH]; intros id o0 o H0 H.
    - rewrite (panel_unique _ _ _ H H0). reflexivity.
    - pose proof (panel_row_range _ _ _ H) as [Hid Ht].
      destruct (panel_row_exists id t) as [o1 H1]; [exact Hid|lia|].
      rewrite (proj1 (proj2 panel_facts) _ _ _ _ H1 H). cbn [i_dense]. apply (IH id o0 o1 H0 H1).
  Qed.

  Lemma data_types : 0 < n -> Spec_Data.types_ok m data.
  Proof.
    intros Hn T. unfold m, info_of in T. cbn [Model_Data.i_types] in T. split.
    - intros r Hr. apply In_data in Hr. destruct Hr as [id [t [o [H ->]]]].
      destruct (dense_facts id t o H) as [_ [Ht _]]. destruct Ht as [c [Ec Hc]]; [lia|].
      exists (Z.of_nat c). unfold data_row. cbn [Model_Data.r_type snd]. destruct (Nat.leb_spec 2 (lb_ntypes lb)); [|lia].
      rewrite Ec. split; [reflexivity|]. unfold m, info_of. cbn [Model_Data.i_types]. lia.
    - intros r q Hr Hq E. apply In_data in Hr. destruct Hr as [id [t [o [H ->]]]]. apply In_data in Hq. destruct Hq as [id' [t' [o' [H' ->]]]].
      unfold data_row in E. cbn in E. assert (id' = id) by lia. subst id'. pose proof (panel_row_range _ _ _ H) as [Hid _].
      destruct (panel_row_exists id 0) as [o0 H0]; [exact Hid|exact Hn|].
      unfold data_row. cbn [Model_Data.r_type snd]. rewrite (types_constant _ _ _ _ H0 H), (types_constant _ _ _ _ H0 H'). reflexivity.
  Qed.

  (** The wage is that of the recorded choice. *)
  Lemma wages_iff : Spec_Data.wages_ok m data <->
    forall id t o, In ((id, t), o) panel -> ((exists w, o_wage o = Some w) <-> o_choice o < p_nwages (in_params inp)).
  Proof.
    assert (K : forall id t o, In ((id, t), o) panel ->
      ((exists c, In c (Model_Data.i_wage_choices m) /\ Model_Data.r_choice (data_row lb ((id, t), o)) = Some c) <->
       o_choice o < p_nwages (in_params inp))).
    { intros id t o H. destruct (row_facts id t o H) as [_ [Hc _]].
      destruct (label_of_lt lb (o_choice o)) as [s [Es [_ Ns]]]; [rewrite (la_choices _ _ _ _ LA); exact Hc|].
      unfold data_row, m, info_of. cbn [Model_Data.i_wage_choices Model_Data.r_choice snd]. rewrite Es.
      rewrite <- (la_wages _ _ _ _ LA). split.
      - intros [c [I X]]. injection X as <-. apply In_nth_error in I. destruct I as [j Hj].
        assert (Lj : j < List.length (firstn (lb_nwages lb) (lb_choices lb))) by (apply nth_error_Some; congruence).
        rewrite firstn_length in Lj.
        assert (nth_error (lb_choices lb) j = Some s).
        { rewrite <- (firstn_skipn (lb_nwages lb) (lb_choices lb)). rewrite nth_error_app1 by (rewrite firstn_length; lia). exact Hj. }
        assert (o_choice o = j).
        { pose proof (la_names _ _ _ _ LA) as ND. rewrite NoDup_nth_error in ND. apply ND; [apply nth_error_Some; congruence|congruence]. }
        lia.
      - intros Lt. exists s. split; [|reflexivity].
        apply nth_error_In with (n := o_choice o).
        assert (List.length (firstn (lb_nwages lb) (lb_choices lb)) > o_choice o) by (rewrite firstn_length, (la_choices _ _ _ _ LA); lia).
        rewrite <- (firstn_skipn (lb_nwages lb) (lb_choices lb)) in Ns. rewrite nth_error_app1 in Ns by lia. exact Ns. }
    split.
    - intros WO id t o H. rewrite <- (K id t o H). apply (WO (data_row lb ((id, t), o))). apply In_data. eauto.
    - intros WO r Hr. apply In_data in Hr. destruct Hr as [id [t [o [H ->]]]]. rewrite (K id t o H). apply (WO id t o H).
  Qed.

  Lemma recorded_is_best : forall id t o, In ((id, t), o) panel -> in_place (choices_of sp neg k grid (o_ind o)) ->
    ((exists w, o_wage o = Some w) <-> o_choice o < p_nwages (in_params inp)).
  Proof.
    intros id t o H IP. destruct (proj2 (proj2 panel_facts) id t o H) as [s [e RR]].
    destruct (rr_wage _ _ _ _ _ _ _ _ _ _ _ _ RR) as [j [c [FM [Hj W]]]].
    pose proof (rr_choice _ _ _ _ _ _ _ _ _ _ _ _ RR) as RC.
    rewrite record_choice_eq in RC.
    2:{ rewrite (sm_choices _ _ _ _ _ _ (su_model _ _ _ _ _ _ _ _ _ _ _ _ _ _ SU)). apply seq_NoDup. }
    2:{ rewrite (sm_choices _ _ _ _ _ _ (su_model _ _ _ _ _ _ _ _ _ _ _ _ _ _ SU)), seq_length. unfold choices_of, choice_set_of. rewrite map_length, seq_length. reflexivity. }
    assert (A : argmax (o_values o) = Some j).
    { destruct (argmax (o_values o)) as [j'|] eqn:E.
      - apply argmax_spec in E. destruct E as [v' [Hv' [M1 M2]]]. destruct FM as [v [Hv [F1 F2]]].
        destruct (Nat.lt_trichotomy j j') as [L|[L|L]]; [|congruence|].
        + specialize (M2 j v L Hv). specialize (F1 j' v' Hv'). lra.
        + specialize (F2 j' v' L Hv'). specialize (M1 j v Hv). lra.
      - simpl in RC. discriminate. }
    rewrite A in RC. cbn [option_map] in RC. injection RC as RC.
    rewrite (recode_in_place _ _ c Hj) in RC by (rewrite length_positions; apply IP; exact Hj). subst c.
    rewrite W. destruct (Nat.ltb_spec (o_choice o) (p_nwages (in_params inp))); split; try (intros; lia).
    - intros _. eexists. reflexivity.
    - intros [w X]. discriminate.
  Qed.

  Theorem simulated_check_iff : 0 < n ->
    (Model_Data.check_simulated_data m (simulated_categories lb) data = Ok tt <->
     forall id t o, In ((id, t), o) panel -> ((exists w, o_wage o = Some w) <-> o_choice o < p_nwages (in_params inp))).
  Proof.
    intros Hn. rewrite Proof_DataCheck.simulated_iff.
    - rewrite wages_iff. split; [intros [_ [_ H]]; exact H|]. intros H. split; [exact (estimation_check Hn)|]. split; [exact (data_types Hn)|exact H].
    - intros E. destruct (Nat.eq_dec N 0) as [EN|EN].
      + apply (su_some _ _ _ _ _ _ _ _ _ _ _ _ _ _ SU). rewrite EN. reflexivity.
      + destruct (panel_row_exists 0 0) as [o Ho]; [lia|exact Hn|].
        assert (I : In (data_row lb ((0, 0), o)) data) by (apply In_data; eauto). rewrite E in I. destruct I.
  Qed.

  Theorem simulated_check : 0 < n -> (forall id t o, In ((id, t), o) panel -> in_place (choices_of sp neg k grid (o_ind o))) ->
    Model_Data.check_simulated_data m (simulated_categories lb) data = Ok tt.
  Proof. intros Hn IP. apply simulated_check_iff; [exact Hn|]. intros id t o H. apply (recorded_is_best id t o H). eapply IP; exact H. Qed.
End Panel.

(** Sampled initial conditions can be simulated. *)
Lemma sampled_simulation : forall sp neg k grid ss inp ev ic si order next_key n N base base_wage x u,
  standard_model sp neg k grid ss inp -> ev_shape ss ev -> 0 < sp_nperiods sp -> filters_keep_start sp ->
  declared sp grid ic -> starts_below_maximum sp ->
  si_params si = in_params inp -> si_choices si = in_choices inp -> List.length (si_meas si) = sp_nchoices sp ->
  iteration_order order -> n <= sp_nperiods sp -> 0 < N ->
  draws_shape (N * n) (sp_nchoices sp) base -> draws_shape (N * n) (sp_nchoices sp) base_wage ->
  (forall s y, In s (create_core_state_space sp) -> match grid with [] => True | _ => In (i_dense y) grid end ->
     exists c, available (choices_of sp neg k grid (mkInd s (i_dense y))) c) ->
  (forall j, uniform (u j)) ->
  exists df panel, sampled_individuals ic x u N = Ok df /\
    simulation_setup sp neg k grid ss inp ev si order n (seq 0 N) base base_wage df /\
    simulate_n_step (environment_of ss inp ev) si order next_key 0 n base base_wage df = Ok panel /\
    map fst panel = panel_index (seq 0 N) n.
Proof.
  intros sp neg k grid ss inp ev ic si order next_key n N base base_wage x u SM EV NP FK D BM P C M O NN PN B BW CH U.
  destruct (sampled_frame sp grid ic (sm_wf _ _ _ _ _ _ SM) (sm_lags _ _ _ _ _ _ SM) FK NP D BM x u N U)
    as [df [E [I S]]].
  assert (SU : simulation_setup sp neg k grid ss inp ev si order n (seq 0 N) base base_wage df).
  { constructor; try assumption.
    - apply increasing_seq.
    - destruct N; [lia|discriminate].
    - rewrite seq_length. exact B.
    - rewrite seq_length. exact BW. }
  destruct (Proof_PanelModel.panel_model sp neg k grid ss inp ev SM EV si order next_key n (seq 0 N) base base_wage df SU) as [panel [R [IX _]]].
  exists df, panel. auto.
Qed.
