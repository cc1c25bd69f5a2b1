(** From the table of parameters to the simulation. *)
From Coq Require Import List Arith Bool String Reals ZArith Lia Lra.
From Verif Require Import Base Proof_Base Model_CoreStateSpace Spec_CoreStateSpace Model_StateSpace Spec_StateSpace Proof_StateSpace Model_Solve Spec_Solve
  Proof_Solve Proof_SolveProps Proof_Shocks Model_Simulate Spec_Simulate Proof_Simulate Proof_PanelModel Proof_SimulateProps Proof_ExogenousProps
  Model_Strings Model_Cache Model_Choices Spec_Choices Proof_Choices
  Model_Params Spec_Params Proof_Params Proof_Shocknames Model_Processing Spec_Processing Proof_Processing Proof_ProcessingShocks
  Model_ParseParameters Model_SolveTable Spec_SolveTable Proof_SolveTable Model_SimulateTable Spec_SimulateTable.
Import ListNotations.
Local Open Scope R_scope.

Lemma sm_inv : forall n covariates table mp, process_parameters n covariates table = Ok mp ->
  parse_discounting table = Ok (mp_discounting mp) /\
  parse_measurement_errors (pc_choices (mp_choices mp)) (pc_choices_w_wage (mp_choices mp)) table = Ok (mp_meas mp) /\
  mp_choices mp = parse_choices (map fst table) covariates.
Proof.
  intros n covariates params mp H. unfold process_parameters in H.
  destruct (parse_parameters n covariates params) as [m| | | | |] eqn:E; try discriminate. cbn [result_bind] in H.
  destruct (validate_shocks _ _) as [[]| | | | |] eqn:VS; try discriminate. injection H as <-.
  unfold parse_parameters in E.
  destruct (parse_discounting params) as [x1| | | | |] eqn:D; try discriminate. cbn [result_bind] in E.
  destruct (parse_variables "exogenous_process" params) as [x2| | | | |]; try discriminate. cbn [result_bind] in E.
  destruct (result_bind (parse_variables "observable" params) (merge_observables x2)) as [x3| | | | |]; try discriminate. cbn [result_bind] in E.
  destruct (result_all (map _ (pc_choices_w_exp _))) as [x4| | | | |] eqn:X4; try discriminate. cbn [result_bind] in E.
  destruct (shocks_kind _) as [x5| | | | |] eqn:X5; try discriminate. cbn [result_bind] in E.
  destruct (parse_measurement_errors _ _ _) as [x6| | | | |] eqn:X6; try discriminate. cbn [result_bind] in E.
  destruct (parse_types _) as [x7| | | | |]; try discriminate. cbn [result_bind] in E.
  destruct (parse_lagged_choices _ _ _) as [x8| | | | |]; try discriminate. cbn [result_bind] in E. injection E as <-.
  cbn [mp_choices mp_discounting mp_meas]. auto.
Qed.

Lemma sm_value_in : forall (table : list param) c n v, param_value table c n = Ok v -> In (c, n, v) table.
Proof.
  intros table c n v H. unfold param_value in H. destruct (find _ table) as [[[d m] w]|] eqn:F; [|discriminate].
  apply find_some in F. destruct F as [I E]. cbn in E, H. injection H as <-. apply andb_true_iff in E. destruct E as [E1 E2].
  apply String.eqb_eq in E1, E2. subst. exact I.
Qed.

Lemma sm_meas : forall wages rest table meas, parse_measurement_errors (wages ++ rest)%list wages table = Ok meas ->
  forall c, (c < List.length wages)%nat -> measurement_sd table (nth c (wages ++ rest) ""%string) (nth c (snd meas) 0).
Proof.
  intros wages rest table meas H c Hc. unfold parse_measurement_errors in H.
  destruct (mem "meas_error" (map p_category table)) eqn:M.
  - right. destruct (result_all _) as [sds| | | | |] eqn:E; try discriminate. cbn [result_bind] in H. injection H as <-. cbn [snd].
    rewrite app_nth1 by exact Hc.
    destruct (result_all_nth _ _ _ _ _ c (nth c wages ""%string) E (nth_error_nth' _ _ Hc)) as [x [X1 X2]].
    rewrite app_nth1 by (apply nth_error_Some; rewrite X1; discriminate).
    rewrite (nth_error_nth _ _ _ X1). apply sm_value_in. exact X2.
  - left. injection H as <-. cbn [snd]. split; [|apply mem_false_iff; exact M].
    exact (map_nth (fun _ : string => 0) (wages ++ rest) ""%string c).
Qed.

Lemma sm_normal : forall L cs draws c,
  rsum (map (fun q => fst q * L c (snd q)) (combine (map (fun i => nth i draws 0) (positions cs)) (positions cs))) = normal_shock L cs draws c.
Proof.
  intros L cs draws c. unfold normal_shock. f_equal. generalize (positions cs). intros l.
  induction l as [|a l IH]; [reflexivity|]. cbn. f_equal. exact IH.
Qed.

Theorem table_panel : forall robust n covariates filters cov base points interp table sp inp si with_exp choices kind delta beta neg k grid ss ev0 ev
    order next_key periods ids draws draws_wage df panel,
  table_simulation robust n covariates filters cov base points interp table = Ok (sp, inp, si) ->
  (forall p, In p table -> word (p_category p)) -> documented_choices table covariates with_exp choices ->
  shocks_of_kind table kind -> value_is table "delta" "delta" delta -> bias_is table beta ->
  ev_shape ss ev0 -> solve_with_backward_induction ss inp ev0 = Ok ev ->
  simulation_setup sp neg k grid ss inp ev si order periods ids draws draws_wage df ->
  simulate_n_step (environment_of ss inp ev) si order next_key 0 periods draws draws_wage df = Ok panel ->
  exists L, factor_of robust kind table choices L /\
    forall id t o, In ((id, t), o) panel ->
      let s := i_core (o_ind o) in
      let ctx := context grid (o_ind o) in
      let csf := choice_set_of sp (process sp (S k) neg) in
      let worth c := table_decision table choices L cov base csf beta delta n ctx s (o_shocks o) c in
      (in_place (csf ctx s) -> forall c, available (csf ctx s) c -> worth c <= worth (o_choice o)) /\
      exists p m best, nth_error ids p = Some id /\ nth_error draws (List.length ids * t + p) = Some (o_shocks o) /\
        nth_error draws_wage (List.length ids * t + p) = Some m /\
        available (csf ctx s) best /\ (forall c, available (csf ctx s) c -> worth c <= worth best) /\
        observed_wage table (nth best choices ""%string) (cov ctx s) (normal_shock L (csf ctx s) (o_shocks o) best) (nth best m 0) (o_wage o).
Proof.
  intros robust n covariates filters cov base points interp table sp inp si with_exp choices kind delta beta neg k grid ss ev0 ev
    order next_key periods ids draws draws_wage df panel TS WO DC SK VD BI SH EV SU HP.
  unfold table_simulation in TS. destruct (process_parameters n covariates table) as [mp| | | | |] eqn:PP; try discriminate. cbn [result_bind] in TS.
  destruct (table_model robust n covariates filters cov base points interp table) as [[sp' inp']| | | | |] eqn:TM; try discriminate.
  cbn [result_bind fst snd] in TS. injection TS as <- <- ESI.
  destruct (st_parts _ _ _ _ _ _ _ _ _ _ _ _ _ TM WO DC _ SK) as (L & FL & DE & NC & SQ & EB & ML & PA).
  destruct (sm_inv _ _ _ _ PP) as (I1 & I2 & I3).
  rewrite (discounting_ok _ _ _ VD BI) in I1. injection I1 as I1.
  specialize (DE _ VD).
  assert (EBeta : si_beta si = beta) by (rewrite <- ESI; cbn; rewrite <- I1; reflexivity).
  assert (EN : sp_nperiods sp' = n).
  { unfold table_model in TM. rewrite PP in TM. cbn [result_bind] in TM. injection TM as <- _. reflexivity. }
  set (csf := choice_set_of sp' (process sp' (S k) neg)).
  assert (LEN : forall ctx s, List.length (csf ctx s) = List.length choices).
  { intros ctx s. unfold csf, choice_set_of. rewrite map_length, seq_length. exact NC. }
  assert (PB : forall ctx delta' m s, value (problem_of sp' neg k inp' ctx) delta' m s = value (table_problem table choices L cov base csf ctx) delta' m s).
  { assert (Q := st_problem_at _ _ _ sp' inp' choices L NC SQ EB ML PA). intros ctx delta' m s. unfold problem_of. fold csf.
    apply st_value; intros s'; apply Q; intros s''; rewrite NC; apply LEN. }
  assert (DV : forall t x s' c, available (csf (context grid x) (i_core x)) c -> cs_period (i_core x) = t ->
     decision_value sp' neg k grid inp' (si_beta si) t x s' c =
     table_decision table choices L cov base csf beta delta n (context grid x) (i_core x) s' c).
  { intros t x s' c AV ET. unfold decision_value, table_decision. rewrite PB, EBeta, DE, EN, ET. f_equal.
    assert (HC : (c < List.length choices)%nat).
    { rewrite <- (LEN (context grid x) (i_core x)). apply nth_error_Some. unfold available in AV. rewrite AV. discriminate. }
    unfold flow_of, table_reward. destruct (PA (context grid x) (i_core x) c HC) as (P1 & P2 & P3). rewrite P1, P2. f_equal. f_equal.
    unfold shock_of, table_shock, choices_of. fold csf. rewrite P3.
    rewrite (st_correlated choices _ L _ _ c ML (LEN _ _) HC), sm_normal. reflexivity. }
  assert (SM : standard_model sp' neg k grid ss inp') by (eapply su_model; exact SU).
  assert (SHE : ev_shape ss ev) by (eapply su_ev; exact SU).
  destruct (panel_model sp' neg k grid ss inp' ev SM SHE si order next_key periods ids draws draws_wage df SU) as [panel' [HP' [_ [_ [_ H]]]]].
  rewrite HP in HP'. injection HP' as <-.
  exists L. split; [exact FL|]. intros id t o Ho s ctx csf' worth. fold csf in csf'.
  destruct (H id t o Ho) as [p [s' [m [N1 [N2 [N3 RR]]]]]].
  assert (ES : o_shocks o = s') by exact (rr_shocks _ _ _ _ _ _ _ _ _ _ _ _ RR).
  assert (ET : cs_period (i_core (o_ind o)) = t) by apply (rr_state _ _ _ _ _ _ _ _ _ _ _ _ RR).
  assert (WD : forall c, available (csf ctx s) c -> decision_value sp' neg k grid inp' (si_beta si) t (o_ind o) s' c = worth c).
  { intros c AV. unfold worth. rewrite ES. apply DV; [exact AV|exact ET]. }
  split.
  - intros IP c AV. rewrite <- (WD c AV), <- (WD (o_choice o)) by exact (rr_available _ _ _ _ _ _ _ _ _ _ _ _ RR).
    exact (right_row_optimal _ _ _ _ _ _ _ _ _ _ _ _ _ SM SH EV RR IP c AV).
  - destruct (rr_wage _ _ _ _ _ _ _ _ _ _ _ _ RR) as [j [best [FM [NB OW]]]].
    pose proof (right_row_values _ _ _ _ _ _ _ _ _ _ _ _ _ SM SH EV RR) as Q.
    assert (AB : available (csf ctx s) best) by (apply In_positions; eapply nth_error_In; exact NB).
    exists p, m, best. split; [exact N1|]. split; [rewrite ES; exact N2|]. split; [exact N3|]. split; [exact AB|]. split.
    + intros c AV. rewrite <- (WD c AV), <- (WD best AB). destruct FM as [v [V1 [V2 _]]]. rewrite (Q _ _ NB) in V1. injection V1 as <-.
      apply In_positions, In_nth_error in AV. destruct AV as [j' Hj']. exact (V2 j' _ (Q j' c Hj')).
    + assert (HC : (best < List.length choices)%nat).
      { rewrite <- (LEN ctx s). apply nth_error_Some. unfold available in AB. rewrite AB. discriminate. }
      destruct (PA ctx s best HC) as (P1 & P2 & P3). rewrite OW. fold s ctx. rewrite P3. unfold observed_wage.
      destruct (earns table (nth best choices ""%string)) eqn:EE; [|reflexivity].
      exists (nth best (si_meas si) 0). split.
      * destruct (parse_choices_order (map fst table) covariates (st_words table WO)) as [_ [[l [E1 _]] [_ [[r [E2 _]] _]]]].
        destruct (st_choices table covariates (st_words table WO)) as (D & _ & _ & EA).
        destruct (st_documented _ _ _ _ DC _ _ D) as [_ EC].
        rewrite I3 in I2. assert (E : pc_choices (parse_choices (map fst table) covariates) =
          (pc_choices_w_wage (parse_choices (map fst table) covariates) ++ (l ++ r))%list) by (rewrite E2, E1, <- app_assoc; reflexivity).
        assert (MS := I2). rewrite E in MS. rewrite <- ESI. cbn [simulation_params si_meas].
        rewrite <- EC, E. apply (sm_meas _ _ _ _ MS). apply Nat.ltb_lt. rewrite EA; [rewrite EC; exact EE|rewrite EC; exact HC].
      * rewrite P1. do 3 f_equal. unfold shock_of, table_shock, choices_of. rewrite P3, EE. fold s ctx csf.
        rewrite (st_correlated choices _ L _ _ best ML (LEN _ _) HC), sm_normal, ES. reflexivity.
Qed.
