(** From the table of parameters to the probability of a choice given its wage. *)
From Coq Require Import List Arith Bool String Reals ZArith Lia Lra.
From Verif Require Import Base Proof_Base Model_CoreStateSpace Spec_CoreStateSpace Model_StateSpace Spec_StateSpace Proof_StateSpace Model_Solve Spec_Solve
  Proof_Solve Proof_SolveProps Proof_Shocks Model_Simulate Spec_Simulate Proof_Draws
  Model_ConditionalDraws Spec_ConditionalDraws Proof_Matrix Proof_ConditionalDraws Model_Likelihood Spec_Likelihood Proof_Likelihood Proof_LikelihoodRows
  Proof_LikelihoodChoice Proof_ComparisonPlot Model_Dataset Model_Criterion Spec_Criterion Proof_Criterion
  Model_Strings Model_Cache Model_Choices Spec_Choices Proof_Choices
  Model_Params Spec_Params Proof_Params Proof_Shocknames Model_Processing Spec_Processing Proof_Processing Proof_ProcessingShocks
  Model_ParseParameters Model_SolveTable Spec_SolveTable Proof_SolveTable Model_SimulateTable Spec_SimulateTable Proof_SimulateTable
  Model_LikelihoodTable Spec_LikelihoodTable Proof_LikelihoodTable Spec_LikelihoodGiven.
Import ListNotations.
Local Open Scope R_scope.

Lemma lg_values : forall A (W N V E : A -> R) d l,
  choice_values (map W l) (map N l) (map V l) d (map E l) = map (fun c => W c * E c + N c + d * V c) l.
Proof.
  intros A W N V E d l. unfold choice_values. induction l as [|c l IH]; [reflexivity|].
  cbn [map List.length seq nth]. f_equal. rewrite <- seq_shift, map_map. exact IH.
Qed.

Lemma lg_second : forall (f : nat -> R) l, map f l = map (fun q => f (snd q)) (enumerate l).
Proof.
  intros f l. unfold enumerate. generalize 0%nat. induction l as [|c l IH]; intros m; [reflexivity|]. cbn. f_equal. apply IH.
Qed.

Lemma lg_first : forall (h : nat -> nat -> R) l,
  map (fun a => h a (nth a l 0%nat)) (seq 0 (List.length l)) = map (fun q => h (fst q) (snd q)) (enumerate l).
Proof.
  intros h l. unfold enumerate.
  assert (G : forall l m h, map (fun a => h (m + a)%nat (nth a l 0%nat)) (seq 0 (List.length l)) =
     map (fun q => h (fst q) (snd q)) (enumerate_from m l) :> list R).
  { clear. induction l as [|c l IH]; intros m h; [reflexivity|]. cbn [List.length seq map enumerate_from nth fst snd]. f_equal; [rewrite Nat.add_0_r; reflexivity|].
    rewrite <- seq_shift, map_map. specialize (IH (S m) h). rewrite <- IH. apply map_ext. intros a. cbn [nth]. f_equal. lia. }
  exact (G l 0%nat h).
Qed.

Lemma lg_has_meas : forall robust n covariates filters cov base points interp tau table sp inp lk,
  table_likelihood robust n covariates filters cov base points interp tau table = Ok (sp, inp, lk) ->
  ~ In "meas_error"%string (map p_category table) -> lk_has_meas lk = false.
Proof.
  intros robust n covariates filters cov base points interp tau table sp inp lk TL NM.
  unfold table_likelihood in TL. destruct (process_parameters n covariates table) as [mp| | | | |] eqn:PP; try discriminate TL. cbn [result_bind] in TL.
  destruct (table_model robust n covariates filters cov base points interp table) as [[sp' inp']| | | | |] eqn:TM; try discriminate TL.
  cbn [result_bind fst snd] in TL. injection TL as _ _ <-. cbn [lk_has_meas likelihood_params].
  destruct (sm_inv _ _ _ _ PP) as (_ & I2 & _). unfold parse_measurement_errors in I2.
  apply (proj2 (mem_false_iff _ _)) in NM. rewrite NM in I2. injection I2 as <-. reflexivity.
Qed.

Theorem table_choice_given_wage : forall robust n covariates filters cov base points interp tau table sp inp lk with_exp choices kind delta beta
    neg kp grid ss ev0 ev est x k pos rc qr draws code w lc lw,
  table_likelihood robust n covariates filters cov base points interp tau table = Ok (sp, inp, lk) ->
  (forall p, In p table -> word (p_category p)) -> documented_choices table covariates with_exp choices ->
  shocks_of_kind table kind -> value_is table "delta" "delta" delta -> delta <> 0 -> bias_is table beta ->
  standard_model sp neg kp grid ss inp -> ev_shape ss ev0 -> solve_with_backward_induction ss inp ev0 = Ok ev -> ev_shape ss ev ->
  in_model (create_core_state_space sp) grid (cs_period (i_core x)) x -> locate ss (i_core x) (i_dense x) = Ok (k, pos) ->
  cholesky_routine rc -> qr_routine qr -> (forall M i j, (i < j)%nat -> robust (List.length choices) M i j = 0) ->
  let s := i_core x in
  let ctx := context grid x in
  let csf := choice_set_of sp (process sp (S kp) neg) in
  let open := positions (csf ctx s) in
  let env := likelihood_env ss inp ev est in
  let choice := nth code choices ""%string in
  (forall c, (c <= code)%nat -> available (csf ctx s) c) -> earns table choice = true ->
  representable w -> representable (table_wage table choice (cov ctx s)) ->
  row_loglikes rc qr lk (le_choice_set env k) (le_wages env k pos) (le_nonpec env k pos) (le_cont env k pos) draws code (Some w) = Ok (lc, lw) ->
  exists L sd, factor_of robust kind table choices L /\ measurement_sd table choice sd /\
    (shock_covariance L open code code <> 0 ->
     (~ In "meas_error"%string (map p_category table) \/ sd <> 0 /\ forall c, In c open -> L c c <> 0) ->
     exists m U, shocks_given_wage L open code (row_sum table ("wage_" ++ choice) (cov ctx s)) sd w m U /\
       lc = clip (- 10 ^ 200) (10 ^ 200)
              (ln (given_probability table choices (cov ctx s) (table_future table choices L cov base csf delta n ctx s) beta delta tau open m U draws code))).
Proof.
  intros robust n covariates filters cov base points interp tau table sp inp lk with_exp choices kind delta beta neg kp grid ss ev0 ev est x k pos rc qr draws code w lc lw
    TL WO DC SK VD DN BI SM SH EV SH' IM LO RC QR RT s ctx csf open env choice PR EA RW RS H.
  destruct (entries_found sp neg kp grid ss inp ev est SM SH' _ _ IM) as (k' & pos' & LO' & EN). rewrite LO in LO'. injection LO' as <- <-.
  destruct (lt_row robust n covariates filters cov base points interp tau table sp inp lk with_exp choices kind delta beta neg kp grid ss ev0 ev env k pos x
    TL WO DC SK VD DN BI SM SH EV (proj1 IM) EN) as (L & FL & SQ & ML & LT & BD & TA & CS & LC & EW & EN' & EC & NW & LM & MS & ZM).
  fold s ctx csf in CS, LC, EW, EN', EC. fold open in EW, EN', EC.
  assert (NI := positions_prefix _ _ PR). fold open in NI.
  assert (HC : (code < List.length choices)%nat) by (rewrite <- LC; exact (positions_lt _ _ _ NI)).
  exists L, (nth code (lk_meas lk) 0). split; [exact FL|]. split; [exact (MS code HC EA)|]. intros VN ME.
  rewrite CS, EW, EN', EC in H.
  assert (OC : forall c, In c open -> (c < List.length choices)%nat).
  { intros c I. apply In_nth_error in I. destruct I as [a I]. rewrite <- LC. exact (positions_lt _ _ _ I). }
  assert (RV : forall c d, (c < List.length choices)%nat -> (d < List.length choices)%nat ->
     restricted_cov (lk_chol lk) (csf ctx s) c d = shock_covariance L open c d).
  { intros c d Hc Hd. unfold restricted_cov, shock_covariance. fold open. f_equal. apply map_ext_in. intros j I.
    rewrite !ML by auto. reflexivity. }
  assert (LO'' : List.length open = count_true (csf ctx s)) by apply length_positions.
  match type of H with row_loglikes _ _ _ _ ?W ?N ?V _ _ _ = _ =>
    destruct (row_choice rc qr lk (csf ctx s) W N V draws code (Some w) code (table_wage table choice (cov ctx s)) (nth code (lk_meas lk) 0) lc lw RC QR
      ltac:(rewrite LC; exact SQ) (LT RT) ltac:(rewrite map_length; exact LO'') ltac:(rewrite map_length; exact LO'') ltac:(rewrite map_length; exact LO'') NI
      ltac:(rewrite nth_error_map; fold open; rewrite NI; reflexivity) ltac:(apply nth_error_nth'; rewrite LM; lia)) with (2 := H)
      as (mean & U & CD & ELC) end.
  { intros w' E. injection E as <-. split; [exact RW|]. split; [exact RS|].
    split; [apply (firstn_positions _ (lk_nwages lk) _ _ NI), Nat.ltb_lt; rewrite NW by exact HC; exact EA|].
    split; [rewrite RV by assumption; exact VN|].
    destruct (lk_has_meas lk) eqn:HM; [|apply ZM; reflexivity].
    destruct ME as [ME|[M1 M2]]; [rewrite (lg_has_meas _ _ _ _ _ _ _ _ _ _ _ _ _ TL ME) in HM; discriminate HM|].
    split; [exact M1|]. intros c AV. apply In_positions in AV. fold open in AV. rewrite ML by auto. apply M2. exact AV. }
  exists mean, U. split.
  - intros a b ca cb ba bb Na Nb Ba Bb.
    assert (Ha : (a < count_true (csf ctx s))%nat) by (rewrite <- LO''; apply nth_error_Some; rewrite Na; discriminate).
    assert (Hb : (b < count_true (csf ctx s))%nat) by (rewrite <- LO''; apply nth_error_Some; rewrite Nb; discriminate).
    assert (R : forall a b ca cb, nth_error open a = Some ca -> nth_error open b = Some cb ->
       restricted_matrix (lk_chol lk) (csf ctx s) a b = shock_covariance L open ca cb).
    { intros a0 b0 c0 d0 A B. unfold restricted_matrix. fold open. rewrite (nth_error_nth _ _ _ A), (nth_error_nth _ _ _ B).
      apply RV; apply OC; eapply nth_error_In; eassumption. }
    cbn [conditional_distribution] in CD. specialize (CD a b ba bb Ha Hb).
    rewrite !(R _ _ _ _ Na NI), !(R _ _ _ _ Nb NI), !(R _ _ _ _ NI NI), !(R _ _ _ _ Na Nb) in CD.
    specialize (CD Ba Bb). destruct CD as [C1 C2]. unfold table_wage in C1. rewrite EA, ln_exp in C1.
    split; [exact C1|]. rewrite LO''. exact C2.
  - rewrite ELC. do 2 f_equal. unfold smoothed_probability, given_probability. f_equal. rewrite map_map. apply map_ext. intros b.
    assert (SF : shocks_from (count_true (csf ctx s)) (count_true (firstn (lk_nwages lk) (csf ctx s))) mean U b =
      map (fun q => estimation_shock table (nth (snd q) choices ""%string) (mean (fst q) + sumn (List.length open) (fun j => U (fst q) j * nth j b 0))) (enumerate open)).
    { rewrite <- (lg_first (fun a c => estimation_shock table (nth c choices ""%string) (mean a + sumn (List.length open) (fun j => U a j * nth j b 0)))).
      unfold shocks_from. rewrite <- LO''. apply map_ext_in. intros a Ia. apply in_seq in Ia.
      assert (NA := nth_error_nth' open 0%nat (proj2 Ia : (a < List.length open)%nat)). cbn zeta.
      set (c := nth a open 0%nat) in *. assert (Hc : (c < List.length choices)%nat) by (rewrite <- LC; exact (positions_lt _ _ _ NA)).
      unfold estimation_shock. rewrite <- (NW c Hc). assert (FP := firstn_positions _ (lk_nwages lk) _ _ NA).
      destruct (Nat.ltb_spec a (count_true (firstn (lk_nwages lk) (csf ctx s)))) as [G|G];
        destruct (Nat.ltb_spec c (lk_nwages lk)) as [G'|G']; try reflexivity; exfalso; lia. }
    rewrite SF, BD, TA.
    rewrite (lg_second (fun c => table_wage table (nth c choices ""%string) (cov ctx s)) open),
      (lg_second (fun c => row_sum table ("nonpec_" ++ nth c choices "")%string (cov ctx s)) open),
      (lg_second (table_future table choices L cov base csf delta n ctx s) open), lg_values, map_map. reflexivity.
Qed.
