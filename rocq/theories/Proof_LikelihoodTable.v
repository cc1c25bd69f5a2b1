(** From the table of parameters to the likelihood. *)
From Coq Require Import List Arith Bool String Reals ZArith Lia Lra.
From Verif Require Import Base Proof_Base Model_CoreStateSpace Spec_CoreStateSpace Model_StateSpace Spec_StateSpace Proof_StateSpace Model_Solve Spec_Solve
  Proof_Solve Proof_SolveProps Proof_Shocks Model_Simulate Spec_Simulate Proof_Draws
  Model_ConditionalDraws Spec_ConditionalDraws Proof_Matrix Proof_ConditionalDraws Model_Likelihood Spec_Likelihood Proof_Likelihood Proof_LikelihoodRows
  Proof_LikelihoodChoice Proof_ComparisonPlot Model_Dataset Model_Criterion Spec_Criterion Proof_Criterion
  Model_Strings Model_Cache Model_Choices Spec_Choices Proof_Choices
  Model_Params Spec_Params Proof_Params Proof_Shocknames Model_Processing Spec_Processing Proof_Processing Proof_ProcessingShocks
  Model_ParseParameters Model_SolveTable Spec_SolveTable Proof_SolveTable Model_SimulateTable Spec_SimulateTable Proof_SimulateTable
  Model_LikelihoodTable Spec_LikelihoodTable.
Import ListNotations.
Local Open Scope R_scope.

Lemma lt_map_nth : forall (h : nat -> R) l, map (fun a => h (nth a l 0%nat)) (seq 0 (List.length l)) = map h l.
Proof.
  intros h l. induction l as [|c l IH]; [reflexivity|]. cbn [List.length seq map nth]. f_equal.
  rewrite <- seq_shift, map_map. exact IH.
Qed.

Lemma lt_values : forall (W N V E : nat -> R) d l,
  choice_values (map W l) (map N l) (map V l) d (map E l) = map (fun c => W c * E c + N c + d * V c) l.
Proof.
  intros W N V E d l. unfold choice_values. induction l as [|c l IH]; [reflexivity|].
  cbn [map List.length seq nth]. f_equal. rewrite <- seq_shift, map_map. exact IH.
Qed.

Lemma lt_sum : forall (F : nat -> R) l b,
  sumn (List.length l) (fun k => F (nth k l 0%nat) * nth k b 0) = rsum (map (fun q => fst q * F (snd q)) (combine b l)).
Proof.
  intros F l. induction l as [|c l IH]; intros b.
  - destruct b; reflexivity.
  - cbn [List.length]. rewrite sumn_front. destruct b as [|y b].
    + cbn [nth combine map]. rewrite sumn_zero'; [unfold rsum; cbn [fold_right]; ring|]. intros i _. destruct i; ring.
    + cbn [nth combine map]. rewrite IH. unfold rsum. cbn [fold_right fst snd]. ring.
Qed.

Lemma lt_meas_length : forall choices wages table meas, parse_measurement_errors choices wages table = Ok meas ->
  (List.length wages <= List.length choices)%nat -> List.length (snd meas) = List.length choices.
Proof.
  intros choices wages table meas H LE. unfold parse_measurement_errors in H.
  destruct (mem "meas_error" (map p_category table)).
  - destruct (result_all _) as [sds| | | | |] eqn:E; try discriminate H. cbn [result_bind] in H. injection H as <-. cbn [snd].
    apply result_all_Forall2, Forall2_length in E. rewrite map_length in E. rewrite app_length, skipn_length, map_length. lia.
  - injection H as <-. cbn [snd]. apply map_length.
Qed.

Section Row.
  Context (robust : nat -> (nat -> nat -> R) -> nat -> nat -> R) (n : nat) (covariates : list (string * string))
    (filters : list (core_state -> bool))
    (cov : option (list nat) -> core_state -> string -> R) (base : nat -> nat -> list (list R)) (points : nat)
    (interp : nat -> list (nat * list (list R)) -> result (list (nat * list R))) (tau : R)
    (table : list param) (sp : core_spec) (inp : inputs) (lk : like_spec) (with_exp choices : list string) (kind : shock_kind) (delta beta : R)
    (neg : neg_set) (kp : nat) (grid : list (list nat)) (ss : state_space) (ev0 ev : list (list R)) (env : like_env) (k pos : nat) (x : individual).
  Let csf := choice_set_of sp (process sp (S kp) neg).
  Let s := i_core x.
  Let ctx := context grid x.
  Let open := positions (csf ctx s).
  Hypothesis (TL : table_likelihood robust n covariates filters cov base points interp tau table = Ok (sp, inp, lk)).
  Hypothesis (WO : forall p, In p table -> word (p_category p)).
  Hypothesis (DC : documented_choices table covariates with_exp choices).
  Hypothesis (SK : shocks_of_kind table kind) (VD : value_is table "delta" "delta" delta) (DN : delta <> 0) (BI : bias_is table beta).
  Hypothesis (SM : standard_model sp neg kp grid ss inp) (SH : ev_shape ss ev0) (EV : solve_with_backward_induction ss inp ev0 = Ok ev).
  Hypothesis (IS : In s (create_core_state_space sp)) (EN : entries_of sp neg kp grid ss inp ev env k pos (cs_period s) x).

  Lemma lt_row : exists L,
    factor_of robust kind table choices L /\
    square (List.length choices) (lk_chol lk) /\
    (forall i j, (i < List.length choices)%nat -> (j < List.length choices)%nat -> mat (lk_chol lk) i j = L i j) /\
    ((forall M i j, (i < j)%nat -> robust (List.length choices) M i j = 0) -> Spec_Solve.lower_triangular (lk_chol lk)) /\
    lk_beta_delta lk = beta * delta /\ lk_tau lk = tau /\
    le_choice_set env k = csf ctx s /\ List.length (csf ctx s) = List.length choices /\
    le_wages env k pos = map (fun c => table_wage table (nth c choices ""%string) (cov ctx s)) open /\
    le_nonpec env k pos = map (fun c => row_sum table ("nonpec_" ++ nth c choices "")%string (cov ctx s)) open /\
    le_cont env k pos = map (table_future table choices L cov base csf delta n ctx s) open /\
    (forall c, (c < List.length choices)%nat -> (c <? lk_nwages lk)%nat = earns table (nth c choices ""%string)) /\
    List.length (lk_meas lk) = List.length choices /\
    (forall c, (c < List.length choices)%nat -> earns table (nth c choices ""%string) = true ->
       measurement_sd table (nth c choices ""%string) (nth c (lk_meas lk) 0)) /\
    (lk_has_meas lk = false -> forall c, nth c (lk_meas lk) 0 = 0).
  Proof.
    unfold table_likelihood in TL. destruct (process_parameters n covariates table) as [mp| | | | |] eqn:PP; try discriminate TL. cbn [result_bind] in TL.
    destruct (table_model robust n covariates filters cov base points interp table) as [[sp' inp']| | | | |] eqn:TM; try discriminate TL.
    cbn [result_bind fst snd] in TL. injection TL as E1 E2 ELK. subst sp' inp'.
    destruct (st_parts _ _ _ _ _ _ _ _ _ _ _ _ _ TM WO DC _ SK) as (L & FL & DE & NC & SQ & EB & ML & PA).
    destruct (sm_inv _ _ _ _ PP) as (I1 & I2 & I3).
    rewrite (discounting_ok _ _ _ VD BI) in I1. injection I1 as I1.
    specialize (DE _ VD).
    assert (EP : sp_nperiods sp = n).
    { unfold table_model in TM. rewrite PP in TM. cbn [result_bind] in TM. injection TM as <- _. reflexivity. }
    assert (LEN : forall c0 s0, List.length (csf c0 s0) = List.length choices).
    { intros c0 s0. unfold csf, choice_set_of. rewrite map_length, seq_length. exact NC. }
    destruct (parse_choices_order (map fst table) covariates (st_words table WO)) as [_ [[l [E1 _]] [_ [[r [E2 _]] _]]]].
    destruct (st_choices table covariates (st_words table WO)) as (D & _ & _ & EA).
    destruct (st_documented _ _ _ _ DC _ _ D) as [_ EC].
    assert (EW : pc_choices (parse_choices (map fst table) covariates) =
      (pc_choices_w_wage (parse_choices (map fst table) covariates) ++ (l ++ r))%list) by (rewrite E2, E1, <- app_assoc; reflexivity).
    rewrite I3 in I2.
    assert (OP : forall c, In c open -> (c < List.length choices)%nat).
    { intros c I. apply In_nth_error in I. destruct I as [j I]. apply positions_lt in I. rewrite LEN in I. exact I. }
    exists L. split; [exact FL|]. rewrite <- ELK. cbn [lk_chol lk_nwages lk_meas lk_has_meas lk_beta_delta lk_tau likelihood_params].
    split; [exact SQ|]. split; [exact ML|]. split.
    { intros RT i j Hij. destruct (Nat.lt_ge_cases i (List.length choices)) as [Gi|Gi].
      - destruct (Nat.lt_ge_cases j (List.length choices)) as [Gj|Gj].
        + rewrite ML by assumption. clear -FL RT Hij Gi Gj. destruct kind; cbn [factor_of] in FL.
          * destruct FL as [M [_ ->]]. apply RT. exact Hij.
          * destruct FL as [M [_ ->]]. apply RT. exact Hij.
          * destruct FL as [_ FL]. destruct (FL j i _ _ Hij (nth_error_nth' choices ""%string Gj) (nth_error_nth' choices ""%string Gi)) as [v [_ [_ Z]]]. exact Z.
        + unfold mat. apply nth_overflow. rewrite (proj2 SQ); [exact Gj|]. apply nth_In. rewrite (proj1 SQ). exact Gi.
      - unfold mat. rewrite (nth_overflow (p_chol (in_params inp))) by (rewrite (proj1 SQ); exact Gi). destruct j; reflexivity. }
    split; [rewrite <- I1; reflexivity|]. split; [reflexivity|]. split; [exact (en_choices _ _ _ _ _ _ _ _ _ _ _ _ EN)|]. split; [apply LEN|].
    split; [rewrite (en_wage _ _ _ _ _ _ _ _ _ _ _ _ EN); apply map_ext_in; intros c I; apply (PA ctx s c (OP c I))|].
    split; [rewrite (en_nonpecs _ _ _ _ _ _ _ _ _ _ _ _ EN); apply map_ext_in; intros c I; apply (PA ctx s c (OP c I))|].
    split; [|split; [|split; [|split]]].
    - apply nth_ext with (d := 0) (d' := 0).
      { rewrite (en_length _ _ _ _ _ _ _ _ _ _ _ _ EN), map_length. unfold open. rewrite length_positions. reflexivity. }
      intros j Hj. rewrite (en_length _ _ _ _ _ _ _ _ _ _ _ _ EN) in Hj.
      destruct (en_values _ _ _ _ _ _ _ _ _ _ _ _ EN) as [d [Dd EVs]].
      assert (NJ : nth_error open j = Some (nth j open 0%nat)) by (apply nth_error_nth'; unfold open; rewrite length_positions; exact Hj).
      destruct (EVs j _ NJ) as [v [V1 [V2 V3]]]. rewrite (nth_error_nth _ _ _ V1).
      rewrite (nth_indep _ 0 (table_future table choices L cov base csf delta n ctx s 0%nat))
        by (rewrite map_length; unfold open; rewrite length_positions; exact Hj).
      rewrite map_nth. set (c := nth j open 0%nat) in *. unfold table_future.
      assert (PS : (cs_period s < n)%nat).
      { rewrite <- EP. apply (core_periods sp s (sm_wf _ _ _ _ _ _ SM) (sm_lags _ _ _ _ _ _ SM) IS). }
      destruct (Nat.eq_dec (S (cs_period s)) n) as [Z|NZ].
      + rewrite V2 by (rewrite EP; exact Z). replace (n - S (cs_period s))%nat with 0%nat by lia. reflexivity.
      + assert (AV : nth_error (csf ctx s) c = Some true) by (apply In_positions; eapply nth_error_In; exact NJ).
        assert (IN : In (law_of_motion c s) (create_core_state_space sp)).
        { apply (sm_closed _ _ _ _ _ _ SM ctx s c IS); [rewrite EP; lia|exact AV]. }
        destruct (solve_model _ _ _ _ _ _ _ SM ltac:(rewrite DE; exact DN) SH) as [ev' [EV' H]].
        rewrite EV in EV'. injection EV' as <-. specialize (V3 ltac:(rewrite EP; lia)).
        apply (H _ _ _ IN Dd) in V3. rewrite V3, DE, EP.
        replace (cs_period (law_of_motion c s)) with (S (cs_period s)) by (destruct s; reflexivity).
        unfold problem_of. fold csf. assert (Q := st_problem_at cov base table sp inp choices L NC SQ EB ML PA).
        apply st_value; intros s'; apply Q; intros s''; rewrite NC; apply LEN.
    - intros c Hc. apply (PA ctx s c Hc).
    - rewrite <- EC. apply (lt_meas_length _ _ _ _ I2). rewrite EW, app_length. lia.
    - intros c Hc EE. rewrite <- EC, EW. rewrite EW in I2. apply (sm_meas _ _ _ _ I2). apply Nat.ltb_lt. rewrite EA; [rewrite EC; exact EE|rewrite EC; exact Hc].
    - intros HM c. unfold parse_measurement_errors in I2. destruct (mem _ _).
      + destruct (result_all _) as [sds| | | | |]; try discriminate I2. cbn [result_bind] in I2. injection I2 as I2. rewrite <- I2 in HM. discriminate HM.
      + injection I2 as I2. rewrite <- I2. cbn [snd]. exact (map_nth (fun _ : string => 0) _ ""%string c).
  Qed.

  Lemma lt_missing : forall rc qr draws code i lc lw,
    cholesky_routine rc -> qr_routine qr -> (forall M i j, (i < j)%nat -> robust (List.length choices) M i j = 0) ->
    nth_error open i = Some code ->
    row_loglikes rc qr lk (le_choice_set env k) (le_wages env k pos) (le_nonpec env k pos) (le_cont env k pos) draws code None = Ok (lc, lw) ->
    exists L, factor_of robust kind table choices L /\ lw = 0 /\
      lc = clip (- 10 ^ 200) (10 ^ 200)
             (ln (table_probability table choices L (cov ctx s) (table_future table choices L cov base csf delta n ctx s) beta delta tau open draws i)).
  Proof.
    intros rc qr draws code i lc lw RC QR RT NI H.
    destruct lt_row as (L & FL & SQ & ML & LT & BD & TA & CS & LC & EW & EN' & EC & NW & LM & MS & ZM).
    exists L. split; [exact FL|]. split; [exact (wage_zero _ _ _ _ _ _ _ _ _ _ H)|].
    rewrite CS, EW, EN', EC in H.
    assert (HC : (code < List.length choices)%nat) by (rewrite <- LC; exact (positions_lt _ _ _ NI)).
    assert (HI : (i < List.length open)%nat) by (apply nth_error_Some; rewrite NI; discriminate).
    assert (LO : List.length open = count_true (csf ctx s)) by apply length_positions.
    assert (CL : (count_true (csf ctx s) <= List.length choices)%nat).
    { rewrite <- LC. clear. induction (csf ctx s) as [|[] l IH]; unfold count_true in *; cbn [filter List.length]; lia. }
    match type of H with row_loglikes _ _ _ _ ?W ?N ?V _ _ _ = _ => destruct (row_choice rc qr lk (csf ctx s) W N V draws code None i (table_wage table (nth code choices ""%string) (cov ctx s)) (nth i (lk_meas lk) 0) lc lw RC QR
      ltac:(rewrite LC; exact SQ) (LT RT) ltac:(rewrite map_length; exact LO) ltac:(rewrite map_length; exact LO) ltac:(rewrite map_length; exact LO) NI
      ltac:(rewrite nth_error_map; fold open; rewrite NI; reflexivity) ltac:(apply nth_error_nth'; rewrite LM; lia) ltac:(discriminate) H)
      as (mean & U & [M0 UL] & ELC) end.
    rewrite ELC. do 2 f_equal. unfold smoothed_probability, table_probability. f_equal. rewrite map_map. apply map_ext. intros b.
    assert (SF : shocks_from (count_true (csf ctx s)) (count_true (firstn (lk_nwages lk) (csf ctx s))) mean U b =
      map (fun c => estimation_shock table (nth c choices ""%string) (rsum (map (fun q => fst q * L c (snd q)) (combine b open)))) open).
    { rewrite <- lt_map_nth. unfold shocks_from. rewrite <- LO. apply map_ext_in. intros a Ia. apply in_seq in Ia.
      assert (NA := nth_error_nth' open 0%nat (proj2 Ia : (a < List.length open)%nat)). cbn zeta.
      set (c := nth a open 0%nat) in *. assert (Hc : (c < List.length choices)%nat) by (rewrite <- LC; exact (positions_lt _ _ _ NA)).
      assert (SU : mean a + sumn (List.length open) (fun k => U a k * nth k b 0) = rsum (map (fun q => fst q * L c (snd q)) (combine b open))).
      { rewrite M0, Rplus_0_l, <- lt_sum. apply sumn_ext. intros j Hj. f_equal. rewrite UL by (rewrite <- LO; lia). fold open. fold c.
        apply ML; [exact Hc|]. rewrite <- LC. apply (positions_lt (csf ctx s) j). apply nth_error_nth'. exact Hj. }
      rewrite SU. unfold estimation_shock. rewrite <- (NW c Hc).
      assert (FP := firstn_positions _ (lk_nwages lk) _ _ NA).
      destruct (Nat.ltb_spec a (count_true (firstn (lk_nwages lk) (csf ctx s)))) as [G|G];
        destruct (Nat.ltb_spec c (lk_nwages lk)) as [G'|G']; try reflexivity; exfalso; lia. }
    rewrite SF, BD, TA. rewrite (lt_values (fun c => table_wage table (nth c choices ""%string) (cov ctx s))
       (fun c => row_sum table ("nonpec_" ++ nth c choices "")%string (cov ctx s)) (table_future table choices L cov base csf delta n ctx s)
       (fun c => estimation_shock table (nth c choices ""%string) (rsum (map (fun q => fst q * L c (snd q)) (combine b open))))).
    rewrite map_map. reflexivity.
  Qed.

  Lemma lt_observed : forall rc qr draws code w lc lw,
    (forall c, (c <= code)%nat -> available (csf ctx s) c) -> earns table (nth code choices ""%string) = true ->
    representable w -> representable (table_wage table (nth code choices ""%string) (cov ctx s)) ->
    row_loglikes rc qr lk (le_choice_set env k) (le_wages env k pos) (le_nonpec env k pos) (le_cont env k pos) draws code (Some w) = Ok (lc, lw) ->
    exists L sd, factor_of robust kind table choices L /\ measurement_sd table (nth code choices ""%string) sd /\
      (0 < shock_variance L open code + sd ^ 2 ->
       lw = clip (- 10 ^ 200) (10 ^ 200)
              (ln (lognormal_density (row_sum table ("wage_" ++ nth code choices "") (cov ctx s)) (shock_variance L open code + sd ^ 2) w))).
  Proof.
    intros rc qr draws code w lc lw PR EA RW RS H.
    destruct lt_row as (L & FL & SQ & ML & LT & BD & TA & CS & LC & EW & EN' & EC & NW & LM & MS & ZM).
    assert (NI := positions_prefix _ _ PR). fold open in NI.
    assert (HC : (code < List.length choices)%nat) by (rewrite <- LC; exact (positions_lt _ _ _ NI)).
    exists L, (nth code (lk_meas lk) 0). split; [exact FL|]. split; [exact (MS code HC EA)|].
    rewrite CS, EW, EN', EC in H. intros PO.
    assert (RC : restricted_cov (lk_chol lk) (csf ctx s) code code = shock_variance L open code).
    { unfold restricted_cov, shock_variance. fold open. f_equal. apply map_ext_in. intros j I.
      apply In_nth_error in I. destruct I as [a I]. apply positions_lt in I. rewrite LC in I. rewrite ML by assumption. reflexivity. }
    match type of H with row_loglikes _ _ _ _ ?W ?N ?V _ _ _ = _ => assert (Q := row_density_prefix rc qr lk (csf ctx s) W N V draws code w (table_wage table (nth code choices ""%string) (cov ctx s)) (nth code (lk_meas lk) 0) lc lw
      ltac:(rewrite LC; exact SQ) ltac:(rewrite map_length; apply length_positions) PR
      ltac:(rewrite nth_error_map; fold open; rewrite NI; reflexivity) RW RS ltac:(apply nth_error_nth'; rewrite LM; lia) ltac:(rewrite RC; exact PO) H) end.
    rewrite Q, RC. unfold table_wage. rewrite EA, ln_exp. reflexivity.
  Qed.
End Row.

Theorem table_missing_wage : forall robust n covariates filters cov base points interp tau table sp inp lk with_exp choices kind delta beta
    neg kp grid ss ev0 ev est x k pos rc qr draws code i lc lw,
  table_likelihood robust n covariates filters cov base points interp tau table = Ok (sp, inp, lk) ->
  (forall p, In p table -> word (p_category p)) -> documented_choices table covariates with_exp choices ->
  shocks_of_kind table kind -> value_is table "delta" "delta" delta -> delta <> 0 -> bias_is table beta ->
  standard_model sp neg kp grid ss inp -> ev_shape ss ev0 -> solve_with_backward_induction ss inp ev0 = Ok ev -> ev_shape ss ev ->
  in_model (create_core_state_space sp) grid (cs_period (i_core x)) x -> locate ss (i_core x) (i_dense x) = Ok (k, pos) ->
  cholesky_routine rc -> qr_routine qr -> (forall M i j, (i < j)%nat -> robust (List.length choices) M i j = 0) ->
  let s := i_core x in
  let ctx := context grid x in
  let csf := choice_set_of sp (process sp (S kp) neg) in
  let open := positions (csf ctx s) in
  let env := likelihood_env ss inp ev est in
  nth_error open i = Some code ->
  row_loglikes rc qr lk (le_choice_set env k) (le_wages env k pos) (le_nonpec env k pos) (le_cont env k pos) draws code None = Ok (lc, lw) ->
  exists L, factor_of robust kind table choices L /\ lw = 0 /\
    lc = clip (- 10 ^ 200) (10 ^ 200)
           (ln (table_probability table choices L (cov ctx s) (table_future table choices L cov base csf delta n ctx s) beta delta tau open draws i)).
Proof.
  intros robust n covariates filters cov base points interp tau table sp inp lk with_exp choices kind delta beta neg kp grid ss ev0 ev est x k pos rc qr draws code i lc lw
    TL WO DC SK VD DN BI SM SH EV SH' IM LO RC QR RT s ctx csf open env NI H.
  destruct (entries_found sp neg kp grid ss inp ev est SM SH' _ _ IM) as (k' & pos' & LO' & EN). rewrite LO in LO'. injection LO' as <- <-.
  exact (lt_missing robust n covariates filters cov base points interp tau table sp inp lk with_exp choices kind delta beta neg kp grid ss ev0 ev env k pos x
    TL WO DC SK VD DN BI SM SH EV (proj1 IM) EN rc qr draws code i lc lw RC QR RT NI H).
Qed.

Theorem table_observed_wage : forall robust n covariates filters cov base points interp tau table sp inp lk with_exp choices kind delta beta
    neg kp grid ss ev0 ev est x k pos rc qr draws code w lc lw,
  table_likelihood robust n covariates filters cov base points interp tau table = Ok (sp, inp, lk) ->
  (forall p, In p table -> word (p_category p)) -> documented_choices table covariates with_exp choices ->
  shocks_of_kind table kind -> value_is table "delta" "delta" delta -> delta <> 0 -> bias_is table beta ->
  standard_model sp neg kp grid ss inp -> ev_shape ss ev0 -> solve_with_backward_induction ss inp ev0 = Ok ev -> ev_shape ss ev ->
  in_model (create_core_state_space sp) grid (cs_period (i_core x)) x -> locate ss (i_core x) (i_dense x) = Ok (k, pos) ->
  let s := i_core x in
  let ctx := context grid x in
  let csf := choice_set_of sp (process sp (S kp) neg) in
  let open := positions (csf ctx s) in
  let env := likelihood_env ss inp ev est in
  let choice := nth code choices ""%string in
  (forall c, (c <= code)%nat -> available (csf ctx s) c) -> earns table choice = true ->
  representable w -> representable (table_wage table choice (cov ctx s)) ->
  row_loglikes rc qr lk (le_choice_set env k) (le_wages env k pos) (le_nonpec env k pos) (le_cont env k pos) draws code (Some w) = Ok (lc, lw) ->
  exists L sd, factor_of robust kind table choices L /\ measurement_sd table choice sd /\
    (0 < shock_variance L open code + sd ^ 2 ->
     lw = clip (- 10 ^ 200) (10 ^ 200)
            (ln (lognormal_density (row_sum table ("wage_" ++ choice) (cov ctx s)) (shock_variance L open code + sd ^ 2) w))).
Proof.
  intros robust n covariates filters cov base points interp tau table sp inp lk with_exp choices kind delta beta neg kp grid ss ev0 ev est x k pos rc qr draws code w lc lw
    TL WO DC SK VD DN BI SM SH EV SH' IM LO s ctx csf open env choice PR EA RW RS H.
  destruct (entries_found sp neg kp grid ss inp ev est SM SH' _ _ IM) as (k' & pos' & LO' & EN). rewrite LO in LO'. injection LO' as <- <-.
  exact (lt_observed robust n covariates filters cov base points interp tau table sp inp lk with_exp choices kind delta beta neg kp grid ss ev0 ev env k pos x
    TL WO DC SK VD DN BI SM SH EV (proj1 IM) EN rc qr draws code w lc lw PR EA RW RS H).
Qed.
