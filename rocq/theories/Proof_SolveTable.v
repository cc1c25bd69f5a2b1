(** From the table of parameters to the solution. *)
From Coq Require Import List Arith Bool String Reals ZArith Lia.
From Verif Require Import Base Proof_Base Model_CoreStateSpace Spec_CoreStateSpace Model_StateSpace Spec_StateSpace Proof_StateSpace Model_Solve Spec_Solve
  Proof_Solve Proof_SolveProps Proof_Shocks Model_Strings Model_Cache Model_Choices Spec_Choices Proof_Choices
  Model_Params Spec_Params Proof_Params Proof_Shocknames Model_Processing Spec_Processing Proof_Processing Proof_ProcessingShocks
  Model_ParseParameters Model_SolveTable Spec_SolveTable.
Import ListNotations.
Local Open Scope R_scope.

Lemma st_number : forall names n, In n names -> nth (number_of names n) names ""%string = n.
Proof.
  induction names as [|m r IH]; intros n I; [destruct I|]. cbn [number_of].
  destruct (String.eqb m n) eqn:E; [apply String.eqb_eq in E; exact E|]. cbn [nth]. apply IH.
  destruct I as [->|I]; [rewrite String.eqb_refl in E; discriminate|exact I].
Qed.

Lemma st_earns : forall table c, earns table c = mem ("wage_" ++ c) (map p_category table).
Proof.
  intros table c. unfold earns, mem. induction table as [|p r IH]; [reflexivity|]. cbn [existsb map]. rewrite IH. f_equal.
  apply String.eqb_sym.
Qed.

Lemma st_linear : forall table category (x : string -> R),
  linear_index (fun i => x (nth i (map p_name table) ""%string))
    (map (fun p => (number_of (map p_name table) (fst p), snd p))
       (map (fun p : param => (p_name p, snd p)) (filter (fun p => String.eqb (p_category p) category) table)))
  = row_sum table category x.
Proof.
  intros table category x. unfold linear_index, row_sum, rows_of. rewrite !map_map. f_equal. apply map_ext_in.
  intros p I. cbn [fst snd]. apply filter_In in I. rewrite st_number by (apply in_map; apply I). ring.
Qed.

Lemma st_none : forall table category (x : string -> R), mem category (map p_category table) = false -> row_sum table category x = 0.
Proof.
  intros table category x H. unfold row_sum, rows_of. replace (filter _ table) with (@nil param); [reflexivity|].
  symmetry. apply (proj1 (mem_false_iff category (map p_category table))) in H.
  induction table as [|p r IH]; [reflexivity|]. cbn [filter]. destruct (String.eqb (p_category p) category) eqn:E.
  - exfalso. apply H. left. apply String.eqb_eq. exact E.
  - apply IH. intros I. apply H. right. exact I.
Qed.

Lemma st_inv : forall n covariates table mp, process_parameters n covariates table = Ok mp ->
  exists exper kind lagged,
    result_all (map (parse_experience n table) (pc_choices_w_exp (parse_choices (map fst table) covariates))) = Ok exper /\
    shocks_kind (map p_category table) = Ok kind /\
    param_value table "delta" "delta" = Ok (fst (fst (mp_discounting mp))) /\
    mp_choices mp = parse_choices (map fst table) covariates /\
    mp_rewards mp = parse_choice_parameters (pc_choices (mp_choices mp)) table /\
    mp_experience mp = exper /\ fst (mp_shocks mp) = kind /\ mp_lagged mp = lagged /\
    validate_shocks (pc_choices (mp_choices mp)) table = Ok tt.
Proof.
  intros n covariates params mp H. unfold process_parameters in H.
  destruct (parse_parameters n covariates params) as [m| | | | |] eqn:E; try discriminate. cbn [result_bind] in H.
  destruct (validate_shocks _ _) as [[]| | | | |] eqn:VS; try discriminate. injection H as <-.
  unfold parse_parameters in E.
  destruct (parse_discounting params) as [x1| | | | |] eqn:D; try discriminate. cbn [result_bind] in E.
  destruct (parse_variables "exogenous_process" params) as [x2| | | | |]; try discriminate. cbn [result_bind] in E.
  destruct (result_bind (parse_variables "observable" params) (merge_observables x2)) as [x3| | | | |]; try discriminate. cbn [result_bind] in E.
  destruct (result_all (map _ (pc_choices_w_exp _))) as [x4| | | | |] eqn:X4; try discriminate. cbn [result_bind] in E.
  destruct (shocks_kind _) as [x5| | | | |] eqn:X5; try discriminate. cbn [result_bind] in E.
  destruct (parse_measurement_errors _ _ _) as [x6| | | | |]; try discriminate. cbn [result_bind] in E.
  destruct (parse_types _) as [x7| | | | |]; try discriminate. cbn [result_bind] in E.
  destruct (parse_lagged_choices _ _ _) as [x8| | | | |]; try discriminate. cbn [result_bind] in E. injection E as <-.
  cbn [mp_rewards mp_choices mp_discounting mp_experience mp_shocks mp_lagged] in *.
  exists x4, x5, x8. unfold parse_discounting in D.
  destruct (param_value params "delta" "delta") as [d| | | | |]; try discriminate. cbn [result_bind] in D. injection D as <-.
  repeat split; auto.
Qed.

Lemma st_length_positions : forall cs, List.length (positions cs) = count_true cs.
Proof. intros cs. apply length_positions. Qed.

Lemma st_choices : forall table covariates, words (map fst table) ->
  let pc := parse_choices (map fst table) covariates in
  documented_choices table covariates (pc_choices_w_exp pc) (pc_choices pc) /\
  (forall c, In c (pc_choices_w_exp pc) -> well_named c) /\
  (List.length (pc_choices_w_exp pc) <= List.length (pc_choices pc))%nat /\
  forall c, (c < List.length (pc_choices pc))%nat ->
    (c <? List.length (pc_choices_w_wage pc))%nat = earns table (nth c (pc_choices pc) ""%string).
Proof.
  intros table covariates W pc. destruct (parse_choices_order (map fst table) covariates W) as [LW [[l [E1 L1]] [_ [[r [E2 L2]] ND]]]].
  fold pc in LW, E1, E2, ND. split; [|split; [|split]].
  - exists (pc_choices_w_wage pc), l, r. rewrite E2, E1, <- app_assoc. auto 10.
  - intros c I. rewrite E1 in I. apply in_app_iff in I. destruct I as [I|I].
    + apply (proj2 LW) in I. apply I.
    + apply (proj2 L1) in I. apply I.
  - rewrite E2, app_length. lia.
  - intros c Hc. rewrite st_earns. set (d := nth c (pc_choices pc) ""%string).
    assert (WN : well_named d).
    { assert (I : In d (pc_choices pc)) by (apply nth_In; exact Hc). rewrite E2, E1, !in_app_iff in I.
      destruct I as [[I|I]|I]; [apply (proj2 LW) in I|apply (proj2 L1) in I|apply (proj2 L2) in I]; unfold has_wage, has_nonpec in I; tauto. }
    assert (Q : mem ("wage_" ++ d) (map p_category table) = true <-> In d (pc_choices_w_wage pc)).
    { rewrite mem_iff, (proj2 LW d). unfold has_wage. rewrite map_map. unfold p_category. tauto. }
    assert (P : In d (pc_choices_w_wage pc) <-> (c < List.length (pc_choices_w_wage pc))%nat).
    { assert (E : pc_choices pc = (pc_choices_w_wage pc ++ (l ++ r))%list) by (rewrite E2, E1, <- app_assoc; reflexivity).
      unfold d. rewrite E. split.
      - intros I. destruct (Nat.lt_ge_cases c (List.length (pc_choices_w_wage pc))) as [G|G]; [exact G|exfalso].
        rewrite app_nth2 in I by exact G. apply (In_nth _ _ ""%string) in I. destruct I as [j [Hj Ej]].
        rewrite E in ND, Hc. rewrite NoDup_nth with (d := ""%string) in ND. specialize (ND j c).
        rewrite app_length in ND, Hc. rewrite app_nth1 in ND by exact Hj. rewrite app_nth2 in ND by exact G.
        specialize (ND ltac:(lia) ltac:(lia) Ej). lia.
      - intros G. rewrite app_nth1 by exact G. apply nth_In. exact G. }
    destruct (Nat.ltb_spec c (List.length (pc_choices_w_wage pc))) as [G|G].
    + symmetry. apply Q, P. exact G.
    + symmetry. apply not_true_iff_false. intros M. apply Q, P in M. lia.
Qed.

Section Table.
  Context (robust : nat -> (nat -> nat -> R) -> nat -> nat -> R) (n : nat) (covariates : list (string * string))
    (cov : option (list nat) -> core_state -> string -> R) (base : nat -> nat -> list (list R)) (points : nat)
    (interp : nat -> list (nat * list (list R)) -> result (list (nat * list R)))
    (filters : list (core_state -> bool)) (table : list param) (sp : core_spec) (inp : inputs) (with_exp choices : list string).
  Hypothesis (TM : table_model robust n covariates filters cov base points interp table = Ok (sp, inp)).
  Hypothesis (WO : forall p, In p table -> word (p_category p)).
  Hypothesis (DC : documented_choices table covariates with_exp choices).

  Lemma st_words : words (map fst table).
  Proof. intros e I. apply in_map_iff in I. destruct I as [q [<- I]]. apply in_map_iff in I. destruct I as [p [<- I]]. exact (WO p I). Qed.

  Lemma st_documented : forall w c, documented_choices table covariates w c -> w = with_exp /\ c = choices.
  Proof.
    intros w c (a & b & d & -> & -> & A & B & D). destruct DC as (a' & b' & d' & -> & -> & A' & B' & D').
    rewrite (lists_unique _ _ _ A A'), (lists_unique _ _ _ B B'), (lists_unique _ _ _ D D'). auto.
  Qed.

  Lemma st_model : small_experience n table with_exp ->
    wf_spec sp /\ sp_filters sp = filters /\ core_from_table n table with_exp choices sp /\
    in_choices inp = seq 0 (sp_nchoices sp) /\ square (sp_nchoices sp) (p_chol (in_params inp)) /\ in_points inp = points.
  Proof.
    intros SM. unfold table_model in TM. destruct (process_parameters n covariates table) as [mp| | | | |] eqn:PP; try discriminate.
    cbn [result_bind] in TM. injection TM as <- <-.
    destruct (st_inv _ _ _ _ PP) as (ex & kind & lagged & H1 & H2 & H3 & H4 & H5 & H6 & H7 & H8 & H9).
    destruct (st_choices table covariates st_words) as (D & G & LC & _).
    rewrite H4. set (pc := parse_choices (map fst table) covariates) in *.
    destruct (st_documented _ _ D) as [EW EC]. rewrite H6.
    assert (CS : core_spec_of n (List.length (mp_lagged mp)) filters (pc_choices_w_exp pc) (pc_choices pc) table =
      Ok (mkSpec n (map (fun sm => numbers (fst sm)) ex) (map (fun sm => Z.to_nat (snd sm)) ex) (List.length (pc_choices pc)) (List.length (mp_lagged mp)) filters)).
    { unfold core_spec_of. rewrite H1. reflexivity. }
    destruct (spec_starts _ _ _ _ _ _ _ CS) as [parsed [F EQ]].
    assert (Q : Forall2 (fun c sm => In c with_exp /\
                (forall k, In k (numbers (fst sm)) <-> initial_level table c k) /\
                maximum_of n table c (snd sm) /\ (0 <= snd sm < 256)%Z) (pc_choices_w_exp pc) parsed).
    { apply Forall2_In in F. eapply Forall2_impl; [|exact F]. intros c [st m] [I P]. cbn [fst snd].
      assert (I' : In c with_exp) by (rewrite <- EW; exact I). split; [exact I'|].
      destruct (levels_ok n table c WO (G c I) st m P) as [_ [_ [L _]]]. split; [exact L|].
      assert (MO := maximum_ok n table c st m WO (G c I) P). split; [exact MO|]. apply (SM c I'). exact MO. }
    assert (LEN : List.length (pc_choices_w_exp pc) = List.length parsed) by (eapply Forall2_length; eauto).
    rewrite EQ. split; [|split; [reflexivity|split; [|split; [reflexivity|split; [|reflexivity]]]]].
    - unfold wf_spec; cbn [sp_nperiods sp_starts sp_max sp_nchoices sp_nlags sp_filters]. rewrite !map_length. split; [reflexivity|]. split; [lia|]. split; [|split].
      + intros l I. apply in_map_iff in I. destruct I as [sm [<- I]].
        destruct (Forall2_In_r _ _ _ _ _ _ Q I) as [c [Ic [_ [L _]]]]. intros E.
        assert (Z0 : forall j, ~ declares_level table c j).
        { intros j J. assert (X : In j (numbers (fst sm))) by (apply L; left; exact J). rewrite E in X. destruct X. }
        assert (X : In 0%nat (numbers (fst sm))) by (apply L; right; auto). rewrite E in X. destruct X.
      + intros l x I X. apply in_map_iff in I. destruct I as [sm [<- I]].
        destruct (Forall2_In_r _ _ _ _ _ _ Q I) as [c [Ic [Ie [L _]]]]. apply (SM c Ie). apply L. exact X.
      + intros m I. apply in_map_iff in I. destruct I as [sm [<- I]].
        destruct (Forall2_In_r _ _ _ _ _ _ Q I) as [c [Ic [_ [_ [_ M]]]]]. lia.
    - unfold core_from_table; cbn [sp_nperiods sp_starts sp_max sp_nchoices sp_nlags sp_filters]. split; [reflexivity|]. split; [rewrite EC; reflexivity|]. rewrite <- EW. split.
      + apply Forall2_map_r. eapply Forall2_impl; [|exact Q]. cbn. tauto.
      + apply Forall2_map_r. eapply Forall2_impl; [|exact Q]. cbn. intros c sm [_ [_ [M B]]].
        rewrite Z2Nat.id by lia. exact M.
    - cbn [sp_nchoices in_params solution_params p_chol]. unfold cholesky_of. rewrite H4. fold pc. split; [rewrite map_length, seq_length; reflexivity|].
      intros row I. apply in_map_iff in I. destruct I as [i [<- _]]. rewrite map_length, seq_length. reflexivity.
  Qed.

  (** The parts of the decision problem of the table. *)
  Lemma st_parts : forall kind, shocks_of_kind table kind -> exists L, factor_of robust kind table choices L /\
    (forall v, value_is table "delta" "delta" v -> p_delta (in_params inp) = v) /\
    sp_nchoices sp = List.length choices /\ square (List.length choices) (p_chol (in_params inp)) /\ in_base inp = base /\
    (forall i j, (i < List.length choices)%nat -> (j < List.length choices)%nat -> mat (p_chol (in_params inp)) i j = L i j) /\
    (forall ctx s c, (c < List.length choices)%nat ->
       wage_of (in_params inp) (in_cov inp ctx s) c = table_wage table (nth c choices ""%string) (cov ctx s) /\
       nonpec_of (in_params inp) (in_cov inp ctx s) c = row_sum table ("nonpec_" ++ nth c choices "")%string (cov ctx s) /\
       (c <? p_nwages (in_params inp))%nat = earns table (nth c choices ""%string)).
  Proof.
    intros kind SK. unfold table_model in TM. destruct (process_parameters n covariates table) as [mp| | | | |] eqn:PP; try discriminate.
    cbn [result_bind] in TM. injection TM as <- <-.
    destruct (st_inv _ _ _ _ PP) as (ex & kd & lagged & H1 & H2 & H3 & H4 & H5 & H6 & H7 & H8 & H9).
    rewrite (shocks_kind_ok _ _ SK) in H2. injection H2 as <-.
    destruct (st_choices table covariates st_words) as (D & G & LC & EA).
    destruct (parse_choices_order (map fst table) covariates st_words) as [_ [_ [_ [_ ND]]]].
    destruct (st_documented _ _ D) as [EW EC].
    assert (MO := shock_matrix_ok _ _ _ ND SK). rewrite H4 in H9. specialize (MO H9). rewrite EC in MO.
    exists (match kind with Chol => shock_matrix kind (List.length choices) table | _ => robust (List.length choices) (shock_matrix kind (List.length choices) table) end).
    split; [destruct kind; cbn [factor_of]; [eexists; split; [exact MO|reflexivity]|eexists; split; [exact MO|reflexivity]|exact MO]|].
    split.
    { intros v V. rewrite (value_is_find _ _ _ _ V) in H3. injection H3 as H3. symmetry. exact H3. }
    cbn [sp_nchoices in_params in_cov in_base].
    assert (NC : List.length (pc_choices (mp_choices mp)) = List.length choices) by (rewrite H4, EC; reflexivity).
    set (p := solution_params robust table mp) in *.
    split; [exact NC|]. split; [|split; [reflexivity|]].
    { unfold p, solution_params, cholesky_of. cbn [p_chol]. rewrite NC. split; [rewrite map_length, seq_length; reflexivity|].
      intros row I. apply in_map_iff in I. destruct I as [i [<- _]]. rewrite map_length, seq_length. reflexivity. }
    set (Lf := match kind with Chol => _ | _ => _ end). split.
    { intros i j Hi Hj. unfold p, solution_params, cholesky_of, mat. cbn [p_chol]. rewrite NC, H7.
      rewrite (nth_indep _ [] (map (match kind with Chol => shock_matrix kind (List.length choices) table | _ => robust (List.length choices) (shock_matrix kind (List.length choices) table) end 0%nat) (seq 0 (List.length choices))))
        by (rewrite map_length, seq_length; exact Hi).
      rewrite (map_nth (fun i => map (_ i) (seq 0 (List.length choices)))), seq_nth by exact Hi. cbn [Nat.add].
      rewrite (nth_indep _ 0 (Lf i 0%nat)) by (rewrite map_length, seq_length; exact Hj).
      rewrite (map_nth (Lf i)), seq_nth by exact Hj. reflexivity. }
    intros ctx s c Hc.
    assert (NR : nth_error (mp_rewards mp) c = Some (nth c choices ""%string,
       (coefficients_of ("wage_" ++ nth c choices "")%string table, coefficients_of ("nonpec_" ++ nth c choices "")%string table))).
    { rewrite H5, H4, EC. unfold parse_choice_parameters. rewrite nth_error_map, (nth_error_nth' _ ""%string) by exact Hc. reflexivity. }
    unfold table_wage, wage_of, nonpec_of, p. cbn [solution_params p_wage p_nonpec p_nwages]. rewrite NR. cbn [fst snd].
    unfold coefficients_of, numbered. rewrite st_earns. split; [|split].
    - destruct (mem ("wage_" ++ nth c choices "")%string (map p_category table)) eqn:E1; cbn [option_map]; rewrite ?st_linear; reflexivity.
    - destruct (mem ("nonpec_" ++ nth c choices "")%string (map p_category table)) eqn:E2; cbn [option_map];
        rewrite ?st_linear, ?(st_none _ _ _ E2); reflexivity.
    - rewrite H4, EA by (rewrite EC; exact Hc). rewrite EC. apply st_earns.
  Qed.

  Lemma st_correlated : forall p L cs draw c, (forall i j, (i < List.length choices)%nat -> (j < List.length choices)%nat -> mat (p_chol p) i j = L i j) ->
    List.length cs = List.length choices -> (c < List.length choices)%nat ->
    correlated (p_chol p) cs draw c = rsum (map (fun q => fst q * L c (snd q)) (combine draw (positions cs))).
  Proof.
    intros p L cs draw c ML LEN Hc. unfold correlated. f_equal. apply map_ext_in. intros [a b] I. cbn [fst snd]. rewrite ML; [reflexivity|exact Hc|].
    apply in_combine_r in I. apply (In_nth_error) in I. destruct I as [j I]. apply positions_lt in I. lia.
  Qed.

  Lemma st_problem_at : forall L, sp_nchoices sp = List.length choices -> square (List.length choices) (p_chol (in_params inp)) -> in_base inp = base ->
    (forall i j, (i < List.length choices)%nat -> (j < List.length choices)%nat -> mat (p_chol (in_params inp)) i j = L i j) ->
    (forall ctx s c, (c < List.length choices)%nat ->
       wage_of (in_params inp) (in_cov inp ctx s) c = table_wage table (nth c choices ""%string) (cov ctx s) /\
       nonpec_of (in_params inp) (in_cov inp ctx s) c = row_sum table ("nonpec_" ++ nth c choices "")%string (cov ctx s) /\
       (c <? p_nwages (in_params inp))%nat = earns table (nth c choices ""%string)) ->
    forall csf ctx, (forall s, List.length (csf ctx s) = sp_nchoices sp) -> forall s,
      pb_moves (model_problem csf inp ctx) s = pb_moves (table_problem table choices L cov base csf ctx) s /\
      pb_flows (model_problem csf inp ctx) s = pb_flows (table_problem table choices L cov base csf ctx) s.
  Proof.
    intros L NC SQ EB ML PA.
    intros csf ctx LEN s. split; [reflexivity|]. specialize (LEN s). rewrite NC in LEN.
    cbn [pb_flows model_problem table_problem]. rewrite EB.
    set (cs := csf ctx s) in *. rewrite st_length_positions.
    set (p := in_params inp) in *. set (draws := base (count_true cs) (cs_period s)).
    unfold transform_draws. rewrite map_map. apply map_ext_in. intros draw I.
    apply In_nth_error in I. destruct I as [i I].
    assert (TD := fun j c => transform_draw_spec (List.length choices) p cs draws i draw j c SQ LEN I).
    apply nth_ext with (d := 0) (d' := 0).
    { rewrite !map_length, combine_length, length_transform_draw. unfold subset_cholesky. rewrite map_length, length_compress by (destruct SQ; lia).
      rewrite st_length_positions. lia. }
    intros j Hj. rewrite map_length, combine_length in Hj.
    assert (HJ : (j < List.length (positions cs))%nat) by lia.
    assert (NJ := nth_error_nth' (positions cs) 0%nat HJ). set (c := nth j (positions cs) 0%nat) in *.
    destruct (TD j c NJ) as [e [E1 [E2 E3]]]. unfold transform_draws in E1. rewrite nth_error_map, I in E1. cbn [option_map] in E1. injection E1 as E1.
    rewrite E1. assert (HC := positions_lt _ _ _ NJ). rewrite LEN in HC.
    apply nth_error_nth with (d := 0) in E3.
    set (F1 := fun q : nat * R => wage_of p (in_cov inp ctx s) (fst q) * snd q + nonpec_of p (in_cov inp ctx s) (fst q)).
    set (F2 := fun c0 => table_reward table (nth c0 choices ""%string) (cov ctx s)
       (rsum (map (fun q => fst q * L c0 (snd q)) (combine draw (positions cs))))).
    rewrite (nth_indep _ 0 (F1 (0%nat, 0)))
      by (rewrite map_length, combine_length, E2, st_length_positions; rewrite st_length_positions in HJ; lia).
    rewrite (map_nth F1), combine_nth by (rewrite st_length_positions; lia). fold c. rewrite E3.
    rewrite (nth_indep _ 0 (F2 0%nat)) by (rewrite map_length; exact HJ).
    rewrite (map_nth F2). fold c. unfold F1, F2. cbn [fst snd].
    rewrite (st_correlated p L cs draw c ML LEN HC). destruct (PA ctx s c HC) as (P1 & P2 & P3).
    fold p in P1, P2, P3. rewrite P1, P2, P3. reflexivity.
  Qed.

  Lemma st_problem : forall kind, shocks_of_kind table kind -> exists L, factor_of robust kind table choices L /\
    (forall v, value_is table "delta" "delta" v -> p_delta (in_params inp) = v) /\
    forall csf ctx, (forall s, List.length (csf ctx s) = sp_nchoices sp) -> forall s,
      pb_moves (model_problem csf inp ctx) s = pb_moves (table_problem table choices L cov base csf ctx) s /\
      pb_flows (model_problem csf inp ctx) s = pb_flows (table_problem table choices L cov base csf ctx) s.
  Proof.
    intros kind SK. destruct (st_parts kind SK) as (L & FL & DE & NC & SQ & EB & ML & PA). exists L. split; [exact FL|]. split; [exact DE|].
    exact (st_problem_at L NC SQ EB ML PA).
  Qed.
End Table.

Lemma st_value : forall S (pb pb' : problem S) delta, (forall s, pb_moves pb s = pb_moves pb' s) -> (forall s, pb_flows pb s = pb_flows pb' s) ->
  forall n s, value pb delta n s = value pb' delta n s.
Proof.
  intros S pb pb' delta M F. induction n as [|n IH]; intros s; [reflexivity|]. cbn [value]. rewrite M, F. f_equal. apply map_ext. intros u.
  f_equal. apply map_ext. intros p. rewrite IH. reflexivity.
Qed.

Theorem table_standard : forall robust n covariates filters cov base points interp table sp inp with_exp choices neg k grid ss,
  table_model robust n covariates filters cov base points interp table = Ok (sp, inp) ->
  (forall p, In p table -> word (p_category p)) -> documented_choices table covariates with_exp choices ->
  small_experience n table with_exp -> (sp_nlags sp <= 1)%nat ->
  (filters = [] \/ closed_under_choices n (create_core_state_space sp) (choice_set_of sp (process sp (S k) neg))) ->
  collision_free (create_core_state_space sp) (choice_set_of sp (process sp (S k) neg)) grid ->
  create_state_space n (create_core_state_space sp) (choice_set_of sp (process sp (S k) neg)) grid = Ok ss ->
  (forall p, solved_exactly ss points p) ->
  standard_model sp neg k grid ss inp /\ core_from_table n table with_exp choices sp.
Proof.
  intros robust n covariates filters cov base points interp table sp inp with_exp choices neg k grid ss TM WO DC SM LG CL CF CR EX.
  destruct (st_model _ _ _ _ _ _ _ _ _ _ _ _ _ TM WO DC SM) as (A & B & C & D & E & F). split; [|exact C].
  constructor; auto.
  - destruct CL as [->|CL]; [apply model_closed; assumption|]. destruct C as [-> _]. exact CL.
  - destruct C as [-> _]. exact CR.
  - rewrite F. exact EX.
Qed.

Theorem table_solution : forall robust n covariates filters cov base points interp table sp inp with_exp choices kind delta neg k grid ss ev0,
  table_model robust n covariates filters cov base points interp table = Ok (sp, inp) ->
  (forall p, In p table -> word (p_category p)) -> documented_choices table covariates with_exp choices ->
  small_experience n table with_exp -> (sp_nlags sp <= 1)%nat ->
  (filters = [] \/ closed_under_choices n (create_core_state_space sp) (choice_set_of sp (process sp (S k) neg))) ->
  shocks_of_kind table kind -> value_is table "delta" "delta" delta -> delta <> 0 ->
  collision_free (create_core_state_space sp) (choice_set_of sp (process sp (S k) neg)) grid ->
  create_state_space n (create_core_state_space sp) (choice_set_of sp (process sp (S k) neg)) grid = Ok ss ->
  (forall p, solved_exactly ss points p) -> ev_shape ss ev0 ->
  exists L ev, factor_of robust kind table choices L /\ solve_with_backward_induction ss inp ev0 = Ok ev /\
    forall s d ctx, In s (create_core_state_space sp) -> dense_combination grid d ctx ->
      forall v, value_at ss ev s d v <->
        v = value (table_problem table choices L cov base (choice_set_of sp (process sp (S k) neg)) ctx) delta (n - cs_period s) s.
Proof.
  intros robust n covariates filters cov base points interp table sp inp with_exp choices kind delta neg k grid ss ev0 TM WO DC SM LG CL SK VD DN CF CR EX SH.
  destruct (table_standard _ _ _ _ _ _ _ _ _ _ _ _ _ _ _ _ _ TM WO DC SM LG CL CF CR EX) as [ST [EN _]].
  destruct (st_problem _ _ _ _ _ _ _ _ _ _ _ _ _ TM WO DC _ SK) as [L [FL [ED PB]]].
  specialize (ED _ VD). destruct (solve_model _ _ _ _ _ _ _ ST ltac:(rewrite ED; exact DN) SH) as [ev [EV H]].
  exists L, ev. split; [exact FL|]. split; [exact EV|]. intros s d ctx Hs Dc v. rewrite (H s d ctx Hs Dc v), ED, EN.
  assert (V : forall m t, value (problem_of sp neg k inp ctx) delta m t =
    value (table_problem table choices L cov base (choice_set_of sp (process sp (S k) neg)) ctx) delta m t).
  { apply st_value; intros t; apply (PB (choice_set_of sp (process sp (S k) neg)) ctx); intros t'; unfold choice_set_of; rewrite map_length, seq_length; reflexivity. }
  rewrite V. tauto.
Qed.
