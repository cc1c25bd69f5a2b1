(** Coefficients of zero do not matter. *)
From Coq Require Import List Arith Bool String Reals ZArith Lia Lra.
From Verif Require Import Base Proof_Base Model_CoreStateSpace Spec_CoreStateSpace Model_StateSpace Spec_StateSpace Proof_StateSpace Model_Solve Spec_Solve
  Proof_Solve Proof_SolveProps Proof_Draws Model_Strings Model_Cache Model_Choices Spec_Choices Proof_Choices
  Model_Params Spec_Params Proof_Params Proof_Shocknames Model_Processing Spec_Processing Proof_Processing Proof_ProcessingShocks
  Model_ParseParameters Model_SolveTable Spec_SolveTable Proof_SolveTable Proof_UnknownParameters Spec_ZeroParameters.
Import ListNotations.
Local Open Scope R_scope.

Lemma zp_rsum_app : forall l r, rsum (l ++ r) = rsum l + rsum r.
Proof. intros l r. unfold rsum. induction l as [|x l IH]; [simpl; rewrite Rplus_0_l; reflexivity|]. simpl. rewrite IH. symmetry. apply Rplus_assoc. Qed.

Section Zero.
  Context (a b : list param) (p : param).
  Hypothesis (FC : further_coefficient (a ++ b) p) (ZE : snd p = 0).

  Lemma zp_row_sum : forall category x, row_sum (a ++ p :: b) category x = row_sum (a ++ b) category x.
  Proof.
    intros category x. unfold row_sum, rows_of. rewrite !filter_app. cbn [filter].
    destruct (String.eqb (p_category p) category); [|reflexivity].
    rewrite !map_app, !zp_rsum_app. f_equal. unfold rsum. simpl. rewrite ZE, Rmult_0_l, Rplus_0_l. reflexivity.
  Qed.

  Lemma zp_category : forall c d, (("nonpec_" ++ c)%string <> ("wage_" ++ d)%string).
  Proof. intros c d H. discriminate H. Qed.

  Lemma zp_earns : forall c, earns (a ++ p :: b) c = earns (a ++ b) c.
  Proof.
    intros c. unfold earns. destruct (String.eqb (p_category p) ("wage_" ++ c)) eqn:E; [|apply up_existsb; exact E].
    apply String.eqb_eq in E. destruct FC as [[d [N|[_ I]]] _]; [rewrite N in E; discriminate E|].
    assert (X : existsb (fun q => String.eqb (p_category q) ("wage_" ++ c)) (a ++ b) = true).
    { apply existsb_exists. apply in_map_iff in I. destruct I as [q [Q I]]. exists q. split; [exact I|]. apply String.eqb_eq. congruence. }
    rewrite X. apply existsb_exists. exists p. split; [apply in_or_app; right; left; reflexivity|]. apply String.eqb_eq. exact E.
  Qed.

  Lemma zp_reward : forall c x e, table_reward (a ++ p :: b) c x e = table_reward (a ++ b) c x e.
  Proof. intros c x e. unfold table_reward, table_wage, table_shock. rewrite zp_earns, !zp_row_sum. reflexivity. Qed.

  Lemma zp_other : forall k, (forall c, ("nonpec_" ++ c)%string <> k) -> (forall c, ("wage_" ++ c)%string <> k) -> p_category p <> k.
  Proof. intros k N W. destruct FC as [[c [->|[-> _]]] _]; auto. Qed.

  Lemma zp_shock_values : forall k, shock_values k (a ++ p :: b) = shock_values k (a ++ b).
  Proof.
    intros k. unfold shock_values. rewrite up_filter; [reflexivity|]. apply String.eqb_neq. apply zp_other; destruct k; intros c H; discriminate H.
  Qed.
  Lemma zp_kind : forall k, shocks_of_kind (a ++ p :: b) k -> shocks_of_kind (a ++ b) k.
  Proof.
    intros k [[q [I Q]] ALL]. split.
    - exists q. split; [|exact Q]. apply in_app_or in I. apply in_or_app. destruct I as [I|[I|I]]; auto. exfalso. subst q.
      revert Q. apply zp_other; intros c H; destruct k; discriminate H.
    - intros r k' J. apply ALL. apply in_app_or in J. apply in_or_app. cbn. tauto.
  Qed.
  Lemma zp_experience : forall n c, parse_experience n (a ++ p :: b) c = parse_experience n (a ++ b) c.
  Proof.
    intros n c. unfold parse_experience. rewrite up_group, up_value; [reflexivity| |].
    - apply zp_other; intros d H; discriminate H.
    - apply up_extract. apply up_longer. apply FC.
  Qed.
  Lemma zp_value : forall v, value_is (a ++ p :: b) "delta" "delta" v -> value_is (a ++ b) "delta" "delta" v.
  Proof.
    intros v [I U]. split.
    - apply in_app_or in I. apply in_or_app. destruct I as [I|[I|I]]; auto. exfalso.
      assert (X : p_category p <> "delta"%string) by (apply zp_other; intros d H; discriminate H). apply X. rewrite I. reflexivity.
    - intros w J. apply U. apply in_app_or in J. apply in_or_app. cbn. tauto.
  Qed.
  Lemma zp_in : forall q, In q (a ++ p :: b) <-> q = p \/ In q (a ++ b).
  Proof. intros q. rewrite !in_app_iff. cbn [In]. intuition congruence. Qed.
  Lemma zp_declares : forall c j, declares_level (a ++ p :: b) c j <-> declares_level (a ++ b) c j.
  Proof.
    intros c j. split; intros (q & d & I & H).
    - apply zp_in in I. destruct I as [->|I]; [|exists q, d; auto]. exfalso. apply (proj2 FC). exists ""%string, (c ++ "_" ++ d)%string. apply H.
    - exists q, d. split; [apply zp_in; auto|exact H].
  Qed.
  Lemma zp_level : forall c j, initial_level (a ++ p :: b) c j <-> initial_level (a ++ b) c j.
  Proof.
    intros c j. unfold initial_level. rewrite zp_declares. assert (D := zp_declares c).
    split; intros [H|[H N]]; auto; right; split; auto; intros i I; apply (N i), D, I.
  Qed.
  Lemma zp_row : forall c v, In ("maximum_exp"%string, c, v) (a ++ p :: b) <-> In ("maximum_exp"%string, c, v) (a ++ b).
  Proof.
    intros c v. rewrite zp_in. split; [|auto]. intros [E|I]; [|exact I]. exfalso.
    assert (X : p_category p <> "maximum_exp"%string) by (apply zp_other; intros d H; discriminate H). apply X. rewrite <- E. reflexivity.
  Qed.
  Lemma zp_small : forall n with_exp, small_experience n (a ++ b) with_exp -> small_experience n (a ++ p :: b) with_exp.
  Proof.
    intros n with_exp SM c I. destruct (SM c I) as [S1 S2]. split.
    - intros j J. apply S1, zp_level, J.
    - intros m [M1 M2]. apply S2. split.
      + intros v [V1 V2]. apply M1. split; [apply zp_row; exact V1|]. intros w W. apply V2, zp_row, W.
      + intros N. destruct M2 as [top [T1 [T2 T3]]]; [intros v V; apply (N v), zp_row, V|].
        exists top. split; [apply zp_level; exact T1|]. split; [|exact T3]. intros j J. apply T2, zp_level, J.
  Qed.
End Zero.

Section Models.
  Context (robust : nat -> (nat -> nat -> R) -> nat -> nat -> R) (n : nat) (covariates : list (string * string))
    (filters : list (core_state -> bool))
    (cov : option (list nat) -> core_state -> string -> R) (base : nat -> nat -> list (list R)) (points : nat)
    (interp : nat -> list (nat * list (list R)) -> result (list (nat * list R)))
    (a b : list param) (p : param) (sp sp' : core_spec) (inp inp' : inputs) (with_exp choices : list string).
  Hypothesis (FC : further_coefficient (a ++ b) p) (ZE : snd p = 0).
  Hypothesis (TM : table_model robust n covariates filters cov base points interp (a ++ b) = Ok (sp, inp)).
  Hypothesis (TM' : table_model robust n covariates filters cov base points interp (a ++ p :: b) = Ok (sp', inp')).
  Hypothesis (WO' : forall q, In q (a ++ p :: b) -> word (p_category q)).
  Hypothesis (DC : documented_choices (a ++ b) covariates with_exp choices).
  Hypothesis (DC' : documented_choices (a ++ p :: b) covariates with_exp choices).

  Lemma zp_words : forall q, In q (a ++ b) -> word (p_category q).
  Proof. intros q I. apply WO'. apply in_app_or in I. apply in_or_app. cbn. tauto. Qed.

  Lemma zp_lagged : forall m covs t mp, process_parameters m covs t = Ok mp -> List.length (mp_lagged mp) = number_of_lags covs.
  Proof.
    intros m covs t mp H. unfold process_parameters in H.
    destruct (parse_parameters m covs t) as [x| | | | |] eqn:E; try discriminate H. cbn [result_bind] in H.
    destruct (validate_shocks _ _) as [[]| | | | |]; try discriminate H. injection H as <-.
    unfold parse_parameters in E.
    destruct (parse_discounting t) as [x1| | | | |]; try discriminate E. cbn [result_bind] in E.
    destruct (parse_variables "exogenous_process" t) as [x2| | | | |]; try discriminate E. cbn [result_bind] in E.
    destruct (result_bind (parse_variables "observable" t) (merge_observables x2)) as [x3| | | | |]; try discriminate E. cbn [result_bind] in E.
    destruct (result_all (map _ (pc_choices_w_exp _))) as [x4| | | | |]; try discriminate E. cbn [result_bind] in E.
    destruct (shocks_kind _) as [x5| | | | |]; try discriminate E. cbn [result_bind] in E.
    destruct (parse_measurement_errors _ _ _) as [x6| | | | |]; try discriminate E. cbn [result_bind] in E.
    destruct (parse_types _) as [x7| | | | |]; try discriminate E. cbn [result_bind] in E.
    destruct (parse_lagged_choices _ _ _) as [x8| | | | |] eqn:L; try discriminate E. cbn [result_bind] in E. injection E as <-.
    cbn [mp_lagged]. unfold parse_lagged_choices in L. apply result_all_Forall2, Forall2_length in L. rewrite <- L, map_length, seq_length. reflexivity.
  Qed.

  Lemma zp_spec : sp' = sp /\ p_chol (in_params inp') = p_chol (in_params inp).
  Proof.
    unfold table_model in TM, TM'.
    destruct (process_parameters n covariates (a ++ b)) as [mp| | | | |] eqn:PP; try discriminate TM.
    destruct (process_parameters n covariates (a ++ p :: b)) as [mp'| | | | |] eqn:PP'; try discriminate TM'.
    cbn [result_bind] in TM, TM'. injection TM as <- <-. injection TM' as <- <-.
    destruct (st_inv _ _ _ _ PP) as (ex & kd & lg & H1 & H2 & H3 & H4 & H5 & H6 & H7 & H8 & H9).
    destruct (st_inv _ _ _ _ PP') as (ex' & kd' & lg' & H1' & H2' & H3' & H4' & H5' & H6' & H7' & H8' & H9').
    destruct (st_choices _ covariates (st_words _ zp_words)) as (D & _).
    destruct (st_choices _ covariates (st_words _ WO')) as (D' & _).
    destruct (st_documented _ _ _ _ DC _ _ D) as [EW EC]. destruct (st_documented _ _ _ _ DC' _ _ D') as [EW' EC'].
    assert (EX : mp_experience mp' = mp_experience mp).
    { rewrite H6, H6'. rewrite EW' in H1'. rewrite EW in H1.
      rewrite (up_all _ _ _ (parse_experience n (a ++ b)) with_exp (zp_experience a b p FC n)) in H1'. congruence. }
    assert (NC : List.length (pc_choices (mp_choices mp')) = List.length (pc_choices (mp_choices mp))).
    { rewrite H4, H4', EC, EC'. reflexivity. }
    assert (NL : List.length (mp_lagged mp') = List.length (mp_lagged mp)) by (rewrite (zp_lagged _ _ _ _ PP), (zp_lagged _ _ _ _ PP'); reflexivity).
    rewrite EX, NC, NL. split; [reflexivity|].
    cbn [in_params solution_params p_chol]. rewrite NC.
    assert (K : fst (mp_shocks mp') = fst (mp_shocks mp)).
    { rewrite H7, H7'. assert (Q : shocks_kind (map p_category (a ++ p :: b)) = shocks_kind (map p_category (a ++ b))).
      { unfold shocks_kind. cbn [filter]. rewrite !up_mem; [reflexivity| | |]; apply (zp_other a b p FC); intros c H; discriminate H. }
      rewrite Q in H2'. congruence. }
    rewrite K. unfold cholesky_of.
    assert (V : shock_matrix (fst (mp_shocks mp)) (List.length (pc_choices (mp_choices mp))) (a ++ p :: b) =
                shock_matrix (fst (mp_shocks mp)) (List.length (pc_choices (mp_choices mp))) (a ++ b)).
    { unfold shock_matrix. rewrite (zp_shock_values a b p FC). reflexivity. }
    rewrite V. reflexivity.
  Qed.
End Models.

Theorem zero_parameters : forall robust n covariates filters cov base points interp a p b sp inp sp' inp' with_exp choices kind delta neg k grid ss ev0,
  table_model robust n covariates filters cov base points interp (a ++ b) = Ok (sp, inp) ->
  table_model robust n covariates filters cov base points interp (a ++ p :: b) = Ok (sp', inp') ->
  further_coefficient (a ++ b) p -> snd p = 0 ->
  (forall q, In q (a ++ p :: b) -> word (p_category q)) ->
  documented_choices (a ++ b) covariates with_exp choices -> documented_choices (a ++ p :: b) covariates with_exp choices ->
  small_experience n (a ++ b) with_exp -> (sp_nlags sp <= 1)%nat ->
  (filters = [] \/ closed_under_choices n (create_core_state_space sp) (choice_set_of sp (process sp (S k) neg))) ->
  shocks_of_kind (a ++ p :: b) kind -> value_is (a ++ p :: b) "delta" "delta" delta -> delta <> 0 ->
  collision_free (create_core_state_space sp) (choice_set_of sp (process sp (S k) neg)) grid ->
  create_state_space n (create_core_state_space sp) (choice_set_of sp (process sp (S k) neg)) grid = Ok ss ->
  (forall q, solved_exactly ss points q) -> ev_shape ss ev0 ->
  sp' = sp /\
  exists ev ev', solve_with_backward_induction ss inp ev0 = Ok ev /\ solve_with_backward_induction ss inp' ev0 = Ok ev' /\
    forall s d ctx v, In s (create_core_state_space sp) -> dense_combination grid d ctx ->
      (value_at ss ev' s d v <-> value_at ss ev s d v).
Proof.
  intros robust n covariates filters cov base points interp a p b sp inp sp' inp' with_exp choices kind delta neg k grid ss ev0
    TM TM' FC ZE WO' DC DC' SM LG CL SK' VD' DN CF CR EX SH.
  assert (WO := zp_words a b p WO').
  destruct (zp_spec _ _ _ _ _ _ _ _ _ _ _ _ _ _ _ _ _ FC TM TM' WO' DC DC') as [-> CH]. split; [reflexivity|].
  assert (SK := zp_kind a b p FC _ SK'). assert (VD := zp_value a b p FC _ VD').
  assert (SM' : small_experience n (a ++ p :: b) with_exp).
  { apply (zp_small a b p FC). exact SM. }
  destruct (table_standard _ _ _ _ _ _ _ _ _ _ _ _ _ _ _ _ _ TM WO DC SM LG CL CF CR EX) as [ST [EN _]].
  destruct (table_standard _ _ _ _ _ _ _ _ _ _ _ _ _ _ _ _ _ TM' WO' DC' SM' LG CL CF CR EX) as [ST' _].
  destruct (st_parts _ _ _ _ _ _ _ _ _ _ _ _ _ TM WO DC _ SK) as (L & FL & DE & NC & SQ & EB & ML & PA).
  destruct (st_parts _ _ _ _ _ _ _ _ _ _ _ _ _ TM' WO' DC' _ SK') as (L' & FL' & DE' & NC' & SQ' & EB' & ML' & PA').
  specialize (DE _ VD). specialize (DE' _ VD').
  assert (M' : forall i j, (i < List.length choices)%nat -> (j < List.length choices)%nat -> mat (p_chol (in_params inp')) i j = L i j).
  { rewrite CH. exact ML. }
  destruct (solve_model _ _ _ _ _ _ _ ST ltac:(rewrite DE; exact DN) SH) as [ev [EV H]].
  destruct (solve_model _ _ _ _ _ _ _ ST' ltac:(rewrite DE'; exact DN) SH) as [ev' [EV' H']].
  exists ev, ev'. split; [exact EV|]. split; [exact EV'|]. intros s d ctx v Hs Dc.
  rewrite (H s d ctx Hs Dc v), (H' s d ctx Hs Dc v), DE, DE'.
  assert (LEN : forall c0 s0, List.length (choice_set_of sp (process sp (S k) neg) c0 s0) = sp_nchoices sp)
    by (intros; unfold choice_set_of; rewrite map_length, seq_length; reflexivity).
  assert (V : forall m t, value (problem_of sp neg k inp' ctx) delta m t = value (problem_of sp neg k inp ctx) delta m t).
  { apply st_value; intros t.
    - reflexivity.
    - unfold problem_of. rewrite (proj2 (st_problem_at cov base (a ++ p :: b) sp inp' choices L NC' SQ' EB' M' PA' _ ctx (LEN ctx) t)).
      rewrite (proj2 (st_problem_at cov base (a ++ b) sp inp choices L NC SQ EB ML PA _ ctx (LEN ctx) t)).
      cbn [pb_flows table_problem]. apply map_ext. intros draw. apply map_ext. intros c. apply (zp_reward a b p FC ZE). }
  rewrite V. tauto.
Qed.
