(** Proofs about changes of the units and of the level of rewards. *)
From Coq Require Import List Arith Bool Reals Lia Lra Permutation.
From Verif Require Import Base Proof_Base Model_CoreStateSpace Spec_CoreStateSpace Model_StateSpace
  Spec_StateSpace Proof_CoreStateSpace Proof_StateSpace Model_Solve Spec_Solve Proof_Solve Proof_Value
  Proof_Shocks Proof_SolveProps
  Model_Parallel Spec_Parallel Proof_Parallel Model_Simulate Spec_Simulate Proof_Simulate Proof_Panel
  Proof_PanelModel Proof_SimulateProps Spec_Paths Proof_Paths Spec_Units.
Import ListNotations.
Open Scope R_scope.

(** ** Lists *)
Lemma max0_scale : forall lam l, 0 <= lam -> max0 (map (Rmult lam) l) = lam * max0 l.
Proof.
  intros lam l H. induction l as [|x l IH]; simpl; [lra|]. rewrite IH.
  unfold Rmax. destruct (Rle_dec (lam * x) (lam * max0 l)), (Rle_dec x (max0 l)); try reflexivity; try nra.
Qed.

Lemma rsum_affine : forall a b l, rsum (map (fun x => a * x + b) l) = a * rsum l + b * INR (length l).
Proof.
  intros a b l. induction l as [|x l IH]; [simpl; lra|].
  change (length (x :: l)) with (S (length l)). rewrite S_INR. simpl. rewrite IH. lra.
Qed.

Lemma mean_affine : forall a b l, l <> [] -> mean (map (fun x => a * x + b) l) = a * mean l + b.
Proof.
  intros a b l H. unfold mean. rewrite rsum_affine, map_length.
  pose proof (INR_length_pos _ l H). field. lra.
Qed.

Lemma mean_scale : forall a l, mean (map (Rmult a) l) = a * mean l.
Proof.
  intros a l. destruct l as [|x l]; [cbn [map]; rewrite mean_nil; lra|].
  rewrite <- (Rplus_0_r (a * mean (x :: l))), <- mean_affine by discriminate.
  f_equal. apply map_ext. intros; lra.
Qed.

Lemma max0_shift : forall c l, 0 <= c -> (exists v, In v l /\ 0 <= v) ->
  max0 (map (fun x => x + c) l) = max0 l + c.
Proof.
  intros c l H [v [Hv H0]]. apply Rle_antisym.
  - apply max0_lub; [pose proof (max0_nonneg l); lra|]. intros x Hx. apply in_map_iff in Hx.
    destruct Hx as [y [<- Hy]]. pose proof (max0_ub _ _ Hy). lra.
  - assert (E : In (max0 l) l).
    { destruct (max0_attained l) as [E|E]; [|exact E].
      pose proof (max0_ub _ _ Hv). assert (v = 0) by lra. subst v. rewrite E. exact Hv. }
    apply max0_ub. apply in_map_iff. exists (max0 l). auto.
Qed.

(** ** Problems *)
Lemma value_scale : forall S (pb pb' : problem S) delta lam, 0 <= lam ->
  (forall s, pb_moves pb' s = pb_moves pb s) ->
  (forall s, pb_flows pb' s = map (map (Rmult lam)) (pb_flows pb s)) ->
  forall n s, value pb' delta n s = lam * value pb delta n s.
Proof.
  intros S pb pb' delta lam Hl HM HF. induction n as [|n IH]; intros s; [simpl; lra|].
  rewrite !value_S, HF, map_map, <- mean_scale, map_map. f_equal. apply map_ext. intros u.
  rewrite <- max0_scale by exact Hl. f_equal. unfold alternatives. rewrite HM.
  generalize (pb_moves pb s). induction u as [|x u IHu]; intros [|m ms]; simpl; auto.
  rewrite IH. f_equal; [lra|apply IHu].
Qed.

Lemma geometric_nonneg : forall delta n, 0 <= delta -> 0 <= geometric delta n.
Proof. intros delta n H. induction n; simpl; [lra|]. assert (0 <= delta * geometric delta n) by (apply Rmult_le_pos; assumption). lra. Qed.

Lemma alternatives_shift : forall (pb pb' : problem core_state) delta kappa m s u,
  pb_moves pb' s = pb_moves pb s ->
  (forall s', In s' (pb_moves pb s) -> m <> 0%nat -> value pb' delta m s' = value pb delta m s' + kappa * geometric delta m) ->
  alternatives pb' delta m s (map (fun x => x + kappa) u) =
  map (fun x => x + kappa * geometric delta (S m)) (alternatives pb delta m s u).
Proof.
  intros pb pb' delta kappa m s u HM HV. unfold alternatives. rewrite HM. clear HM. revert HV.
  generalize (pb_moves pb s). induction u as [|x u IHu]; intros [|s' ms] HV; simpl; auto.
  f_equal.
  - destruct m as [|m]; [simpl; lra|]. rewrite (HV s' (or_introl eq_refl)) by lia. simpl; lra.
  - apply IHu. intros s'' H. apply HV. right. exact H.
Qed.

Section Problem.
  Variables (core : list core_state) (N : nat) (pb pb' : problem core_state) (delta kappa : R).
  Hypothesis HD : 0 <= delta.
  Hypothesis HK : 0 <= kappa.
  Hypothesis HM : forall s, pb_moves pb' s = pb_moves pb s.
  Hypothesis HF : forall s, pb_flows pb' s = map (map (fun x => x + kappa)) (pb_flows pb s).
  Hypothesis HN : forall s, In s core -> pb_flows pb s <> [].
  Hypothesis HC : forall s s', In s core -> In s' (pb_moves pb s) -> (S (cs_period s) < N)%nat ->
    In s' core /\ cs_period s' = S (cs_period s).
  Hypothesis HP : some_nonnegative core N pb delta.

  Lemma value_shift : forall n s, In s core -> n = (N - cs_period s)%nat ->
    value pb' delta n s = value pb delta n s + kappa * geometric delta n.
  Proof.
    induction n as [|n IH]; intros s Hs Hn; [simpl; lra|].
    rewrite !value_S, HF, map_map.
    assert (E : forall u, In u (pb_flows pb s) -> max0 (alternatives pb' delta n s (map (fun x => x + kappa) u)) =
       1 * max0 (alternatives pb delta n s u) + kappa * geometric delta (S n)).
    { intros u Hu. rewrite (alternatives_shift pb pb'); [|apply HM|].
      - rewrite max0_shift; [lra| |].
        + apply Rmult_le_pos; [exact HK|]. apply geometric_nonneg; exact HD.
        + assert (Q : n = (N - S (cs_period s))%nat) by lia. rewrite Q. exact (HP s u Hs Hu).
      - intros s' H' Hne. destruct (HC s s' Hs H') as [I P]; [lia|]. apply IH; [exact I|lia]. }
    rewrite (map_ext_in _ _ _ E). rewrite <- (map_map (fun u => max0 (alternatives pb delta n s u)) (fun x => 1 * x + kappa * geometric delta (S n))).
    rewrite mean_affine; [lra|]. intros Q. apply map_eq_nil in Q. exact (HN s Hs Q).
  Qed.
End Problem.

(** ** Models *)
Definition draw_shock (p : params) (cs : list bool) (draw : list R) (c : nat) : R :=
  if (c <? p_nwages p)%nat then exp (clip (- max_log_float) max_log_float (correlated (p_chol p) cs draw c))
  else correlated (p_chol p) cs draw c.

Lemma map_combine_positions : forall (f : nat -> R -> R) (g : nat -> R) (ps : list nat) e,
  length e = length ps -> (forall j c, nth_error ps j = Some c -> nth_error e j = Some (g c)) ->
  map (fun p => f (fst p) (snd p)) (combine ps e) = map (fun c => f c (g c)) ps.
Proof.
  intros f g ps. induction ps as [|c ps IH]; intros [|x e] L H; simpl in *; try discriminate; auto.
  pose proof (H 0%nat c eq_refl) as Q. simpl in Q. injection Q as ->. f_equal. apply IH; [lia|].
  intros j c' Hj. exact (H (S j) c' Hj).
Qed.

Lemma flows_by_choice : forall n csf inp ctx s, square n (p_chol (in_params inp)) -> length (csf ctx s) = n ->
  pb_flows (model_problem csf inp ctx) s =
  map (fun draw => map (fun c => wage_of (in_params inp) (in_cov inp ctx s) c * draw_shock (in_params inp) (csf ctx s) draw c
                                 + nonpec_of (in_params inp) (in_cov inp ctx s) c) (positions (csf ctx s)))
      (in_base inp (count_true (csf ctx s)) (cs_period s)).
Proof.
  intros n csf inp ctx s SQ L. cbn [model_problem pb_flows]. cbv zeta. unfold transform_draws. rewrite map_map. apply map_ext.
  intros draw.
  apply (map_combine_positions (fun c x => wage_of (in_params inp) (in_cov inp ctx s) c * x + nonpec_of (in_params inp) (in_cov inp ctx s) c)).
  - rewrite length_transform_draw. unfold subset_cholesky. rewrite map_length, length_compress by (destruct SQ; lia).
    symmetry. apply length_positions.
  - intros j c Hj. destruct (transform_draw_spec n (in_params inp) (csf ctx s) [draw] 0 draw j c SQ L eq_refl Hj) as [e [E1 [_ E2]]].
    simpl in E1. injection E1 as <-. exact E2.
Qed.

Lemma correlated_scale : forall a L L' cs draw c, (forall j, mat L' c j = a * mat L c j) ->
  correlated L' cs draw c = a * correlated L cs draw c.
Proof.
  intros a L L' cs draw c H. unfold correlated. generalize (combine draw (positions cs)).
  induction l as [|[x j] l IH]; simpl; [lra|]. rewrite H, IH. lra.
Qed.

Lemma scaled_flow : forall lam inp inp' cs ctx s draw c, rewards_scaled lam inp inp' ->
  wage_of (in_params inp') (in_cov inp' ctx s) c * draw_shock (in_params inp') cs draw c
    + nonpec_of (in_params inp') (in_cov inp' ctx s) c =
  lam * (wage_of (in_params inp) (in_cov inp ctx s) c * draw_shock (in_params inp) cs draw c
    + nonpec_of (in_params inp) (in_cov inp ctx s) c).
Proof.
  intros lam inp inp' cs ctx s draw c [_ [_ [H3 [H4 [H5 H6]]]]]. rewrite H4, H5. unfold draw_shock. rewrite H3.
  rewrite (correlated_scale _ _ _ cs draw c (H6 c)). destruct (c <? p_nwages (in_params inp))%nat; [|lra].
  rewrite !Rmult_1_l. lra.
Qed.

Lemma scaled_problem : forall n csf lam inp inp' ctx, square n (p_chol (in_params inp)) -> square n (p_chol (in_params inp')) ->
  (forall ctx s, length (csf ctx s) = n) -> rewards_scaled lam inp inp' ->
  forall s, pb_flows (model_problem csf inp' ctx) s = map (map (Rmult lam)) (pb_flows (model_problem csf inp ctx) s).
Proof.
  intros n csf lam inp inp' ctx SQ SQ' L RS s. rewrite !(flows_by_choice n) by auto.
  rewrite map_map. rewrite (proj1 RS). apply map_ext. intros draw. rewrite map_map. apply map_ext.
  intros c. apply scaled_flow. exact RS.
Qed.

Lemma shifted_problem : forall n csf kappa inp inp' ctx, square n (p_chol (in_params inp)) -> square n (p_chol (in_params inp')) ->
  (forall ctx s, length (csf ctx s) = n) -> rewards_shifted kappa inp inp' ->
  forall s, pb_flows (model_problem csf inp' ctx) s = map (map (fun x => x + kappa)) (pb_flows (model_problem csf inp ctx) s).
Proof.
  intros n csf kappa inp inp' ctx SQ SQ' L [H1 [H2 [H3 [H4 [H5 H6]]]]] s. rewrite !(flows_by_choice n) by auto.
  rewrite map_map, H1. apply map_ext. intros draw. rewrite map_map. apply map_ext.
  intros c. unfold draw_shock. rewrite H3, H4, H5, H6. lra.
Qed.

Lemma choice_set_length : forall sp f ctx s, length (choice_set_of sp f ctx s) = sp_nchoices sp.
Proof. intros. unfold choice_set_of. rewrite map_length, seq_length. reflexivity. Qed.

(** Stored values. *)
Lemma stored_scaled : forall sp neg k grid ss inp inp' ev0 ev0' ev ev' s d ctx v v' lam,
  standard_model sp neg k grid ss inp -> standard_model sp neg k grid ss inp' ->
  0 <= lam -> rewards_scaled lam inp inp' ->
  ev_shape ss ev0 -> ev_shape ss ev0' ->
  solve_with_backward_induction ss inp ev0 = Ok ev ->
  solve_with_backward_induction ss inp' ev0' = Ok ev' ->
  In s (create_core_state_space sp) -> dense_combination grid d ctx ->
  value_at ss ev s d v -> value_at ss ev' s d v' -> v' = lam * v.
Proof.
  intros sp neg k grid ss inp inp' ev0 ev0' ev ev' s d ctx v v' lam SM SM' Hl RS SH SH' E E' Hs Dc Hv Hv'.
  assert (ED : p_delta (in_params inp') = p_delta (in_params inp)) by apply RS.
  destruct (Req_EM_T (p_delta (in_params inp)) 0) as [Z|N].
  - rewrite (myopic_value _ _ _ _ _ _ _ _ _ _ _ SM Z SH E Hv).
    rewrite (myopic_value _ _ _ _ _ _ _ _ _ _ _ SM' (eq_trans ED Z) SH' E' Hv'). lra.
  - rewrite (solved_value _ _ _ _ _ _ _ _ _ _ _ _ SM N SH E Hs Dc Hv).
    rewrite (solved_value _ _ _ _ _ _ _ _ _ _ _ _ SM' ltac:(lra) SH' E' Hs Dc Hv'). rewrite ED.
    apply value_scale; [exact Hl|reflexivity|].
    apply (scaled_problem (sp_nchoices sp)); [apply SM|apply SM'|intros; apply choice_set_length|exact RS].
Qed.

Lemma model_value_shift : forall sp neg k grid ss inp inp' ctx kappa s,
  standard_model sp neg k grid ss inp -> standard_model sp neg k grid ss inp' ->
  0 <= kappa -> 0 <= p_delta (in_params inp) -> rewards_shifted kappa inp inp' ->
  (forall n p, in_base inp n p <> []) ->
  some_nonnegative (create_core_state_space sp) (sp_nperiods sp) (problem_of sp neg k inp ctx) (p_delta (in_params inp)) ->
  In s (create_core_state_space sp) ->
  value (problem_of sp neg k inp' ctx) (p_delta (in_params inp)) (sp_nperiods sp - cs_period s) s =
  value (problem_of sp neg k inp ctx) (p_delta (in_params inp)) (sp_nperiods sp - cs_period s) s +
  kappa * geometric (p_delta (in_params inp)) (sp_nperiods sp - cs_period s).
Proof.
  intros sp neg k grid ss inp inp' ctx kappa s SM SM' HK HD RS HB SN Hs.
  apply (value_shift (create_core_state_space sp) (sp_nperiods sp)); auto.
  - apply (shifted_problem (sp_nchoices sp)); [apply SM|apply SM'|intros; apply choice_set_length|exact RS].
  - intros x Hx Q. unfold problem_of in Q. rewrite (flows_by_choice (sp_nchoices sp)) in Q; [|apply SM|apply choice_set_length].
    apply map_eq_nil in Q. exact (HB _ _ Q).
  - intros x x' Hx Hx' Hp. simpl in Hx'. apply in_map_iff in Hx'. destruct Hx' as [c [<- Hc]].
    split; [|reflexivity]. eapply (sm_closed sp neg k); [exact SM|exact Hx|exact Hp|]. apply In_positions. exact Hc.
Qed.

(** ** Simulation *)
Lemma argmax_from_affine : forall a b l best m i, 0 < a ->
  argmax_from best (a * m + b) i (map (fun x => a * x + b) l) = argmax_from best m i l.
Proof.
  intros a b l. induction l as [|x l IH]; intros best m i H; simpl; [reflexivity|].
  destruct (Rlt_dec (a * m + b) (a * x + b)), (Rlt_dec m x); try (apply IH; exact H); nra.
Qed.

Lemma argmax_affine : forall a b l, 0 < a -> argmax (map (fun x => a * x + b) l) = argmax l.
Proof. intros a b [|x l] H; simpl; [reflexivity|]. f_equal. apply argmax_from_affine. exact H. Qed.

Lemma record_choice_affine : forall a b choices cs l, 0 < a ->
  record_choice choices cs (map (fun x => a * x + b) l) = record_choice choices cs l.
Proof. intros. unfold record_choice. rewrite argmax_affine by assumption. reflexivity. Qed.

Section Rows.
  Variables (sp : core_spec) (neg : neg_set) (kp : nat) (grid : list (list nat)) (ss : state_space)
    (inp inp' : inputs) (ev0 ev0' ev ev' : list (list R)) (si si' : sim_spec) (a lw : R) (b : nat -> R).
  Hypothesis SM : standard_model sp neg kp grid ss inp.
  Hypothesis SM' : standard_model sp neg kp grid ss inp'.
  Hypothesis SH : ev_shape ss ev0.
  Hypothesis SH' : ev_shape ss ev0'.
  Hypothesis E : solve_with_backward_induction ss inp ev0 = Ok ev.
  Hypothesis E' : solve_with_backward_induction ss inp' ev0' = Ok ev'.
  Hypothesis SB : same_but_params si si'.
  Hypothesis HA : 0 < a.
  Hypothesis HNW : p_nwages (in_params inp') = p_nwages (in_params inp).
  Hypothesis HV : forall t x base c, in_model (create_core_state_space sp) grid t x ->
    available (choices_of sp neg kp grid x) c ->
    decision_value sp neg kp grid inp' (si_beta si) t x base c =
    a * decision_value sp neg kp grid inp (si_beta si) t x base c + b t.
  Hypothesis HW : forall ctx s cs base c, (c < p_nwages (in_params inp))%nat ->
    wage_of (in_params inp') (in_cov inp' ctx s) c * shock_of (in_params inp') cs base c =
    lw * (wage_of (in_params inp) (in_cov inp ctx s) c * shock_of (in_params inp) cs base c).

  Lemma rows_affine : forall t s m o o',
    right_row sp neg kp grid ss inp ev si t s m o ->
    right_row sp neg kp grid ss inp' ev' si' t s m o' ->
    o_ind o' = o_ind o ->
    o_choice o' = o_choice o /\ o_values o' = map (fun x => a * x + b t) (o_values o) /\
    o_wage o' = option_map (Rmult lw) (o_wage o).
  Proof.
    intros t s m o o' RR RR' EI. destruct SB as [B1 [B2 B3]].
    pose proof (right_row_values _ _ _ _ _ _ _ _ _ _ _ _ _ SM SH E RR) as V.
    pose proof (right_row_values _ _ _ _ _ _ _ _ _ _ _ _ _ SM' SH' E' RR') as V'.
    destruct RR as [R1 R2 R3 R4 _ R6 [j [c [R7 [R8 R9]]]]].
    destruct RR' as [_ _ _ R4' _ R6' [j' [c' [R7' [R8' R9']]]]].
    rewrite EI in *. rewrite B2 in V'. rewrite B3 in R9'.
    set (cs := choices_of sp neg kp grid (o_ind o)) in *.
    assert (VV : o_values o' = map (fun x => a * x + b t) (o_values o)).
    { apply nth_error_ext_eq. intros i. rewrite nth_error_map.
      destruct (nth_error (positions cs) i) as [d|] eqn:Hd.
      - rewrite (V i d Hd), (V' i d Hd). simpl. f_equal. apply HV; [exact R1|]. unfold available.
        apply In_positions. eapply nth_error_In. exact Hd.
      - apply nth_error_None in Hd. rewrite length_positions in Hd.
        rewrite (proj2 (nth_error_None (o_values o') i)) by lia.
        rewrite (proj2 (nth_error_None (o_values o) i)) by lia. reflexivity. }
    split; [|split; [exact VV|]].
    - rewrite VV, record_choice_affine in R6' by exact HA.
      rewrite (sm_choices _ _ _ _ _ _ SM'), <- (sm_choices _ _ _ _ _ _ SM) in R6'. congruence.
    - assert (FM : first_max (o_values o') j).
      { destruct R7 as [v [F1 [F2 F3]]]. rewrite VV. exists (a * v + b t).
        split; [rewrite nth_error_map, F1; reflexivity|]. split.
        - intros i w Hw. rewrite nth_error_map in Hw. destruct (nth_error (o_values o) i) as [y|] eqn:Y; [|discriminate].
          injection Hw as <-. pose proof (F2 _ _ Y). nra.
        - intros i w L Hw. rewrite nth_error_map in Hw. destruct (nth_error (o_values o) i) as [y|] eqn:Y; [|discriminate].
          injection Hw as <-. pose proof (F3 _ _ L Y). nra. }
      pose proof (first_max_unique _ _ _ FM R7') as <-.
      assert (c' = c) by congruence. subst c'. rewrite R9, R9', HNW.
      destruct (Nat.ltb_spec c (p_nwages (in_params inp))) as [L|L]; [|reflexivity].
      simpl. f_equal. rewrite (HW _ _ _ _ _ L). ring.
  Qed.

  Lemma panels_affine : forall order order' next_key next_key' n ids base bw df panel panel',
    simulation_setup sp neg kp grid ss inp ev si order n ids base bw df ->
    simulation_setup sp neg kp grid ss inp' ev' si' order' n ids base bw df ->
    simulate_n_step (environment_of ss inp ev) si order next_key 0 n base bw df = Ok panel ->
    simulate_n_step (environment_of ss inp' ev') si' order' next_key' 0 n base bw df = Ok panel' ->
    map fst panel' = map fst panel /\
    forall id t o o', In ((id, t), o) panel -> In ((id, t), o') panel' ->
      o_ind o' = o_ind o /\ o_choice o' = o_choice o /\
      o_values o' = map (fun x => a * x + b t) (o_values o) /\
      o_wage o' = option_map (Rmult lw) (o_wage o).
  Proof.
    intros order order' next_key next_key' n ids base bw df panel panel' SU SU' P P'.
    destruct (panel_model sp neg kp grid ss inp ev SM (su_ev _ _ _ _ _ _ _ _ _ _ _ _ _ _ SU)
                si order next_key n ids base bw df SU) as [pn [F1 [F2 [F3 [F4 F5]]]]].
    rewrite P in F1. injection F1 as <-.
    destruct (panel_model sp neg kp grid ss inp' ev' SM' (su_ev _ _ _ _ _ _ _ _ _ _ _ _ _ _ SU')
                si' order' next_key' n ids base bw df SU') as [pn [G1 [G2 [G3 [G4 G5]]]]].
    rewrite P' in G1. injection G1 as <-. split; [congruence|].
    assert (ND : NoDup ids) by (apply increasing_NoDup; eapply su_increasing; exact SU).
    assert (ROW : forall id t o o', In ((id, t), o) panel -> In ((id, t), o') panel' -> o_ind o' = o_ind o ->
       o_choice o' = o_choice o /\ o_values o' = map (fun x => a * x + b t) (o_values o) /\
       o_wage o' = option_map (Rmult lw) (o_wage o)).
    { intros id t o o' Ho Ho' EI. destruct (F5 _ _ _ Ho) as [q [s [m [Q1 [Q2 [Q3 RR]]]]]].
      destruct (G5 _ _ _ Ho') as [q' [s' [m' [Q1' [Q2' [Q3' RR']]]]]].
      assert (q' = q) by (eapply NoDup_nth_error; [exact ND|eapply nth_error_lt; eauto|congruence]). subst q'.
      assert (s' = s) by congruence. assert (m' = m) by congruence. subst s' m'.
      eapply rows_affine; eauto. }
    intros id t. induction t as [|t IH]; intros o o' Ho Ho'.
    - assert (EI : o_ind o' = o_ind o).
      { assert (N' : NoDup (map fst df)).
        { rewrite (su_index _ _ _ _ _ _ _ _ _ _ _ _ _ _ SU). apply FinFun.Injective_map_NoDup; [|exact ND]. intros x y Q. congruence. }
        exact (NoDup_fst_functional _ _ _ _ _ _ N' (G3 _ _ Ho') (F3 _ _ Ho)). }
      split; [exact EI|]. eapply ROW; eauto.
    - assert (X : In (id, S t) (panel_index ids n)) by (rewrite <- F2; exact (in_map fst _ _ Ho)).
      apply In_panel_index in X.
      assert (Y : In (id, t) (panel_index ids n)) by (apply In_panel_index; split; [tauto|lia]).
      assert (Q : exists q, In ((id, t), q) panel).
      { rewrite <- F2 in Y. apply in_map_iff in Y. destruct Y as [[i q] [W Hq]]. simpl in W. subst i. eauto. }
      assert (Q' : exists q, In ((id, t), q) panel').
      { rewrite <- G2 in Y. apply in_map_iff in Y. destruct Y as [[i q] [W Hq]]. simpl in W. subst i. eauto. }
      destruct Q as [q Hq]. destruct Q' as [q' Hq']. destruct (IH q q' Hq Hq') as [I1 [I2 _]].
      assert (EI : o_ind o' = o_ind o) by (rewrite (F4 _ _ _ _ Hq Ho), (G4 _ _ _ _ Hq' Ho'), I1, I2; reflexivity).
      split; [exact EI|]. eapply ROW; eauto.
  Qed.
End Rows.

Lemma shock_of_draw : forall p cs base c, shock_of p cs base c = draw_shock p cs (map (fun i => nth i base 0) (positions cs)) c.
Proof. reflexivity. Qed.

Lemma simulation_scaled : forall sp neg k grid ss inp inp' ev0 ev0' ev ev' si si' lam
    order order' next_key next_key' n ids base bw df panel panel',
  0 < lam -> rewards_scaled lam inp inp' -> same_but_params si si' ->
  ev_shape ss ev0 -> ev_shape ss ev0' ->
  solve_with_backward_induction ss inp ev0 = Ok ev -> solve_with_backward_induction ss inp' ev0' = Ok ev' ->
  simulation_setup sp neg k grid ss inp ev si order n ids base bw df ->
  simulation_setup sp neg k grid ss inp' ev' si' order' n ids base bw df ->
  simulate_n_step (environment_of ss inp ev) si order next_key 0 n base bw df = Ok panel ->
  simulate_n_step (environment_of ss inp' ev') si' order' next_key' 0 n base bw df = Ok panel' ->
  map fst panel' = map fst panel /\
  forall id t o o', In ((id, t), o) panel -> In ((id, t), o') panel' ->
    o_ind o' = o_ind o /\ o_choice o' = o_choice o /\
    o_values o' = map (Rmult lam) (o_values o) /\ o_wage o' = option_map (Rmult lam) (o_wage o).
Proof.
  intros sp neg k grid ss inp inp' ev0 ev0' ev ev' si si' lam order order' next_key next_key' n ids base bw df panel panel'
    Hl RS SB SH SH' E E' SU SU' P P'.
  assert (SM := su_model _ _ _ _ _ _ _ _ _ _ _ _ _ _ SU). assert (SM' := su_model _ _ _ _ _ _ _ _ _ _ _ _ _ _ SU').
  destruct (panels_affine sp neg k grid ss inp inp' ev0 ev0' ev ev' si si' lam lam (fun _ => 0) SM SM' SH SH' E E' SB Hl)
    with (order := order) (order' := order') (next_key := next_key) (next_key' := next_key') (n := n) (ids := ids)
         (base := base) (bw := bw) (df := df) (panel := panel) (panel' := panel') as [I H]; auto.
  - apply RS.
  - intros t x ba c IM Hc. unfold decision_value, flow_of. rewrite !shock_of_draw.
    rewrite (scaled_flow lam inp inp') by exact RS.
    assert (ED : p_delta (in_params inp') = p_delta (in_params inp)) by apply RS. rewrite ED.
    rewrite (value_scale _ (problem_of sp neg k inp (context grid x)) (problem_of sp neg k inp' (context grid x)) _ lam);
      [ring|lra|reflexivity|].
    apply (scaled_problem (sp_nchoices sp)); [apply SM|apply SM'|intros; apply choice_set_length|exact RS].
  - intros ctx s cs ba c L. rewrite !shock_of_draw. destruct RS as [_ [_ [H3 [H4 [_ H6]]]]].
    rewrite H4. unfold draw_shock. rewrite H3. rewrite (correlated_scale _ _ _ cs _ c (H6 c)).
    apply Nat.ltb_lt in L. rewrite L, Rmult_1_l. ring.
  - split; [exact I|]. intros id t o o' Ho Ho'. destruct (H id t o o' Ho Ho') as [H1 [H2 [H3 H4]]].
    split; [exact H1|]. split; [exact H2|]. split; [|exact H4]. rewrite H3. apply map_ext. intros; lra.
Qed.

Lemma simulation_shifted : forall sp neg k grid ss inp inp' ev0 ev0' ev ev' si si' kappa
    order order' next_key next_key' n ids base bw df panel panel',
  0 <= kappa -> 0 <= p_delta (in_params inp) -> rewards_shifted kappa inp inp' -> same_but_params si si' ->
  (forall n p, in_base inp n p <> []) ->
  (forall ctx, some_nonnegative (create_core_state_space sp) (sp_nperiods sp) (problem_of sp neg k inp ctx) (p_delta (in_params inp))) ->
  ev_shape ss ev0 -> ev_shape ss ev0' ->
  solve_with_backward_induction ss inp ev0 = Ok ev -> solve_with_backward_induction ss inp' ev0' = Ok ev' ->
  simulation_setup sp neg k grid ss inp ev si order n ids base bw df ->
  simulation_setup sp neg k grid ss inp' ev' si' order' n ids base bw df ->
  simulate_n_step (environment_of ss inp ev) si order next_key 0 n base bw df = Ok panel ->
  simulate_n_step (environment_of ss inp' ev') si' order' next_key' 0 n base bw df = Ok panel' ->
  map fst panel' = map fst panel /\
  forall id t o o', In ((id, t), o) panel -> In ((id, t), o') panel' ->
    o_ind o' = o_ind o /\ o_choice o' = o_choice o /\ o_wage o' = o_wage o.
Proof.
  intros sp neg k grid ss inp inp' ev0 ev0' ev ev' si si' kappa order order' next_key next_key' n ids base bw df panel panel'
    HK HD RS SB HB SN SH SH' E E' SU SU' P P'.
  assert (SM := su_model _ _ _ _ _ _ _ _ _ _ _ _ _ _ SU). assert (SM' := su_model _ _ _ _ _ _ _ _ _ _ _ _ _ _ SU').
  destruct (panels_affine sp neg k grid ss inp inp' ev0 ev0' ev ev' si si' 1 1
      (fun t => kappa + si_beta si * p_delta (in_params inp) * (kappa * geometric (p_delta (in_params inp)) (sp_nperiods sp - S t)))
      SM SM' SH SH' E E' SB Rlt_0_1)
    with (order := order) (order' := order') (next_key := next_key) (next_key' := next_key') (n := n) (ids := ids)
         (base := base) (bw := bw) (df := df) (panel := panel) (panel' := panel') as [I H]; auto.
  - apply RS.
  - intros t x ba c IM Hc. unfold decision_value, flow_of.
    assert (V : value (problem_of sp neg k inp' (context grid x)) (p_delta (in_params inp)) (sp_nperiods sp - S t) (law_of_motion c (i_core x)) =
                value (problem_of sp neg k inp (context grid x)) (p_delta (in_params inp)) (sp_nperiods sp - S t) (law_of_motion c (i_core x)) +
                kappa * geometric (p_delta (in_params inp)) (sp_nperiods sp - S t)).
    { destruct IM as [I1 [I2 _]]. destruct (le_lt_dec (sp_nperiods sp) (S t)) as [L|L].
      - replace (sp_nperiods sp - S t)%nat with 0%nat by lia. simpl. lra.
      - assert (In (law_of_motion c (i_core x)) (create_core_state_space sp)).
        { eapply (sm_closed sp neg k); [exact SM|exact I1|lia|]. exact Hc. }
        assert (EP : cs_period (law_of_motion c (i_core x)) = S t) by (simpl; congruence).
        rewrite <- EP. apply (model_value_shift sp neg k grid ss); auto. }
    destruct RS as [_ [ED [H3 [H4 [H5 H6]]]]]. rewrite ED, V, H5, H6. unfold shock_of. rewrite H3, H4. ring.
  - intros ctx s cs ba c L. destruct RS as [_ [_ [H3 [H4 [H5 _]]]]]. rewrite H5. unfold shock_of. rewrite H3, H4. ring.
  - split; [exact I|]. intros id t o o' Ho Ho'. destruct (H id t o o' Ho Ho') as [H1 [H2 [_ H4]]].
    split; [exact H1|]. split; [exact H2|]. rewrite H4. destruct (o_wage o); simpl; [f_equal; ring|reflexivity].
Qed.

Lemma stored_shifted : forall sp neg k grid ss inp inp' ev0 ev0' ev ev' s d ctx v v' kappa,
  standard_model sp neg k grid ss inp -> standard_model sp neg k grid ss inp' ->
  0 <= kappa -> 0 < p_delta (in_params inp) -> rewards_shifted kappa inp inp' ->
  (forall n p, in_base inp n p <> []) ->
  some_nonnegative (create_core_state_space sp) (sp_nperiods sp) (problem_of sp neg k inp ctx) (p_delta (in_params inp)) ->
  ev_shape ss ev0 -> ev_shape ss ev0' ->
  solve_with_backward_induction ss inp ev0 = Ok ev ->
  solve_with_backward_induction ss inp' ev0' = Ok ev' ->
  In s (create_core_state_space sp) -> dense_combination grid d ctx ->
  value_at ss ev s d v -> value_at ss ev' s d v' ->
  v' = v + kappa * geometric (p_delta (in_params inp)) (sp_nperiods sp - cs_period s).
Proof.
  intros sp neg k grid ss inp inp' ev0 ev0' ev ev' s d ctx v v' kappa SM SM' HK HD RS HB SN SH SH' E E' Hs Dc Hv Hv'.
  assert (ED : p_delta (in_params inp') = p_delta (in_params inp)) by apply RS.
  rewrite (solved_value _ _ _ _ _ _ _ _ _ _ _ _ SM ltac:(lra) SH E Hs Dc Hv).
  rewrite (solved_value _ _ _ _ _ _ _ _ _ _ _ _ SM' ltac:(lra) SH' E' Hs Dc Hv'). rewrite ED.
  apply (model_value_shift sp neg k grid ss); auto. lra.
Qed.

(** ** Parameters *)
Lemma linear_index_const : forall lam const x b, x const = 1 -> count_occ Nat.eq_dec (map fst b) const = 1%nat ->
  linear_index x (map (fun p => if Nat.eqb (fst p) const then (fst p, snd p + ln lam) else p) b) = linear_index x b + ln lam.
Proof.
  intros lam const x b Hx. unfold linear_index.
  assert (Z : forall b : list (nat * R), count_occ Nat.eq_dec (map fst b) const = 0%nat ->
    rsum (map (fun p => x (fst p) * snd p) (map (fun p => if Nat.eqb (fst p) const then (fst p, snd p + ln lam) else p) b)) =
    rsum (map (fun p => x (fst p) * snd p) b)).
  { induction b0 as [|[i v] b0 IH]; intros H; [reflexivity|]. cbn [map fst snd] in *.
    destruct (Nat.eq_dec i const) as [->|Ne]; [rewrite count_occ_cons_eq in H by reflexivity; discriminate|].
    rewrite count_occ_cons_neq in H by exact Ne. apply Nat.eqb_neq in Ne. rewrite Ne. simpl. rewrite IH by exact H. reflexivity. }
  induction b as [|[i v] b IH]; intros H; [discriminate|]. cbn [map fst snd] in *.
  destruct (Nat.eq_dec i const) as [->|Ne].
  - rewrite count_occ_cons_eq in H by reflexivity. injection H as H. rewrite Nat.eqb_refl. cbn [rsum fold_right fst snd].
    fold (rsum (map (fun p => x (fst p) * snd p) (map (fun p => if Nat.eqb (fst p) const then (fst p, snd p + ln lam) else p) b))).
    fold (rsum (map (fun p => x (fst p) * snd p) b)). rewrite (Z b H), Hx. lra.
  - rewrite count_occ_cons_neq in H by exact Ne. apply Nat.eqb_neq in Ne. rewrite Ne. cbn [rsum fold_right fst snd].
    fold (rsum (map (fun p => x (fst p) * snd p) (map (fun p => if Nat.eqb (fst p) const then (fst p, snd p + ln lam) else p) b))).
    fold (rsum (map (fun p => x (fst p) * snd p) b)). rewrite (IH H). lra.
Qed.

Lemma linear_index_scale : forall lam x b, linear_index x (map (fun p => (fst p, lam * snd p)) b) = lam * linear_index x b.
Proof.
  intros lam x b. unfold linear_index. induction b as [|[i v] b IH]; simpl; [lra|]. rewrite IH. lra.
Qed.

Lemma mat_enumerate : forall (f : nat -> list R -> list R) L c j, f c [] = [] ->
  mat (map (fun r => f (fst r) (snd r)) (enumerate L)) c j = nth j (f c (nth c L [])) 0.
Proof.
  intros f L c j H. unfold mat. f_equal. destruct (nth_error L c) as [row|] eqn:E.
  - rewrite (nth_error_nth _ _ [] E). apply nth_error_nth. rewrite nth_error_map, nth_error_enumerate, E. reflexivity.
  - rewrite (nth_overflow L) by (apply nth_error_None; exact E).
    rewrite nth_overflow; [symmetry; exact H|]. apply nth_error_None.
    rewrite nth_error_map, nth_error_enumerate, E. reflexivity.
Qed.

Lemma change_units_scaled : forall lam const inp inp',
  0 < lam -> has_constant const (in_params inp) -> wages_first (in_params inp) ->
  (forall ctx s, in_cov inp ctx s const = 1) ->
  in_params inp' = change_units lam const (in_params inp) -> in_base inp' = in_base inp -> in_cov inp' = in_cov inp ->
  rewards_scaled lam inp inp'.
Proof.
  intros lam const inp inp' Hl HC WF H1 EP EB EC. unfold rewards_scaled. rewrite EP, EB, EC.
  split; [reflexivity|]. split; [reflexivity|]. split; [reflexivity|]. split; [|split].
  - intros ctx s c. unfold wage_of. simpl. specialize (WF c). specialize (HC c).
    destruct (p_wage (in_params inp) c) as [b|]; simpl.
    + assert (L : (c < p_nwages (in_params inp))%nat) by (apply WF; discriminate). apply Nat.ltb_lt in L. rewrite L.
      rewrite linear_index_const; [|apply H1|apply HC; reflexivity]. rewrite exp_plus, exp_ln by exact Hl. ring.
    + destruct (Nat.ltb_spec c (p_nwages (in_params inp))) as [L|L]; [|lra]. apply WF in L. congruence.
  - intros ctx s c. unfold nonpec_of. simpl. destruct (p_nonpec (in_params inp) c) as [b|]; simpl; [|lra].
    apply linear_index_scale.
  - intros c j. simpl.
    rewrite (mat_enumerate (fun i row => if Nat.ltb i (p_nwages (in_params inp)) then row else map (Rmult lam) row))
      by (destruct (c <? p_nwages (in_params inp))%nat; reflexivity).
    unfold mat. destruct (c <? p_nwages (in_params inp))%nat; [lra|].
    rewrite <- (map_nth (Rmult lam)). rewrite Rmult_0_r. reflexivity.
Qed.

(** ** Choice probabilities *)
From Verif Require Import Model_ConditionalDraws Model_Likelihood Spec_Likelihood Proof_Likelihood.

Lemma probability_scaled : forall lam wages wages' nonpec nonpec' cont cont' draws draws' delta c tau,
  0 < lam -> values_scaled lam wages wages' nonpec nonpec' cont cont' draws draws' ->
  simulate_log_probability wages' nonpec' cont' draws' delta c (lam * tau) =
  simulate_log_probability wages nonpec cont draws delta c tau.
Proof.
  intros lam wages wages' nonpec nonpec' cont cont' draws draws' delta c tau Hl [_ [_ [_ [HN [HC HD]]]]].
  unfold simulate_log_probability.
  destruct (Req_EM_T (lam * tau) 0) as [Z|Z], (Req_EM_T tau 0) as [Y|Y]; [reflexivity|nra|exfalso; apply Z; nra|].
  assert (L : length draws' = length draws) by (symmetry; clear - HD; induction HD; simpl; congruence).
  rewrite L. f_equal. f_equal. clear L. induction HD as [|e e' draws draws' [Le He] _ IH]; [reflexivity|].
  cbn [map]. f_equal; [|exact IH]. unfold log_probability_of_draw.
  assert (V : map (fun j => fst (aggregate_keane_wolpin_utility (nth j wages' 0) (nth j nonpec' 0) (nth j cont' 0) (nth j e' 0) delta) / (lam * tau)) (seq 0 (length e')) =
              map (fun j => fst (aggregate_keane_wolpin_utility (nth j wages 0) (nth j nonpec 0) (nth j cont 0) (nth j e 0) delta) / tau) (seq 0 (length e))).
  { rewrite Le. apply map_ext. intros j. unfold aggregate_keane_wolpin_utility. cbn [fst].
    rewrite HN, HC, He. field. split; [exact Y|lra]. }
  rewrite V. reflexivity.
Qed.

Lemma logit_shift : forall b z c, (c < length z)%nat -> logit (map (fun x => x + b) z) c = logit z c.
Proof.
  intros b z c Hc. unfold logit.
  rewrite (nth_indep _ 0 (0 + b)) by (rewrite map_length; exact Hc). rewrite (map_nth (fun x => x + b)).
  assert (E : rsum (map exp (map (fun x => x + b) z)) = exp b * rsum (map exp z)).
  { clear. induction z as [|x z IH]; simpl; [lra|]. rewrite IH, exp_plus. lra. }
  rewrite E, exp_plus.
  assert (P : 0 < rsum (map exp z)).
  { destruct z as [|x z]; [simpl in Hc; lia|]. cbn [map rsum fold_right].
    assert (0 <= rsum (map exp z)).
    { apply rsum_nonneg. intros y Hy. apply in_map_iff in Hy. destruct Hy as [w [<- _]]. left. apply exp_pos. }
    unfold rsum in *. pose proof (exp_pos x). lra. }
  pose proof (exp_pos b). field. split; lra.
Qed.

Lemma probability_shifted : forall kappa kc wages nonpec cont draws delta c tau,
  same_lengths wages nonpec cont draws -> (c < length wages)%nat -> draws <> [] -> tau <> 0 ->
  simulate_log_probability wages (map (fun x => x + kappa) nonpec) (map (fun x => x + kc) cont) draws delta c tau =
  simulate_log_probability wages nonpec cont draws delta c tau.
Proof.
  intros kappa kc wages nonpec cont draws delta c tau SL Hc Hd Ht.
  destruct (simulate_spec wages nonpec cont draws delta c tau SL Hc Hd Ht) as [lp [E1 [E2 _]]].
  assert (SL' : same_lengths wages (map (fun x => x + kappa) nonpec) (map (fun x => x + kc) cont) draws).
  { destruct SL as [L1 [L2 L3]]. split; [rewrite map_length; exact L1|]. split; [rewrite map_length; exact L2|exact L3]. }
  destruct (simulate_spec _ _ _ draws delta c tau SL' Hc Hd Ht) as [lp' [E1' [E2' _]]].
  rewrite E1, E1'. f_equal. apply exp_inv. rewrite E2, E2'. unfold smoothed_probability. f_equal. apply map_ext. intros e. symmetry.
  rewrite <- (logit_shift ((kappa + delta * kc) / tau)) by (rewrite map_length; unfold choice_values; rewrite map_length, seq_length; exact Hc).
  f_equal. rewrite map_map. unfold choice_values. rewrite !map_map. apply map_ext_in. intros j Hj.
  apply in_seq in Hj. destruct SL as [L1 [L2 _]].
  rewrite (nth_indep (map (fun x => x + kappa) nonpec) 0 (0 + kappa)) by (rewrite map_length; lia).
  rewrite (nth_indep (map (fun x => x + kc) cont) 0 (0 + kc)) by (rewrite map_length; lia).
  rewrite (map_nth (fun x => x + kappa)), (map_nth (fun x => x + kc)). field. exact Ht.
Qed.
