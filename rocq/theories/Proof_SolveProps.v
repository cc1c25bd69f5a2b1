(** Statements about the solution in the form used by the property theorems. *)
From Coq Require Import List Arith Bool Reals Lra Lia.
From Verif Require Import Base Proof_Base Model_CoreStateSpace Spec_CoreStateSpace Proof_CoreStateSpace
  Model_StateSpace Spec_StateSpace Proof_StateSpace Model_Solve Spec_Solve Proof_Solve
  Proof_Value Proof_Shocks Model_Calls Proof_Calls.
Import ListNotations.
Open Scope R_scope.

(** ** C10 *)
Lemma core_periods : forall sp s, wf_spec sp -> (sp_nlags sp <= 1)%nat ->
  In s (create_core_state_space sp) -> (cs_period s < sp_nperiods sp)%nat.
Proof.
  intros sp s W L H. apply core_exact in H; [|assumption|assumption]. apply H.
Qed.

Lemma solve_model : forall sp neg k grid ss inp ev0,
  standard_model sp neg k grid ss inp -> p_delta (in_params inp) <> 0 -> ev_shape ss ev0 ->
  exists ev, solve_with_backward_induction ss inp ev0 = Ok ev /\
    forall s d ctx, In s (create_core_state_space sp) -> dense_combination grid d ctx ->
      forall v, value_at ss ev s d v <->
        v = value (problem_of sp neg k inp ctx) (p_delta (in_params inp)) (sp_nperiods sp - cs_period s) s.
Proof.
  intros sp neg k grid ss inp ev0 [W L F CF CR IC LC NI] DN SH0.
  set (core := create_core_state_space sp) in *.
  set (csf := choice_set_of sp (process sp (S k) neg)) in *.
  destruct (backward_induction (sp_nchoices sp) (sp_nperiods sp) core csf grid ss inp) with (ev0 := ev0)
    as [ev [E [S V]]]; auto.
  - apply core_nodup.
  - split; [exact IC|]. split; [|exact (proj1 LC)]. intros ctx s. unfold csf, choice_set_of.
    rewrite map_length, seq_length. reflexivity.
  - intros s Hs. apply core_periods; assumption.
  - exists ev. split; [exact E|]. intros s d ctx Hs Dc.
    assert (FF := create_state_space_facts _ _ _ _ _ CR).
    destruct (located_exists _ _ _ _ _ _ _ _ CF FF Hs Dc) as [k' [r LL]].
    destruct (V k' r s d ctx LL Dc) as [arr [A1 A2]]. intros v. split.
    + intros [k2 [r2 [arr2 [L2 [B1 B2]]]]].
      destruct (located_unique _ _ _ _ _ _ _ _ _ _ _ (core_nodup sp) CF FF LL L2) as [<- <-].
      rewrite A1 in B1. injection B1 as <-. rewrite A2 in B2. injection B2 as <-. reflexivity.
    + intros ->. exists k', r, arr. auto.
Qed.

Lemma solved_value : forall sp neg k grid ss inp ev0 ev s d ctx v,
  standard_model sp neg k grid ss inp -> p_delta (in_params inp) <> 0 -> ev_shape ss ev0 ->
  solve_with_backward_induction ss inp ev0 = Ok ev ->
  In s (create_core_state_space sp) -> dense_combination grid d ctx -> value_at ss ev s d v ->
  v = value (problem_of sp neg k inp ctx) (p_delta (in_params inp)) (sp_nperiods sp - cs_period s) s.
Proof.
  intros sp neg k grid ss inp ev0 ev s d ctx v SM DN SH E Hs Dc Hv.
  destruct (solve_model _ _ _ _ _ _ _ SM DN SH) as [ev' [E' H]].
  rewrite E in E'. injection E' as <-. apply (H s d ctx Hs Dc v). exact Hv.
Qed.

Lemma solve_myopic : forall nperiods core csf grid ss inp ev0,
  collision_free core csf grid -> create_state_space nperiods core csf grid = Ok ss ->
  (forall s, In s core -> (cs_period s < nperiods)%nat) ->
  p_delta (in_params inp) = 0 -> ev_shape ss ev0 ->
  exists ev, solve_with_backward_induction ss inp ev0 = Ok ev /\
    forall k arr v, nth_error ev k = Some arr -> In v arr -> v = 0.
Proof.
  intros nperiods core csf grid ss inp ev0 CF CR IP D SH.
  assert (FF := create_state_space_facts _ _ _ _ _ CR).
  set (Z := fun (p : nat) (ev : list (list R)) => forall k cx ck arr v, nth_error (ss_dpc ss) k = Some (cx, ck) ->
     (p <= cx_period cx)%nat -> nth_error ev k = Some arr -> In v arr -> v = 0).
  assert (Loop : forall n ev, ev_shape ss ev -> Z n ev ->
     exists ev', fold_result (solve_period ss inp) (rev (seq 0 n)) ev = Ok ev' /\ ev_shape ss ev' /\ Z 0%nat ev').
  { induction n as [|n IH]; intros ev SE ZE.
    - exists ev. simpl. auto.
    - rewrite seq_S, rev_app_distr. simpl.
      unfold solve_period at 1, period_values. destruct (Req_EM_T _ 0) as [_|N]; [|contradiction].
      cbn [result_bind].
      set (vals := map _ (dense_keys_from_period ss n)).
      assert (Keys : map fst vals = dense_keys_from_period ss n)
        by (unfold vals; rewrite map_map; apply map_id).
      destruct (set_all ss vals ev SE) as [ev1 [E1 [S1 [W1 O1]]]].
      + rewrite Keys. apply NoDup_keys_of_period.
      + intros k arr Hin. unfold vals in Hin. apply in_map_iff in Hin.
        destruct Hin as [k' [Hk' Hin]]. injection Hk' as -> <-.
        apply In_keys_of_period in Hin. destruct Hin as [cx [ck [Hk _]]].
        destruct (keys_inhabited _ _ _ _ _ k CF CR (nth_error_lt _ _ _ _ Hk)) as [inds [Hi _]].
        exists inds. split; [exact Hi|]. rewrite Hi, repeat_length. split; [reflexivity|].
        destruct SE as [SE1 _]. rewrite SE1. eapply nth_error_lt; eauto.
      + rewrite E1. cbn [result_bind]. apply IH; [exact S1|].
        intros k cx ck arr v Hk Hp Ha Hv.
        destruct (Nat.eq_dec (cx_period cx) n) as [E|E].
        * assert (Hin : In k (dense_keys_from_period ss n)) by (apply In_keys_of_period; eauto).
          assert (In (k, repeat 0 match dense_key_to_core_indices ss k with
                              | Some l => length l | None => 0%nat end) vals)
            by (unfold vals; apply in_map_iff; exists k; auto).
          rewrite (W1 _ _ H) in Ha. injection Ha as <-. apply repeat_spec in Hv. exact Hv.
        * rewrite O1 in Ha.
          -- apply (ZE k cx ck arr v Hk); auto. lia.
          -- rewrite Keys. intro Hin. apply In_keys_of_period in Hin. destruct Hin as [cx' [ck' [Hk' Hp']]].
             rewrite Hk in Hk'. injection Hk' as <- <-. contradiction. }
  unfold solve_with_backward_induction. rewrite (sf_nperiods _ _ _ _ _ FF).
  destruct (Loop nperiods ev0 SH) as [ev [E [S Zev]]].
  - intros k cx ck arr v Hk Hp. exfalso.
    destruct (dpc_periods _ _ _ _ _ CR cx ck (nth_error_In _ _ Hk)) as [s [Hs Es]]. specialize (IP s Hs). lia.
  - exists ev. split; [exact E|]. intros k arr v Ha Hv.
    destruct (nth_error (ss_dpc ss) k) as [[cx ck]|] eqn:Ek.
    + apply (Zev k cx ck arr v Ek ltac:(lia) Ha Hv).
    + apply nth_error_None in Ek. apply nth_error_lt in Ha. destruct S as [S _]. lia.
Qed.

(** ** C11 *)
Lemma emax_choice_values : forall wages nonpecs conts draws delta,
  same_lengths wages nonpecs conts draws ->
  emax wages nonpecs conts draws delta =
  mean (map (fun e => max0 (choice_values wages nonpecs conts delta e)) draws).
Proof.
  intros wages nonpecs conts draws delta [L1 [L2 L3]]. rewrite emax_spec by assumption.
  f_equal. apply map_ext_in. intros e He. f_equal. unfold choice_values. specialize (L3 e He).
  clear He. revert nonpecs conts e L1 L2 L3.
  induction wages as [|w wages IH]; intros [|n nonpecs] [|c conts] [|x e] L1 L2 L3;
    simpl in *; try lia; [reflexivity|].
  f_equal. rewrite <- seq_shift, map_map. apply IH; lia.
Qed.

Lemma max0_maximum : forall l, l <> [] -> (exists v, In v l /\ 0 <= v) -> max0 l = maximum l.
Proof. intros [|x l] H E; [congruence|]. apply max0_lmax. exact E. Qed.

Lemma choice_values_nonempty : forall wages nonpecs conts delta e, wages <> [] ->
  choice_values wages nonpecs conts delta e <> [].
Proof. intros [|w ws] ? ? ? ? H; [congruence|]. discriminate. Qed.

Lemma emax_average : forall wages nonpecs conts draws delta,
  same_lengths wages nonpecs conts draws -> wages <> [] ->
  (forall e, In e draws -> exists v, In v (choice_values wages nonpecs conts delta e) /\ 0 <= v) ->
  emax wages nonpecs conts draws delta =
  mean (map (fun e => maximum (choice_values wages nonpecs conts delta e)) draws).
Proof.
  intros wages nonpecs conts draws delta SL NE H. rewrite emax_choice_values by exact SL.
  apply mean_ext. intros e He. apply max0_maximum; [apply choice_values_nonempty; exact NE|auto].
Qed.

Lemma emax_too_large : forall wages nonpecs conts draws delta e,
  same_lengths wages nonpecs conts draws -> wages <> [] -> In e draws ->
  (forall v, In v (choice_values wages nonpecs conts delta e) -> v < 0) ->
  mean (map (fun e => maximum (choice_values wages nonpecs conts delta e)) draws) <
  emax wages nonpecs conts draws delta.
Proof.
  intros wages nonpecs conts draws delta e SL NE He H. rewrite emax_choice_values by exact SL.
  assert (GE : forall l, l <> [] -> maximum l <= max0 l).
  { intros [|x l] Hl; [congruence|]. apply max0_ge_lmax. }
  apply mean_lt.
  - apply list_le_map. intros x _. apply GE, choice_values_nonempty, NE.
  - apply Exists_exists. exists (maximum (choice_values wages nonpecs conts delta e),
                               max0 (choice_values wages nonpecs conts delta e)).
    split.
    + clear - He. induction draws as [|d draws IH]; [destruct He|]. simpl.
      destruct He as [->|He]; [left; reflexivity|right; auto].
    + simpl. assert (Hn := choice_values_nonempty wages nonpecs conts delta e NE).
      destruct (choice_values wages nonpecs conts delta e) as [|x l]; [congruence|].
      apply max0_gt_lmax. exact H.
Qed.

(** ** C12 *)
Lemma emax_more_choices : forall m wages nonpecs conts draws delta,
  same_lengths wages nonpecs conts draws -> length m = length wages ->
  emax (compress m wages) (compress m nonpecs) (compress m conts) (map (compress m) draws) delta <=
  emax wages nonpecs conts draws delta.
Proof.
  intros m wages nonpecs conts draws delta [L1 [L2 L3]] Lm.
  rewrite !emax_spec; auto.
  2,3: rewrite !length_compress by lia; reflexivity.
  2: { intros e He. apply in_map_iff in He. destruct He as [d [<- Hd]].
       rewrite !length_compress; auto. rewrite L3; auto. }
  rewrite map_map. apply mean_le, list_le_map. intros e He. specialize (L3 e He).
  apply max0_lub; [apply max0_nonneg|]. intros x Hx. apply max0_ub.
  clear He draws. revert nonpecs conts e wages L1 L2 L3 Lm Hx.
  induction m as [|b m IH]; intros [|n nonpecs] [|c conts] [|y e] [|w wages] L1 L2 L3 Lm Hx;
    simpl in *; try lia; try contradiction.
  destruct b; simpl in Hx.
  - destruct Hx as [Hx|Hx]; [left; exact Hx|]. right. apply IH; auto; lia.
  - right. apply IH; auto; lia.
Qed.

Lemma myopic_value : forall sp neg k grid ss inp ev0 ev s d v,
  standard_model sp neg k grid ss inp -> p_delta (in_params inp) = 0 -> ev_shape ss ev0 ->
  solve_with_backward_induction ss inp ev0 = Ok ev -> value_at ss ev s d v -> v = 0.
Proof.
  intros sp neg k grid ss inp ev0 ev s d v SM D SH E [k' [r [arr [_ [H1 H2]]]]].
  destruct SM as [W L F CF CR IC LC NI].
  destruct (solve_myopic _ _ _ _ _ inp ev0 CF CR) as [ev' [E' H]]; auto.
  - intros. apply core_periods; assumption.
  - rewrite E in E'. injection E' as <-. eapply H; [exact H1|eapply nth_error_In; exact H2].
Qed.

Lemma stored_nonneg : forall sp neg k grid ss inp ev0 ev s d ctx v,
  standard_model sp neg k grid ss inp -> ev_shape ss ev0 ->
  solve_with_backward_induction ss inp ev0 = Ok ev ->
  In s (create_core_state_space sp) -> dense_combination grid d ctx -> value_at ss ev s d v -> 0 <= v.
Proof.
  intros sp neg k grid ss inp ev0 ev s d ctx v SM SH E Hs Dc Hv.
  destruct (Req_EM_T (p_delta (in_params inp)) 0) as [Z|N].
  - rewrite (myopic_value _ _ _ _ _ _ _ _ _ _ _ SM Z SH E Hv). lra.
  - rewrite (solved_value _ _ _ _ _ _ _ _ _ _ _ _ SM N SH E Hs Dc Hv). apply value_nonneg.
Qed.

Lemma standard_wf_inputs : forall sp neg k grid ss inp, standard_model sp neg k grid ss inp ->
  wf_inputs (sp_nchoices sp) (choice_set_of sp (process sp (S k) neg)) inp.
Proof.
  intros sp neg k grid ss inp [W L F CF CR IC LC NI]. split; [exact IC|]. split; [|exact (proj1 LC)].
  intros ctx s. unfold choice_set_of. rewrite map_length, seq_length. reflexivity.
Qed.

Lemma stored_monotone : forall sp neg k grid ss inp inp' ev0 ev0' ev ev' s d ctx v v',
  standard_model sp neg k grid ss inp -> standard_model sp neg k grid ss inp' ->
  rewards_ordered inp inp' ->
  0 <= p_delta (in_params inp) <= p_delta (in_params inp') ->
  ev_shape ss ev0 -> ev_shape ss ev0' ->
  solve_with_backward_induction ss inp ev0 = Ok ev ->
  solve_with_backward_induction ss inp' ev0' = Ok ev' ->
  In s (create_core_state_space sp) -> dense_combination grid d ctx ->
  value_at ss ev s d v -> value_at ss ev' s d v' -> v <= v'.
Proof.
  intros sp neg k grid ss inp inp' ev0 ev0' ev ev' s d ctx v v' SM SM' RO D SH SH' E E' Hs Dc Hv Hv'.
  destruct (Req_EM_T (p_delta (in_params inp)) 0) as [Z|N].
  - rewrite (myopic_value _ _ _ _ _ _ _ _ _ _ _ SM Z SH E Hv).
    eapply (stored_nonneg sp neg k grid ss inp'); eauto.
  - rewrite (solved_value _ _ _ _ _ _ _ _ _ _ _ _ SM N SH E Hs Dc Hv).
    rewrite (solved_value _ _ _ _ _ _ _ _ _ _ _ _ SM' ltac:(lra) SH' E' Hs Dc Hv').
    destruct (ordered_flows _ _ inp inp' ctx (standard_wf_inputs _ _ _ _ _ _ SM) (sm_chol _ _ _ _ _ _ SM) RO) as [H1 H2].
    apply value_mono; assumption.
Qed.

Lemma stored_lipschitz : forall sp neg k grid ss inp inp' ev0 ev0' ev ev' s d ctx v v' eps,
  standard_model sp neg k grid ss inp -> standard_model sp neg k grid ss inp' ->
  p_delta (in_params inp) = p_delta (in_params inp') -> 0 <= p_delta (in_params inp) -> 0 <= eps ->
  flows_within eps (problem_of sp neg k inp ctx) (problem_of sp neg k inp' ctx) ->
  ev_shape ss ev0 -> ev_shape ss ev0' ->
  solve_with_backward_induction ss inp ev0 = Ok ev ->
  solve_with_backward_induction ss inp' ev0' = Ok ev' ->
  In s (create_core_state_space sp) -> dense_combination grid d ctx ->
  value_at ss ev s d v -> value_at ss ev' s d v' ->
  Rabs (v - v') <= eps * geometric (p_delta (in_params inp)) (sp_nperiods sp - cs_period s).
Proof.
  intros sp neg k grid ss inp inp' ev0 ev0' ev ev' s d ctx v v' eps SM SM' DD D He FW SH SH' E E' Hs Dc Hv Hv'.
  destruct (Req_EM_T (p_delta (in_params inp)) 0) as [Z|N].
  - rewrite (myopic_value _ _ _ _ _ _ _ _ _ _ _ SM Z SH E Hv).
    rewrite (myopic_value _ _ _ _ _ _ _ _ _ _ _ SM' ltac:(congruence) SH' E' Hv').
    rewrite Rminus_0_r, Rabs_R0. apply Rmult_le_pos; [exact He|].
    generalize (sp_nperiods sp - cs_period s)%nat. intros n. induction n; simpl; [lra|].
    assert (0 <= p_delta (in_params inp) * geometric (p_delta (in_params inp)) n) by (apply Rmult_le_pos; assumption). lra.
  - rewrite (solved_value _ _ _ _ _ _ _ _ _ _ _ _ SM N SH E Hs Dc Hv).
    rewrite (solved_value _ _ _ _ _ _ _ _ _ _ _ _ SM' ltac:(congruence) SH' E' Hs Dc Hv').
    rewrite <- DD. apply value_lipschitz; assumption.
Qed.

(** ** C13 *)
Lemma stored_optimal : forall sp neg k grid ss inp ev0 ev s d ctx v,
  standard_model sp neg k grid ss inp -> 0 < p_delta (in_params inp) -> ev_shape ss ev0 ->
  solve_with_backward_induction ss inp ev0 = Ok ev ->
  In s (create_core_state_space sp) -> dense_combination grid d ctx -> value_at ss ev s d v ->
  let n := (sp_nperiods sp - cs_period s)%nat in
  (forall pi, payoff (problem_of sp neg k inp ctx) (p_delta (in_params inp)) pi n [] s <= v) /\
  (forall pi, greedy (problem_of sp neg k inp ctx) (p_delta (in_params inp)) n pi ->
     payoff (problem_of sp neg k inp ctx) (p_delta (in_params inp)) pi n [] s = v).
Proof.
  intros sp neg k grid ss inp ev0 ev s d ctx v SM D SH E Hs Dc Hv n.
  rewrite (solved_value _ _ _ _ _ _ _ _ _ _ _ _ SM ltac:(lra) SH E Hs Dc Hv). fold n. split.
  - intros pi. apply payoff_le_value. lra.
  - intros pi G. apply (payoff_greedy _ _ _ n); auto.
Qed.

Lemma best_rule_without_opting_out : forall S (pb : problem S) delta n,
  never_negative pb delta n ->
  exists pi, greedy pb delta n pi /\
    forall h s i, (length h < n)%nat -> (i < length (pb_flows pb s))%nat -> pi h s i <> None.
Proof.
  intros S pb delta n NN.
  exists (fun h s i => match nth_error (pb_flows pb s) i with
               | None => None
               | Some u => let vals := alternatives pb delta (n - length h - 1) s u in
                           match argbest vals with
                           | (Some j, _) => Some j
                           | (None, _) => match find (fun p => if Rle_dec 0 (snd p) then true else false)
                                                     (enumerate vals) with
                                          | Some p => Some (fst p)
                                          | None => None
                                          end
                           end
               end).
  assert (P : forall vals, (exists v, In v vals /\ 0 <= v) ->
    exists j, match argbest vals with
              | (Some j, _) => Some j
              | (None, _) => match find (fun p => if Rle_dec 0 (snd p) then true else false)
                                        (enumerate vals) with
                             | Some p => Some (fst p) | None => None end
              end = Some j /\ best vals (Some j)).
  { intros vals [v [Hv Hp]]. destruct (argbest_spec vals) as [B [Q [U A]]].
    destruct (argbest vals) as [[j|] w]; simpl in *; [exists j; auto|].
    destruct (find _ (enumerate vals)) as [[j x]|] eqn:Ef.
    - exists j. split; [reflexivity|]. apply find_some in Ef. destruct Ef as [Ef1 Ef2].
      apply In_enumerate in Ef1. simpl in Ef2. destruct (Rle_dec 0 x) as [Hx|]; [|discriminate].
      exists x. split; [exact Ef1|]. split; [exact Hx|]. intros y Hy. specialize (B y Hy). lra.
    - apply In_nth_error in Hv. destruct Hv as [j Hj].
      assert (N := find_none _ _ Ef (j, v) (proj2 (In_enumerate _ _ _ _) Hj)). simpl in N.
      destruct (Rle_dec 0 v); [discriminate|contradiction]. }
  split.
  - intros h s i u m Hu En. rewrite Hu. replace (n - length h - 1)%nat with m by lia.
    destruct (P (alternatives pb delta m s u)) as [j [Ej Bj]].
    + apply NN; [eapply nth_error_In; eauto|lia].
    + cbv zeta. rewrite Ej. exact Bj.
  - intros h s i Hh Hi. destruct (nth_error (pb_flows pb s) i) as [u|] eqn:Hu.
    + destruct (P (alternatives pb delta (n - length h - 1) s u)) as [j [Ej Bj]].
      * apply NN; [eapply nth_error_In; eauto|lia].
      * cbv zeta. rewrite Ej. discriminate.
    + apply nth_error_None in Hu. lia.
Qed.

(** ** C19 *)
Lemma exp_clip_bounds : forall x, 0 < exp (clip (- max_log_float) max_log_float x) <= exp max_log_float.
Proof.
  intros x. split; [apply exp_pos|].
  assert (H : clip (- max_log_float) max_log_float x <= max_log_float) by apply Rmin_l.
  destruct H as [H|H]; [left; apply exp_increasing; exact H|rewrite H; right; reflexivity].
Qed.
