(** Proofs about what the expected values depend on. *)
From Coq Require Import List Arith Bool Reals Lra Lia.
From Verif Require Import Base Proof_Base Model_CoreStateSpace Spec_CoreStateSpace Proof_CoreStateSpace
  Model_StateSpace Spec_StateSpace Proof_StateSpace Model_Solve Spec_Solve Proof_Solve Proof_Value Proof_SolveProps Spec_Horizon.
Import ListNotations.
Local Open Scope nat_scope.

Lemma hz_map_le : forall A (f g : A -> R) l, (forall x, In x l -> (f x <= g x)%R) -> list_le (map f l) (map g l).
Proof. intros A f g l H. induction l as [|x l IH]; constructor; [apply H; left; reflexivity|apply IH; intros; apply H; right; assumption]. Qed.

Lemma flows_agree : forall P ctx csf csf' inp inp' s, agree_in P ctx inp inp' -> P (cs_period s) -> csf ctx s = csf' ctx s ->
  pb_flows (model_problem csf inp ctx) s = pb_flows (model_problem csf' inp' ctx) s /\
  pb_moves (model_problem csf inp ctx) s = pb_moves (model_problem csf' inp' ctx) s.
Proof.
  intros P ctx csf csf' inp inp' s A Hs E. cbn [pb_flows pb_moves model_problem]. rewrite <- E. split; [|reflexivity].
  rewrite (ag_draws _ _ _ _ A _ _ Hs).
  replace (transform_draws (in_base inp' (count_true (csf ctx s)) (cs_period s)) (csf ctx s) (in_params inp'))
    with (transform_draws (in_base inp' (count_true (csf ctx s)) (cs_period s)) (csf ctx s) (in_params inp)).
  - apply map_ext. intros e. apply map_ext. intros [c x]. cbn [fst snd].
    rewrite (ag_wages _ _ _ _ A _ _ Hs), (ag_nonpecs _ _ _ _ A _ _ Hs). reflexivity.
  - unfold transform_draws. rewrite (ag_chol _ _ _ _ A), (ag_nwages _ _ _ _ A). reflexivity.
Qed.

Lemma value_future : forall csf ctx inp inp' t, agree_in (fun p => t <= p) ctx inp inp' ->
  forall delta n s, t <= cs_period s -> value (model_problem csf inp ctx) delta n s = value (model_problem csf inp' ctx) delta n s.
Proof.
  intros csf ctx inp inp' t A delta. induction n as [|n IH]; intros s Hs; [reflexivity|]. cbn [value].
  destruct (flows_agree _ ctx csf csf inp inp' s A Hs eq_refl) as [E1 E2]. rewrite <- E1, <- E2.
  apply mean_ext. intros u _. f_equal. apply map_ext_in. intros [x s'] I. cbn [fst snd]. rewrite IH; [reflexivity|].
  apply in_combine_r in I. cbn [pb_moves model_problem] in I. apply in_map_iff in I. destruct I as [c [<- _]].
  rewrite law_period. lia.
Qed.

Theorem only_the_future : forall sp neg k grid ss inp inp' ev0 ev0' ev ev' s d ctx v v',
  standard_model sp neg k grid ss inp -> standard_model sp neg k grid ss inp' ->
  agree_in (fun p => cs_period s <= p) ctx inp inp' ->
  ev_shape ss ev0 -> ev_shape ss ev0' ->
  solve_with_backward_induction ss inp ev0 = Ok ev -> solve_with_backward_induction ss inp' ev0' = Ok ev' ->
  In s (create_core_state_space sp) -> dense_combination grid d ctx ->
  value_at ss ev s d v -> value_at ss ev' s d v' -> v = v'.
Proof.
  intros sp neg k grid ss inp inp' ev0 ev0' ev ev' s d ctx v v' SM SM' A SH SH' E E' Hs Dc Hv Hv'.
  destruct (Req_EM_T (p_delta (in_params inp)) 0) as [Z|N].
  - rewrite (myopic_value _ _ _ _ _ _ _ _ _ _ _ SM Z SH E Hv). rewrite (ag_delta _ _ _ _ A) in Z.
    rewrite (myopic_value _ _ _ _ _ _ _ _ _ _ _ SM' Z SH' E' Hv'). reflexivity.
  - rewrite (solved_value _ _ _ _ _ _ _ _ _ _ _ _ SM N SH E Hs Dc Hv). rewrite (ag_delta _ _ _ _ A) in N |- *.
    rewrite (solved_value _ _ _ _ _ _ _ _ _ _ _ _ SM' N SH' E' Hs Dc Hv').
    apply (value_future _ _ _ _ (cs_period s) A). apply le_n.
Qed.

Theorem longer_horizon : forall sp neg k sp' neg' k' grid ss ss' inp inp' ev0 ev0' ev ev' s d ctx v v',
  standard_model sp neg k grid ss inp -> standard_model sp' neg' k' grid ss' inp' ->
  sp_nperiods sp <= sp_nperiods sp' -> same_choices sp neg k sp' neg' k' ctx ->
  agree_in (fun p => p < sp_nperiods sp) ctx inp inp' -> (0 <= p_delta (in_params inp))%R ->
  ev_shape ss ev0 -> ev_shape ss' ev0' ->
  solve_with_backward_induction ss inp ev0 = Ok ev -> solve_with_backward_induction ss' inp' ev0' = Ok ev' ->
  In s (create_core_state_space sp) -> In s (create_core_state_space sp') -> dense_combination grid d ctx ->
  value_at ss ev s d v -> value_at ss' ev' s d v' -> (v <= v')%R.
Proof.
  intros sp neg k sp' neg' k' grid ss ss' inp inp' ev0 ev0' ev ev' s d ctx v v' SM SM' LN SC A D SH SH' E E' Hs Hs' Dc Hv Hv'.
  destruct (Req_EM_T (p_delta (in_params inp)) 0) as [Z|N].
  - rewrite (myopic_value _ _ _ _ _ _ _ _ _ _ _ SM Z SH E Hv). eapply (stored_nonneg sp' neg' k' grid ss' inp'); eauto.
  - rewrite (solved_value _ _ _ _ _ _ _ _ _ _ _ _ SM N SH E Hs Dc Hv). assert (N' := N). rewrite (ag_delta _ _ _ _ A) in N'.
    rewrite (solved_value _ _ _ _ _ _ _ _ _ _ _ _ SM' N' SH' E' Hs' Dc Hv'). rewrite <- (ag_delta _ _ _ _ A).
    set (delta := p_delta (in_params inp)) in *. unfold problem_of.
    set (csf := choice_set_of sp (process sp (S k) neg)). set (csf' := choice_set_of sp' (process sp' (S k') neg')).
    assert (Hp : cs_period s < sp_nperiods sp).
    { apply (core_periods sp); [apply (sm_wf _ _ _ _ _ _ SM)|apply (sm_lags _ _ _ _ _ _ SM)|exact Hs]. }
    replace (sp_nperiods sp' - cs_period s) with ((sp_nperiods sp - cs_period s) + (sp_nperiods sp' - sp_nperiods sp)) by lia.
    assert (G : forall e m s0, In s0 (create_core_state_space sp) -> cs_period s0 + m = sp_nperiods sp ->
      (value (model_problem csf inp ctx) delta m s0 <= value (model_problem csf' inp' ctx) delta (m + e) s0)%R).
    { intros e. induction m as [|m IH]; intros s0 H0 Hm.
      - cbn [value Nat.add]. apply value_nonneg.
      - cbn [value Nat.add].
        destruct (flows_agree _ ctx csf csf' inp inp' s0 A ltac:(cbn; lia) (SC s0 H0)) as [E1 E2]. rewrite <- E1, <- E2.
        apply mean_le. apply hz_map_le. intros u _. apply max0_le. apply hz_map_le.
        intros [x s1] I. cbn [fst snd]. apply Rplus_le_compat_l. apply Rmult_le_compat_l; [exact D|].
        apply in_combine_r in I. cbn [pb_moves model_problem] in I. apply in_map_iff in I. destruct I as [c [<- Hc]].
        destruct m as [|m]; [cbn [value Nat.add]; apply value_nonneg|]. apply IH.
        + apply (sm_closed _ _ _ _ _ _ SM ctx s0 c H0); [lia|]. apply In_positions. exact Hc.
        + rewrite law_period. lia. }
    apply G; [exact Hs|lia].
Qed.
