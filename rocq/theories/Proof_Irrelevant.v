(** Proofs about variables that do not matter. *)
From Coq Require Import List Arith Bool Reals Lra Lia.
From Verif Require Import Base Proof_Base Model_CoreStateSpace Spec_CoreStateSpace Proof_CoreStateSpace
  Model_StateSpace Spec_StateSpace Proof_StateSpace Model_Solve Spec_Solve Proof_Solve Proof_Value Proof_SolveProps Proof_Likelihood
  Spec_Horizon Proof_Horizon Model_Exogenous Spec_Exogenous Proof_Exogenous Proof_ExogenousProps Proof_ExogenousInduction Spec_Irrelevant.
Import ListNotations.
Local Open Scope nat_scope.

Lemma same_flows : forall core csf inp ctx csf' inp' ctx' s, same_decisions core csf inp ctx csf' inp' ctx' -> In s core ->
  pb_flows (model_problem csf inp ctx) s = pb_flows (model_problem csf' inp' ctx') s /\
  pb_moves (model_problem csf inp ctx) s = pb_moves (model_problem csf' inp' ctx') s.
Proof.
  intros core csf inp ctx csf' inp' ctx' s A Hs. cbn [pb_flows pb_moves model_problem]. rewrite <- (sd_choices _ _ _ _ _ _ _ A s Hs). split; [|reflexivity].
  rewrite (sd_draws _ _ _ _ _ _ _ A).
  replace (transform_draws (in_base inp' (count_true (csf ctx s)) (cs_period s)) (csf ctx s) (in_params inp'))
    with (transform_draws (in_base inp' (count_true (csf ctx s)) (cs_period s)) (csf ctx s) (in_params inp)).
  - apply map_ext. intros e. apply map_ext_in. intros [c x] I. cbn [fst snd]. apply in_combine_l in I. apply In_positions in I.
    rewrite (sd_wages _ _ _ _ _ _ _ A s c Hs I), (sd_nonpecs _ _ _ _ _ _ _ A s c Hs I). reflexivity.
  - unfold transform_draws. rewrite (sd_chol _ _ _ _ _ _ _ A), (sd_nwages _ _ _ _ _ _ _ A). reflexivity.
Qed.

Lemma moves_in : forall nperiods core csf inp ctx s s', closed_under_choices nperiods core csf -> In s core -> S (cs_period s) < nperiods ->
  In s' (pb_moves (model_problem csf inp ctx) s) -> In s' core /\ cs_period s' = S (cs_period s).
Proof.
  intros nperiods core csf inp ctx s s' C Hs Hp I. cbn [pb_moves model_problem] in I. apply in_map_iff in I. destruct I as [c [<- Hc]].
  split; [apply (C ctx s c Hs Hp); apply In_positions; exact Hc|apply law_period].
Qed.

Lemma value_same : forall nperiods core csf inp ctx csf' inp' ctx' delta, closed_under_choices nperiods core csf ->
  same_decisions core csf inp ctx csf' inp' ctx' ->
  forall n s, In s core -> cs_period s + n = nperiods ->
  value (model_problem csf inp ctx) delta n s = value (model_problem csf' inp' ctx') delta n s.
Proof.
  intros nperiods core csf inp ctx csf' inp' ctx' delta C A. induction n as [|n IH]; intros s Hs Hn; [reflexivity|]. cbn [value].
  destruct (same_flows _ _ _ _ _ _ _ s A Hs) as [E1 E2]. rewrite <- E1, <- E2.
  apply mean_ext. intros u _. f_equal. apply map_ext_in. intros [x s'] I. cbn [fst snd]. apply in_combine_r in I.
  destruct n as [|n]; [reflexivity|].
  destruct (moves_in nperiods core csf inp ctx s s' C Hs ltac:(lia) I) as [Hs' Hp]. rewrite IH; [reflexivity|exact Hs'|lia].
Qed.

Theorem irrelevant_dense : forall sp neg k grid ss inp neg' k' grid' ss' inp' ev0 ev0' ev ev' s d d' ctx ctx' v v',
  standard_model sp neg k grid ss inp -> standard_model sp neg' k' grid' ss' inp' ->
  same_decisions (create_core_state_space sp) (choice_set_of sp (process sp (S k) neg)) inp ctx
    (choice_set_of sp (process sp (S k') neg')) inp' ctx' ->
  ev_shape ss ev0 -> ev_shape ss' ev0' ->
  solve_with_backward_induction ss inp ev0 = Ok ev -> solve_with_backward_induction ss' inp' ev0' = Ok ev' ->
  In s (create_core_state_space sp) -> dense_combination grid d ctx -> dense_combination grid' d' ctx' ->
  value_at ss ev s d v -> value_at ss' ev' s d' v' -> v = v'.
Proof.
  intros sp neg k grid ss inp neg' k' grid' ss' inp' ev0 ev0' ev ev' s d d' ctx ctx' v v' SM SM' A SH SH' E E' Hs Dc Dc' Hv Hv'.
  assert (Hp : cs_period s < sp_nperiods sp).
  { apply (core_periods sp); [apply (sm_wf _ _ _ _ _ _ SM)|apply (sm_lags _ _ _ _ _ _ SM)|exact Hs]. }
  destruct (Req_EM_T (p_delta (in_params inp)) 0) as [Z|N].
  - rewrite (myopic_value _ _ _ _ _ _ _ _ _ _ _ SM Z SH E Hv). rewrite (sd_delta _ _ _ _ _ _ _ A) in Z.
    rewrite (myopic_value _ _ _ _ _ _ _ _ _ _ _ SM' Z SH' E' Hv'). reflexivity.
  - rewrite (solved_value _ _ _ _ _ _ _ _ _ _ _ _ SM N SH E Hs Dc Hv). rewrite (sd_delta _ _ _ _ _ _ _ A) in N |- *.
    rewrite (solved_value _ _ _ _ _ _ _ _ _ _ _ _ SM' N SH' E' Hs Dc' Hv').
    apply (value_same (sp_nperiods sp) (create_core_state_space sp)); [apply (sm_closed _ _ _ _ _ _ SM)|exact A|exact Hs|lia].
Qed.

(** ** Exogenous processes *)
Lemma combination_length : forall levels e, combination levels e -> length e = length levels.
Proof. intros levels e H. induction H; cbn; congruence. Qed.
Lemma static_of : forall (procs : processes) static e, combination (levels_of procs) e -> static_part (length procs) (static ++ e) = static.
Proof.
  intros procs static e H. apply combination_length in H. unfold levels_of in H. rewrite map_length in H. unfold static_part.
  rewrite app_length, H. replace (length static + length procs - length procs) with (length static) by lia. rewrite firstn_app, Nat.sub_diag, firstn_all. cbn. apply app_nil_r.
Qed.
Lemma levels_nonempty : forall (procs : processes) e, combination (levels_of procs) e -> Forall (fun p => p <> []) procs.
Proof.
  unfold combination, levels_of. induction procs as [|p procs IH]; intros e H; constructor; inversion H; subst.
  - intros ->. cbn in *. lia.
  - eapply IH. eassumption.
Qed.

Lemma expected_same : forall nperiods core csf inp procs static csf' inp' ctx', closed_under_choices nperiods core csf ->
  (forall e, combination (levels_of procs) e -> same_decisions core csf inp (Some (static ++ e)) csf' inp' ctx') ->
  forall n s e, In s core -> cs_period s + n = nperiods -> combination (levels_of procs) e ->
  expected_value csf inp procs n (static ++ e) s = value (model_problem csf' inp' ctx') (p_delta (in_params inp')) n s.
Proof.
  intros nperiods core csf inp procs static csf' inp' ctx' C A. induction n as [|n IH]; intros s e Hs Hn He; [reflexivity|].
  cbn [expected_value value]. destruct (same_flows _ _ _ _ _ _ _ s (A e He) Hs) as [E1 E2]. rewrite <- E1, <- E2.
  rewrite (sd_delta _ _ _ _ _ _ _ (A e He)).
  apply mean_ext. intros u _. f_equal. apply map_ext_in. intros [x s'] I. cbn [fst snd]. apply in_combine_r in I.
  f_equal. f_equal. rewrite (static_of procs static e He).
  rewrite (rsum_map_ext _ _ (fun e' => (value (model_problem csf' inp' ctx') (p_delta (in_params inp')) n s' * joint procs (in_cov inp (Some (static ++ e)) s) e')%R)).
  - rewrite rsum_map_scal. fold (levels_of procs). rewrite joint_sum by (eapply levels_nonempty; exact He). ring.
  - intros e' He'. apply In_combinations in He'. rewrite Rmult_comm. f_equal.
    destruct n as [|n]; [reflexivity|].
    destruct (moves_in nperiods core csf inp (Some (static ++ e)) s s' C Hs ltac:(lia) I) as [Hs' Hp]. apply IH; [exact Hs'|lia|exact He'].
Qed.

Theorem irrelevant_process : forall sp neg k grid procs sx inp neg' k' grid' ss inp' ev0 ev0' ev ev' s static e d ctx v v',
  exogenous_model sp neg k grid procs sx inp -> standard_model sp neg' k' grid' ss inp' -> p_delta (in_params inp) <> 0%R ->
  (forall e, combination (levels_of procs) e ->
     same_decisions (create_core_state_space sp) (choice_set_of sp (process sp (S k) neg)) inp (Some (static ++ e))
       (choice_set_of sp (process sp (S k') neg')) inp' ctx) ->
  ev_shape sx ev0 -> ev_shape ss ev0' ->
  solve_exog sx procs inp ev0 = Ok ev -> solve_with_backward_induction ss inp' ev0' = Ok ev' ->
  In s (create_core_state_space sp) -> combination (levels_of procs) e -> In (static ++ e) grid -> dense_combination grid' d ctx ->
  value_in sx ev (static ++ e) s v -> value_at ss ev' s d v' -> v = v'.
Proof.
  intros sp neg k grid procs sx inp neg' k' grid' ss inp' ev0 ev0' ev ev' s static e d ctx v v' EM SM N A SH SH' E E' Hs He Hg Dc Hv Hv'.
  assert (Hp : cs_period s < sp_nperiods sp).
  { apply (core_periods sp); [apply (sm_wf _ _ _ _ _ _ SM)|apply (sm_lags _ _ _ _ _ _ SM)|exact Hs]. }
  destruct (solve_exog_model _ _ _ _ _ _ _ ev0 EM N SH) as (ev1 & E1 & V). rewrite E in E1. injection E1 as <-.
  apply (V s (static ++ e) Hs Hg) in Hv. subst v.
  assert (N' := N). rewrite (sd_delta _ _ _ _ _ _ _ (A e He)) in N'.
  rewrite (solved_value _ _ _ _ _ _ _ _ _ _ _ _ SM N' SH' E' Hs Dc Hv').
  apply (expected_same (sp_nperiods sp) (create_core_state_space sp)); [apply (em_closed _ _ _ _ _ _ _ EM)|exact A|exact Hs|lia|exact He].
Qed.

Theorem irrelevant_level : forall sp neg k grid procs sx inp ev0 ev s static e e' v v',
  exogenous_model sp neg k grid procs sx inp -> p_delta (in_params inp) <> 0%R ->
  (forall e e', combination (levels_of procs) e -> combination (levels_of procs) e' ->
     same_decisions (create_core_state_space sp) (choice_set_of sp (process sp (S k) neg)) inp (Some (static ++ e))
       (choice_set_of sp (process sp (S k) neg)) inp (Some (static ++ e'))) ->
  ev_shape sx ev0 -> solve_exog sx procs inp ev0 = Ok ev ->
  In s (create_core_state_space sp) -> combination (levels_of procs) e -> combination (levels_of procs) e' ->
  In (static ++ e) grid -> In (static ++ e') grid ->
  value_in sx ev (static ++ e) s v -> value_in sx ev (static ++ e') s v' -> v = v'.
Proof.
  intros sp neg k grid procs sx inp ev0 ev s static e e' v v' EM N A SH E Hs He He' Hg Hg' Hv Hv'.
  assert (Hp : cs_period s < sp_nperiods sp).
  { apply (core_periods sp); [apply (em_wf _ _ _ _ _ _ _ EM)|apply (em_lags _ _ _ _ _ _ _ EM)|exact Hs]. }
  destruct (solve_exog_model _ _ _ _ _ _ _ ev0 EM N SH) as (ev1 & E1 & V). rewrite E in E1. injection E1 as <-.
  apply (V s _ Hs Hg) in Hv. apply (V s _ Hs Hg') in Hv'. subst v v'.
  assert (G : forall e0, combination (levels_of procs) e0 ->
    expected_value (choice_set_of sp (process sp (S k) neg)) inp procs (sp_nperiods sp - cs_period s) (static ++ e0) s =
    value (model_problem (choice_set_of sp (process sp (S k) neg)) inp (Some (static ++ e))) (p_delta (in_params inp)) (sp_nperiods sp - cs_period s) s).
  { intros e0 H0. apply (expected_same (sp_nperiods sp) (create_core_state_space sp)); [apply (em_closed _ _ _ _ _ _ _ EM)| |exact Hs|lia|exact H0].
    intros e1 H1. apply A; assumption. }
  rewrite (G e He), (G e' He'). reflexivity.
Qed.
