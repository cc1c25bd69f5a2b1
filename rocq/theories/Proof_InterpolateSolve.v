(** Backward induction with interpolated periods. *)
From Coq Require Import List Arith Bool Reals Lra Lia.
From Verif Require Import Base Proof_Base Model_CoreStateSpace Proof_CoreStateSpace
  Model_StateSpace Spec_StateSpace Proof_StateSpace Model_Solve Spec_Solve Proof_Solve Proof_SolveProps
  Model_Calls Proof_Calls Proof_ExogenousInduction Model_ConditionalDraws
  Model_Interpolate Spec_Interpolate Proof_Interpolate.
Import ListNotations.
Open Scope R_scope.

(** ** Keys of the returned values *)
Lemma distribute_length : forall choose m i ps rs lst ps' rs' lst',
  distribute_points choose m i (ps, rs, lst) = Ok (ps', rs', lst') -> length ps' = length ps.
Proof.
  induction m as [|m IH]; intros i ps rs lst ps' rs' lst' H; cbn [distribute_points] in H.
  - injection H as <- _ _. reflexivity.
  - destruct (Nat.eqb (list_sum rs) 0); [discriminate|].
    destruct (nth_error ps _) as [p|]; [|discriminate].
    destruct (nth_error rs _) as [n|]; [|discriminate].
    apply IH in H. rewrite H. apply length_set_nth.
Qed.

Lemma split_length : forall choose ns points ps warn,
  split_interpolation_points_evenly choose ns points = Ok (ps, warn) -> length ps = length ns.
Proof.
  intros choose ns points ps warn H. unfold split_interpolation_points_evenly in H.
  destruct (distribute_points _ _ _ _) as [[[ps' rs'] lst']| | | | |] eqn:E; try discriminate.
  apply distribute_length in E. rewrite map_length in E. cbn [result_bind] in H.
  destruct lst'; [|destruct (Nat.eqb (length ns) 0); [|discriminate]]; injection H as <- _; exact E.
Qed.

Lemma map_fst_combine_eq : forall A B (l : list A) (m : list B), length l = length m ->
  map fst (combine l m) = l.
Proof.
  induction l as [|x l IH]; intros [|y m] H; try discriminate; [reflexivity|].
  cbn [combine map fst]. rewrite IH; auto.
Qed.

Lemma Forall2_weaken : forall A B (P Q : A -> B -> Prop) l m, (forall a b, P a b -> Q a b) ->
  Forall2 P l m -> Forall2 Q l m.
Proof. intros A B P Q l m H F. induction F; constructor; auto. Qed.

Lemma with_interpolation_keys : forall ss o inp, interp_keys ss (with_interpolation ss o inp).
Proof.
  intros ss o inp p conts vals _ H. cbn [in_interp with_interpolation] in H. unfold kw_94_interpolation in H.
  set (keys := dense_keys_from_period ss p) in *.
  destruct (split_interpolation_points_evenly _ _ _) as [[ps warn]| | | | |] eqn:E; try discriminate.
  apply split_length in E. rewrite map_length in E. cbn [result_bind fst] in H.
  apply result_all_map_Ok in H.
  assert (G : map fst vals = map fst (combine keys ps)).
  { clear E. induction H as [|[k pt] [k' arr] l l' H _ IH]; [reflexivity|]. cbn [map fst].
    f_equal; [|exact IH]. cbn [fst snd] in H.
    destruct (get_not_interpolated_indicator _ _ _) as [mask| | | | |]; try discriminate. cbn [result_bind] in H.
    destruct (dict_get Nat.eq_dec k conts); [|discriminate].
    destruct (dense_key_to_complex ss k); [|discriminate].
    destruct (rewards_of ss inp k); try discriminate. cbn [result_bind] in H.
    destruct (interpolate_key _ _ _ _ _ _ _ _); try discriminate. cbn [result_bind] in H. congruence. }
  rewrite G. apply map_fst_combine_eq. auto.
Qed.

(** ** One period *)
Lemma max_log_float_value : max_log_float = 460. Proof. reflexivity. Qed.

Lemma dotp_self_nonneg : forall l, 0 <= dotp l l.
Proof.
  induction l as [|x l IH]; [unfold dotp; simpl; lra|].
  assert (E : dotp (x :: l) (x :: l) = x * x + dotp l l) by reflexivity.
  rewrite E. pose proof (Rle_0_sqr x). unfold Rsqr in *. lra.
Qed.

Lemma expected_shock_mean : forall p c, expected_shock p c = mean_shock p c.
Proof.
  intros p c. unfold expected_shock, mean_shock, lognormal_mean. destruct (Nat.ltb c (p_nwages p)); [|reflexivity].
  unfold clip. rewrite max_log_float_value, Rmax_right by apply dotp_self_nonneg. reflexivity.
Qed.

Lemma nth_expected_shocks : forall p cs j c, nth_error (positions cs) j = Some c ->
  nth j (compute_expected_shocks p cs) 0 = mean_shock p c.
Proof.
  intros p cs j c H. unfold compute_expected_shocks.
  assert (E : compress cs (map (expected_shock p) (seq 0 (length cs))) = map (expected_shock p) (positions cs)).
  { rewrite <- (compress_seq cs (length cs) eq_refl). generalize (seq 0 (length cs)). clear.
    induction cs as [|b cs IH]; intros [|x l]; try reflexivity.
    cbn [map compress]. destruct b; cbn [map]; rewrite IH; reflexivity. }
  rewrite E, (nth_map_lt _ _ _ _ 0%nat) by (eapply nth_error_lt; eauto).
  rewrite (nth_error_nth _ _ _ H). apply expected_shock_mean.
Qed.

Lemma maximum_ge : forall l v, In v l -> v <= maximum l.
Proof.
  intros [|x l] v H; [destruct H|]. cbn [maximum].
  assert (G : forall l, x <= fold_right Rmax x l /\ forall v, In v l -> v <= fold_right Rmax x l).
  { clear. induction l as [|y l [A B]]; cbn [fold_right]; [split; [lra|intros ? []]|].
    split; [eapply Rle_trans; [exact A|apply Rmax_r]|].
    intros v [<-|H]; [apply Rmax_l|]. eapply Rle_trans; [apply B; exact H|apply Rmax_r]. }
  destruct (G l) as [A B]. destruct H as [<-|H]; auto.
Qed.

Section Interpolated.
  Variables (nchoices nperiods : nat) (core : list core_state) (csf : cs_fun)
    (grid : list (list nat)) (ss : state_space) (inp : inputs) (o : interp_oracle).
  Hypothesis ND : NoDup core.
  Hypothesis CL : closed_under_choices nperiods core csf.
  Hypothesis CF : collision_free core csf grid.
  Hypothesis CR : create_state_space nperiods core csf grid = Ok ss.
  Hypothesis WI : wf_inputs nchoices csf inp.
  Hypothesis INP : forall s, In s core -> (cs_period s < nperiods)%nat.
  Let F : ss_facts nperiods core csf grid ss := create_state_space_facts _ _ _ _ _ CR.
  Let delta := p_delta (in_params inp).
  Let inp' := with_interpolation ss o inp.

  Lemma key_data : forall p ev k, (p < nperiods)%nat -> ev_shape ss ev ->
    In k (dense_keys_from_period ss p) ->
    exists cx ck inds d ctx wn M, nth_error (ss_dpc ss) k = Some (cx, ck) /\
      dense_combination grid d ctx /\ dense_key_to_core_indices ss k = Some inds /\ inds <> [] /\
      (k < length ev)%nat /\
      rewards_of ss inp k = Ok wn /\ length (fst wn) = length inds /\ length (snd wn) = length inds /\
      get_continuation_values 0 ss ev p k = Ok M /\ length M = length inds /\
      (forall r, (r < length inds)%nat -> exists s, located ss k r s d) /\
      forall r s d', located ss k r s d' -> (r < length inds)%nat /\ d' = d /\ cs_period s = p /\
        cx = (p, csf ctx s, d) /\
        exists row, nth_error M r = Some row /\ successor_values nperiods ss ev (csf ctx s) s d row /\
          nth_error (fst wn) r = Some (map (wage_of (in_params inp) (in_cov inp ctx s)) (positions (csf ctx s))) /\
          nth_error (snd wn) r = Some (map (nonpec_of (in_params inp) (in_cov inp ctx s)) (positions (csf ctx s))).
  Proof.
    intros p ev k Hp SH Hk. apply In_keys_of_period in Hk. destruct Hk as [cx [ck [Hk Pk]]].
    destruct (keys_inhabited _ _ _ _ _ k CF CR (nth_error_lt _ _ _ _ Hk)) as [inds [Hinds [Ne Loc]]].
    assert (H0 : (0 < length inds)%nat) by (destruct inds; [congruence|simpl; lia]).
    destruct (Loc 0%nat H0) as [s0 [d L0]].
    destruct (located_facts _ _ _ _ _ _ _ _ _ CF F L0) as
      [ctx [cx' [ck' [inds' [i [Dc [Hk' [Ecx _]]]]]]]].
    rewrite Hk in Hk'. injection Hk' as <- <-.
    assert (P0 : cs_period s0 = p) by (subst cx; exact Pk).
    destruct (rewards_row nchoices nperiods core csf grid ss inp CF CR WI _ _ _ _ _ L0 Dc)
      as [wn [inds2 [Ew [Ei [Lw [Ln _]]]]]].
    rewrite Hinds in Ei. injection Ei as <-.
    destruct (continuation_values_spec R 0 _ _ _ _ _ ev _ _ _ _ _ ND CL CF CR SH L0 Dc
                ltac:(rewrite P0; exact Hp)) as [M [row0 [EM _]]].
    rewrite P0 in EM.
    assert (LM : length M = length inds).
    { unfold get_continuation_values in EM. rewrite Hk, Hinds in EM.
      destruct (nth_error (ss_transit ss) k) as [tcs|]; [|discriminate].
      destruct (nth_error (ss_child ss) k) as [ch|]; [|discriminate].
      destruct (Nat.eqb p (ss_nperiods ss - 1)).
      - injection EM as <-. apply map_length.
      - apply result_all_map_Ok, Forall2_length_eq in EM. rewrite seq_length in EM. auto. }
    assert (Gd : forall r s d', located ss k r s d' -> (r < length inds)%nat /\ d' = d /\ cs_period s = p /\
                   cx = (p, csf ctx s, d)).
    { intros r s d' L.
      destruct (located_facts _ _ _ _ _ _ _ _ _ CF F L) as
        [ctx2 [cx2 [ck2 [inds2 [i2 [Dc2 [Hk2 [Ecx2 [Gi2 [Hr2 _]]]]]]]]]].
      rewrite Hk in Hk2. injection Hk2 as <- <-.
      assert (Ei : inds2 = inds).
      { unfold dense_key_to_core_indices, dense_key_to_core_key in Hinds. rewrite nth_error_map, Hk in Hinds.
        cbn in Hinds. congruence. }
      subst inds2.
      assert (Ed : d = d') by (rewrite Ecx in Ecx2; injection Ecx2; auto). subst d'.
      assert (ctx2 = ctx) by (eapply dense_combination_fun; eauto). subst ctx2.
      assert (Ps : cs_period s = p) by (rewrite Ecx2 in Pk; exact Pk).
      split; [eapply nth_error_lt; eauto|]. split; [reflexivity|]. split; [exact Ps|].
      rewrite Ecx2, Ps. reflexivity. }
    exists cx, ck, inds, d, ctx, wn, M.
    split; [exact Hk|]. split; [exact Dc|]. split; [exact Hinds|]. split; [exact Ne|].
    split; [destruct SH as [SH1 _]; rewrite SH1; eapply nth_error_lt; eauto|].
    split; [exact Ew|]. split; [exact Lw|]. split; [exact Ln|]. split; [exact EM|]. split; [exact LM|].
    split.
    - intros r Hr. destruct (Loc r Hr) as [s [d' L]]. destruct (Gd r s d' L) as [_ [-> _]]. eauto.
    - intros r s d' L. destruct (Gd r s d' L) as [Hr [-> [Ps Es]]].
      split; [exact Hr|]. split; [reflexivity|]. split; [exact Ps|]. split; [exact Es|].
      destruct (continuation_values_spec R 0 _ _ _ _ _ ev _ _ _ _ _ ND CL CF CR SH L Dc
                  ltac:(rewrite Ps; exact Hp)) as [M' [row [EM' [Hrow [Lrow [Last Mid]]]]]].
      rewrite Ps, EM in EM'. injection EM' as <-. exists row. split; [exact Hrow|].
      split.
      + split; [rewrite length_positions; exact Lrow|]. intros j c v Hj Hv. split.
        * intros E. apply (Last E v (nth_error_In _ _ Hv)).
        * intros E. destruct (Mid E j c Hj) as [v' [Hv' Va]]. rewrite Hv in Hv'. injection Hv' as <-. exact Va.
      + destruct (rewards_row nchoices nperiods core csf grid ss inp CF CR WI _ _ _ _ _ L Dc)
          as [wn' [inds9 [Ew' [_ [_ [_ [R1 R2]]]]]]].
        rewrite Ew in Ew'. injection Ew' as <-. auto.
  Qed.

  (** The value of a state relative to the values stored for its successors. *)
  Definition local_value (sim : bool) (ev : list (list R)) (ctx : option (list nat)) (s : core_state)
    (d : option nat) (v : R) : Prop :=
    exists next, successor_values nperiods ss ev (csf ctx s) s d next /\
      if sim then v = simulated_value (model_problem csf inp ctx) delta s next
      else above_mean_values inp ctx (csf ctx s) s next v.

  (** The values of one key. *)
  Definition key_ok (ev : list (list R)) (k : nat) (mask : list bool) (arr : list R) : Prop :=
    (k < length ev)%nat /\ length mask = key_size ss k /\ length arr = key_size ss k /\
    forall r s d ctx v, located ss k r s d -> dense_combination grid d ctx ->
      nth_error arr r = Some v -> local_value (nth r mask false) ev ctx s d v.

  Lemma draws_of_located : forall k r s d ctx, located ss k r s d -> dense_combination grid d ctx ->
    draws_of ss inp k =
    transform_draws (in_base inp (count_true (csf ctx s)) (cs_period s)) (csf ctx s) (in_params inp).
  Proof.
    intros k r s d ctx L Dc.
    destruct (located_facts _ _ _ _ _ _ _ _ _ CF F L) as
        [ctx2 [cx2 [ck2 [inds2 [i2 [Dc2 [Hk2 [Ecx2 _]]]]]]]].
    assert (ctx2 = ctx) by (eapply dense_combination_fun; eauto). subst ctx2.
    unfold draws_of, dense_key_to_complex. rewrite nth_error_map, Hk2. cbn [option_map fst].
    subst cx2. reflexivity.
  Qed.

  Lemma exact_key : forall p ev k, (p < nperiods)%nat -> ev_shape ss ev ->
    In k (dense_keys_from_period ss p) ->
    exists arr, result_bind (rewards_of ss inp k) (fun wn =>
         result_bind (get_continuation_values 0 ss ev p k) (fun conts =>
         result_bind (calculate_expected_value_functions (fst wn) (snd wn) conts
                        (draws_of ss inp k) delta) (fun arr => Ok (k, arr)))) = Ok (k, arr) /\
      key_ok ev k (repeat true (key_size ss k)) arr.
  Proof.
    intros p ev k Hp SH Hk.
    destruct (key_data p ev k Hp SH Hk) as
      [cx [ck [inds [d [ctx [wn [M [Hd [Dc [Hi [Ne [Hl [Ew [L1 [L2 [EM [L3 [Loc Row]]]]]]]]]]]]]]]]]].
    rewrite Ew. cbn [result_bind]. rewrite EM. cbn [result_bind]. unfold calculate_expected_value_functions.
    rewrite L1, L2, L3, Nat.eqb_refl. cbn [andb result_bind]. eexists. split; [reflexivity|].
    unfold key_ok, key_size. rewrite Hi. split; [exact Hl|]. split; [apply repeat_length|].
    split; [rewrite map_length, !combine_length; lia|].
    intros r s d' ctx' v L Dc' Hv. destruct (Row r s d' L) as [Hr [-> [Ps [Es [row [Hrow [SV [R1 R2]]]]]]]].
    assert (ctx' = ctx) by (eapply dense_combination_fun; eauto). subst ctx'.
    rewrite nth_error_map, !nth_error_combine, R1, R2, Hrow in Hv. cbn in Hv. injection Hv as <-.
    rewrite (nth_indep _ _ true) by (rewrite repeat_length; exact Hr). rewrite nth_repeat.
    exists row. split; [exact SV|]. rewrite (draws_of_located _ _ _ _ _ L Dc).
    unfold simulated_value. apply (emax_flows csf inp ctx s nchoices row WI). apply SV.
  Qed.

  Lemma interpolated_key : forall p ev k mask, (p < nperiods)%nat -> ev_shape ss ev ->
    (forall d ctx s, dense_combination grid d ctx -> In s core -> exists c, available (csf ctx s) c) ->
    In k (dense_keys_from_period ss p) -> length mask = key_size ss k ->
    exists cv cx wn arr, get_continuation_values 0 ss ev p k = Ok cv /\
      dense_key_to_complex ss k = Some cx /\ rewards_of ss inp k = Ok wn /\
      interpolate_key (or_ols o) (fst wn) (snd wn) cv (draws_of ss inp k)
        (compute_expected_shocks (in_params inp) (cx_choice_set cx)) delta mask = Ok arr /\
      key_ok ev k mask arr.
  Proof.
    intros p ev k mask Hp SH AV Hk Lm.
    destruct (key_data p ev k Hp SH Hk) as
      [cx [ck [inds [d [ctx [wn [M [Hd [Dc [Hi [Ne [Hl [Ew [L1 [L2 [EM [L3 [Loc Row]]]]]]]]]]]]]]]]]].
    unfold key_ok, key_size in *. rewrite Hi in *.
    destruct (interpolate_key_spec (or_ols o) (fst wn) (snd wn) M (draws_of ss inp k)
                (compute_expected_shocks (in_params inp) (cx_choice_set cx)) delta mask (length inds)
                L1 L2 L3 Lm) as [arr [Ea [La Va]]].
    { intros w Hw. apply In_nth_error in Hw. destruct Hw as [r Hr].
      destruct (Loc r ltac:(rewrite <- L1; eapply nth_error_lt; eauto)) as [s L].
      destruct (Row r s d L) as [_ [_ [_ [_ [row [_ [_ [R1 _]]]]]]]]. rewrite Hr in R1. injection R1 as ->.
      destruct (AV d ctx s Dc) as [c Hc].
      { destruct (located_describes _ _ _ _ _ _ _ _ _ CF CR L) as [ctx9 [_ [Hs _]]]. exact Hs. }
      intros E. apply map_eq_nil in E. apply In_positions in Hc. rewrite E in Hc. destruct Hc. }
    exists M, cx, wn, arr. split; [exact EM|]. split.
    { unfold dense_key_to_complex. rewrite nth_error_map, Hd. reflexivity. }
    split; [exact Ew|]. split; [exact Ea|]. split; [exact Hl|]. split; [exact Lm|]. split; [exact La|].
    intros r s d' ctx' v L Dc' Hv. destruct (Row r s d' L) as [Hr [-> [Ps [Es [row [Hrow [SV [R1 R2]]]]]]]].
    assert (ctx' = ctx) by (eapply dense_combination_fun; eauto). subst ctx'.
    specialize (Va r Hr). cbv zeta in Va.
    rewrite (nth_error_nth _ _ _ Hv), (nth_error_nth _ _ _ R1), (nth_error_nth _ _ _ R2),
      (nth_error_nth _ _ _ Hrow) in Va.
    exists row. split; [exact SV|]. destruct SV as [SV1 SV2].
    destruct (nth r mask false).
    - rewrite Va, (draws_of_located _ _ _ _ _ L Dc). apply (emax_flows csf inp ctx s nchoices row WI). exact SV1.
    - intros j c w Hj Hw. eapply Rle_trans; [|exact Va]. unfold deterministic_value. apply maximum_ge.
      unfold choice_values. apply in_map_iff. exists j.
      assert (Hj' : (j < length (positions (csf ctx s)))%nat) by (eapply nth_error_lt; eauto).
      split; [|apply in_seq; rewrite map_length; lia].
      rewrite !(nth_map_lt _ _ _ _ 0%nat) by exact Hj'. rewrite (nth_error_nth _ _ _ Hj), (nth_error_nth _ _ _ Hw).
      assert (Ec : cx_choice_set cx = csf ctx s) by (rewrite Es; reflexivity). rewrite Ec.
      rewrite (nth_expected_shocks _ _ _ _ Hj). reflexivity.
  Qed.

  Hypothesis Dnz : delta <> 0.

  Lemma vals_of_keys : forall (f : nat -> result (nat * list R)) keys (P : nat -> list R -> Prop),
    (forall k, In k keys -> exists arr, f k = Ok (k, arr) /\ P k arr) ->
    exists vals, result_all (map f keys) = Ok vals /\ map fst vals = keys /\
      forall k arr, In (k, arr) vals -> P k arr.
  Proof.
    intros f keys P H. induction keys as [|k keys IH].
    - exists []. split; [reflexivity|]. split; [reflexivity|]. intros ? ? [].
    - destruct (H k (or_introl eq_refl)) as [arr [E1 E2]].
      destruct IH as [vals [V1 [V2 V3]]]; [intros; apply H; right; assumption|].
      exists ((k, arr) :: vals). split; [cbn [map result_all]; rewrite E1, V1; reflexivity|].
      split; [cbn [map fst]; congruence|]. intros k' arr' [E|Hin]; [|auto]. injection E as <- <-. exact E2.
  Qed.

  Lemma period_exact : forall p ev, (p < nperiods)%nat -> ev_shape ss ev ->
    solved_exactly ss (in_points inp) p ->
    exists vals, period_values ss inp' ev p = Ok vals /\ map fst vals = dense_keys_from_period ss p /\
      forall k arr, In (k, arr) vals -> key_ok ev k (repeat true (key_size ss k)) arr.
  Proof.
    intros p ev Hp SH SE. unfold period_values. change (p_delta (in_params inp')) with delta.
    destruct (Req_EM_T delta 0) as [Z|_]; [contradiction|].
    change (in_points inp') with (in_points inp).
    rewrite (proj2 (any_interpolated_false ss (in_points inp) p) SE).
    apply vals_of_keys. intros k Hk. apply (exact_key p ev k Hp SH Hk).
  Qed.

  Lemma interpolated_true : forall p, interpolated_period ss (in_points inp) p ->
    any_interpolated ss (in_points inp) p = true.
  Proof.
    intros p [A B]. destruct (any_interpolated ss (in_points inp) p) eqn:E; [reflexivity|].
    apply any_interpolated_false in E. unfold solved_exactly in E. lia.
  Qed.

  Lemma all_conts : forall p ev, (p < nperiods)%nat -> ev_shape ss ev ->
    exists conts, result_all (map (fun k => result_bind (get_continuation_values 0 ss ev p k)
                    (fun c => Ok (k, c))) (dense_keys_from_period ss p)) = Ok conts /\
      forall k, In k (dense_keys_from_period ss p) ->
        exists M, get_continuation_values 0 ss ev p k = Ok M /\ dict_get Nat.eq_dec k conts = Some M.
  Proof.
    intros p ev Hp SH. set (keys := dense_keys_from_period ss p).
    assert (G : forall l, (forall k, In k l -> In k keys) ->
      exists conts, result_all (map (fun k => result_bind (get_continuation_values 0 ss ev p k)
                    (fun c => Ok (k, c))) l) = Ok conts /\
      forall k, In k l -> exists M, get_continuation_values 0 ss ev p k = Ok M /\ dict_get Nat.eq_dec k conts = Some M).
    { induction l as [|k l IH]; intros H.
      - exists []. split; [reflexivity|]. intros k [].
      - destruct IH as [conts [E1 E2]]; [intros; apply H; right; assumption|].
        destruct (key_data p ev k Hp SH (H k (or_introl eq_refl))) as
          [cx [ck [inds [d [ctx [wn [M [_ [_ [_ [_ [_ [_ [_ [_ [EM _]]]]]]]]]]]]]]]].
        exists ((k, M) :: conts). split; [cbn [map result_all]; rewrite EM; cbn [result_bind]; rewrite E1; reflexivity|].
        intros k' Hk'. cbn [dict_get]. destruct (Nat.eq_dec k' k) as [->|Hne]; [eauto|].
        destruct Hk' as [->|Hk']; [congruence|]. apply E2. exact Hk'. }
    apply G. auto.
  Qed.

  Hypothesis AV : forall d ctx s, dense_combination grid d ctx -> In s core -> exists c, available (csf ctx s) c.
  Hypothesis DP : forall p, draws_position (or_choose o p).
  Hypothesis DS : forall k, draws_subset (or_subset o k).

  Lemma key_sizes_pos : forall p n, (p < nperiods)%nat ->
    In n (map (key_size ss) (dense_keys_from_period ss p)) -> (1 <= n)%nat.
  Proof.
    intros p n Hp Hn. apply in_map_iff in Hn. destruct Hn as [k [<- Hk]].
    apply In_keys_of_period in Hk. destruct Hk as [cx [ck [Hk _]]].
    destruct (keys_inhabited _ _ _ _ _ k CF CR (nth_error_lt _ _ _ _ Hk)) as [inds [Hi [Ne _]]].
    unfold key_size. rewrite Hi. destruct inds; [congruence|simpl; lia].
  Qed.

  Lemma masks_exist : forall keys pts, NoDup keys -> Forall2 (fun n pt => (pt <= n)%nat) (map (key_size ss) keys) pts ->
    exists masks : nat -> list bool,
      Forall2 (fun k pt => get_not_interpolated_indicator (or_subset o k) pt (key_size ss k) = Ok (masks k) /\
                           length (masks k) = key_size ss k /\ count_true (masks k) = pt) keys pts.
  Proof.
    induction keys as [|k keys IH]; intros pts N H; inversion H; subst.
    - exists (fun _ => []). constructor.
    - inversion N; subst. destruct (IH l' ltac:(assumption) ltac:(assumption)) as [masks Hm].
      destruct (indicator_ok (or_subset o k) y (key_size ss k) (DS k) ltac:(assumption)) as [m [A [B C]]].
      exists (fun k' => if Nat.eq_dec k' k then m else masks k').
      assert (T : forall ks ps, ~ In k ks ->
        Forall2 (fun k pt => get_not_interpolated_indicator (or_subset o k) pt (key_size ss k) = Ok (masks k) /\
                           length (masks k) = key_size ss k /\ count_true (masks k) = pt) ks ps ->
        Forall2 (fun k0 pt => get_not_interpolated_indicator (or_subset o k0) pt (key_size ss k0) =
            Ok (if Nat.eq_dec k0 k then m else masks k0) /\
            length (if Nat.eq_dec k0 k then m else masks k0) = key_size ss k0 /\
            count_true (if Nat.eq_dec k0 k then m else masks k0) = pt) ks ps).
      { clear. intros ks ps Hn H. induction H as [|a b ks ps H _ IH]; constructor.
        - destruct (Nat.eq_dec a k) as [->|]; [exfalso; apply Hn; left; reflexivity|exact H].
        - apply IH. intro; apply Hn; right; assumption. }
      constructor; [|apply T; assumption].
      destruct (Nat.eq_dec k k); [auto|congruence].
  Qed.

  Lemma period_interpolated : forall p ev, (p < nperiods)%nat -> ev_shape ss ev ->
    interpolated_period ss (in_points inp) p ->
    exists vals masks, period_values ss inp' ev p = Ok vals /\ map fst vals = dense_keys_from_period ss p /\
      (forall k arr, In (k, arr) vals -> key_ok ev k (masks k) arr) /\
      let sizes := map (key_size ss) (keys_in ss p) in
      exists pts, feasible_points sizes pts /\ (list_sum pts + single_states sizes = in_points inp)%nat /\
        Forall2 (fun k pt => length (masks k) = key_size ss k /\ count_true (masks k) = pt) (keys_in ss p) pts.
  Proof.
    intros p ev Hp SH IP. unfold period_values. change (p_delta (in_params inp')) with delta.
    destruct (Req_EM_T delta 0) as [Z|_]; [contradiction|].
    change (in_points inp') with (in_points inp). rewrite (interpolated_true p IP).
    destruct (all_conts p ev Hp SH) as [conts [EC HC]]. rewrite EC. cbn [result_bind].
    change (in_interp inp' p conts) with (kw_94_interpolation ss inp o p conts).
    unfold kw_94_interpolation. destruct IP as [I1 I2]. unfold states_in in I2. rewrite !keys_in_spec in *.
    change (n_states_of_key ss) with (key_size ss).
    set (keys := dense_keys_from_period ss p) in *.
    destruct (split_ok (or_choose o p) (map (key_size ss) keys) (in_points inp) (DP p))
      as [pts [warn [ES [FP SP]]]].
    { intros n Hn. apply (key_sizes_pos p n Hp Hn). }
    { rewrite map_length. exact I1. }
    { exact I2. }
    rewrite ES. cbn [result_bind fst].
    destruct (masks_exist keys pts (NoDup_keys_of_period ss p)) as [masks Hm].
    { unfold feasible_points in FP. eapply Forall2_weaken; [|exact FP]. cbn. intros; lia. }
    set (f := fun kp : nat * nat => _).
    assert (V : exists vals, result_all (map f (combine keys pts)) = Ok vals /\ map fst vals = keys /\
                  forall k arr, In (k, arr) vals -> key_ok ev k (masks k) arr).
    { assert (Hin : forall k, In k keys -> In k (dense_keys_from_period ss p)) by auto.
      clear ES FP SP. clearbody keys. clear I1 I2. revert Hin HC.
      clear EC. induction Hm as [|k pt ks ps [H1 [H2 H3]] Hm IH]; intros Hin HC.
      - exists []. split; [reflexivity|]. split; [reflexivity|]. intros ? ? [].
      - destruct IH as [vals [V1 [V2 V3]]]; [intros; apply Hin; right; assumption|intros; apply HC; right; assumption|].
        destruct (interpolated_key p ev k (masks k) Hp SH AV (Hin k (or_introl eq_refl)) H2) as
          [cv [cx [wn [arr [K1 [K2 [K3 [K4 K5]]]]]]]].
        destruct (HC k (or_introl eq_refl)) as [M [M1 M2]]. rewrite K1 in M1. injection M1 as <-.
        exists ((k, arr) :: vals). split.
        + cbn [combine map result_all]. unfold f at 1. cbn [fst snd]. rewrite H1. cbn [result_bind].
          rewrite M2, K2, K3. cbn [result_bind]. fold delta. rewrite K4. cbn [result_bind]. rewrite V1. reflexivity.
        + split; [cbn [map fst]; congruence|]. intros k' arr' [E|E]; [|auto]. injection E as <- <-. exact K5. }
    destruct V as [vals [V1 [V2 V3]]]. exists vals, masks. split; [exact V1|]. split; [exact V2|]. split; [exact V3|].
    exists pts. split; [exact FP|]. split; [exact SP|]. eapply Forall2_weaken; [|exact Hm]. cbn. tauto.
  Qed.

  (** ** All periods *)
  Hypothesis PT : forall p, (p < nperiods)%nat ->
    solved_exactly ss (in_points inp) p \/ interpolated_period ss (in_points inp) p.

  Definition inv (p : nat) (masks : nat -> list bool) (ev : list (list R)) : Prop :=
    (forall k r s d ctx arr v, located ss k r s d -> dense_combination grid d ctx -> (p <= cs_period s)%nat ->
       nth_error ev k = Some arr -> nth_error arr r = Some v ->
       local_value (nth r (masks k) false) ev ctx s d v) /\
    forall q, (p <= q < nperiods)%nat -> simulated_states ss (in_points inp) masks q.

  Lemma successor_values_mono : forall ev ev' p cs s d next,
    (forall k cx ck, nth_error (ss_dpc ss) k = Some (cx, ck) -> (p < cx_period cx)%nat ->
       nth_error ev k = nth_error ev' k) -> (p <= cs_period s)%nat ->
    successor_values nperiods ss ev cs s d next -> successor_values nperiods ss ev' cs s d next.
  Proof.
    intros ev ev' p cs s d next A Hp [S1 S2]. split; [exact S1|]. intros j c v Hj Hv.
    destruct (S2 j c v Hj Hv) as [T1 T2]. split; [exact T1|]. intros E.
    destruct (T2 E) as [k [r [arr [L [H1 H2]]]]]. exists k, r, arr. split; [exact L|]. split; [|exact H2].
    rewrite <- H1. symmetry.
    destruct (located_facts _ _ _ _ _ _ _ _ _ CF F L) as
        [ctx2 [cx2 [ck2 [inds2 [i2 [Dc2 [Hk2 [Ecx2 _]]]]]]]].
    apply (A k cx2 ck2 Hk2). subst cx2. unfold cx_period. cbn [fst]. rewrite law_period. lia.
  Qed.

  Lemma period_masks : forall p ev, (p < nperiods)%nat -> ev_shape ss ev ->
    exists vals masks, period_values ss inp' ev p = Ok vals /\ map fst vals = dense_keys_from_period ss p /\
      (forall k arr, In (k, arr) vals -> key_ok ev k (masks k) arr) /\
      simulated_states ss (in_points inp) masks p.
  Proof.
    intros p ev Hp SH. destruct (PT p Hp) as [E|E].
    - destruct (period_exact p ev Hp SH E) as [vals [A [B C]]].
      exists vals, (fun k => repeat true (key_size ss k)). split; [exact A|]. split; [exact B|]. split; [exact C|].
      split; [auto|]. intros [I1 I2]. unfold solved_exactly in E. lia.
    - destruct (period_interpolated p ev Hp SH E) as [vals [masks [A [B [C D]]]]].
      exists vals, masks. split; [exact A|]. split; [exact B|]. split; [exact C|].
      split; [|intros _; exact D]. intros S. destruct E as [I1 I2]. unfold solved_exactly in S. lia.
  Qed.

  Lemma simulated_states_ext : forall m m' q,
    (forall k, In k (keys_in ss q) -> m k = m' k) ->
    simulated_states ss (in_points inp) m q -> simulated_states ss (in_points inp) m' q.
  Proof.
    intros m m' q E [A B]. split.
    - intros S k Hk. rewrite <- E by exact Hk. auto.
    - intros I. destruct (B I) as [pts [P1 [P2 P3]]]. exists pts. split; [exact P1|]. split; [exact P2|].
      clear - E P3. induction P3; constructor.
      + rewrite <- E by (left; reflexivity). assumption.
      + apply IHP3. intros; apply E; right; assumption.
  Qed.

  Lemma interp_step : forall p masks ev, (p < nperiods)%nat -> ev_shape ss ev -> inv (S p) masks ev ->
    exists masks' ev', solve_period ss inp' p ev = Ok ev' /\ ev_shape ss ev' /\ inv p masks' ev'.
  Proof.
    intros p masks ev Hp SH [I1 I2].
    destruct (period_masks p ev Hp SH) as [vals [pm [PV [Keys [KO SS]]]]].
    unfold solve_period. rewrite PV. cbn [result_bind].
    destruct (set_all ss vals ev SH) as [ev' [EF [SH' [Wr Ot]]]].
    - rewrite Keys. apply NoDup_keys_of_period.
    - intros k arr Hin. destruct (KO k arr Hin) as [K1 [K2 [K3 _]]].
      assert (Hk : In k (dense_keys_from_period ss p)).
      { rewrite <- Keys. apply in_map_iff. exists (k, arr). auto. }
      apply In_keys_of_period in Hk. destruct Hk as [cx [ck [Hk _]]].
      destruct (keys_inhabited _ _ _ _ _ k CF CR (nth_error_lt _ _ _ _ Hk)) as [inds [Hi _]].
      unfold key_size in K3. rewrite Hi in K3. eauto.
    - set (inp_period := fun k => if in_dec Nat.eq_dec k (dense_keys_from_period ss p) then true else false).
      exists (fun k => if in_dec Nat.eq_dec k (dense_keys_from_period ss p) then pm k else masks k), ev'.
      split; [exact EF|]. split; [exact SH'|].
      assert (Mono : forall k cx ck, nth_error (ss_dpc ss) k = Some (cx, ck) -> (p < cx_period cx)%nat ->
                nth_error ev k = nth_error ev' k).
      { intros k cx ck Hk Hlt. symmetry. apply Ot. rewrite Keys. intros Hin.
        apply In_keys_of_period in Hin. destruct Hin as [cx' [ck' [Hk' Pk]]]. rewrite Hk in Hk'.
        injection Hk' as <- <-. lia. }
      split.
      + intros k r s d ctx arr v L Dc Hs Hk Hr.
        destruct (located_facts _ _ _ _ _ _ _ _ _ CF F L) as
            [ctx2 [cx2 [ck2 [inds2 [i2 [Dc2 [Hk2 [Ecx2 _]]]]]]]].
        destruct (in_dec Nat.eq_dec k (dense_keys_from_period ss p)) as [Hin|Hin].
        * assert (Hin' := Hin). rewrite <- Keys in Hin'. apply in_map_iff in Hin'.
          destruct Hin' as [[k0 arr0] [E0 Hv]]. cbn [fst] in E0. subst k0.
          rewrite (Wr k arr0 Hv) in Hk. injection Hk as <-.
          destruct (KO k arr0 Hv) as [_ [_ [_ LV]]].
          destruct (LV r s d ctx v L Dc Hr) as [next [SV R]]. exists next. split; [|exact R].
          eapply successor_values_mono; [exact Mono|exact Hs|exact SV].
        * assert (Hp' : cs_period s <> p).
          { intros E. apply Hin. apply In_keys_of_period. exists cx2, ck2. split; [exact Hk2|]. subst cx2. exact E. }
          rewrite Ot in Hk by (rewrite Keys; exact Hin).
          destruct (I1 k r s d ctx arr v L Dc ltac:(lia) Hk Hr) as [next [SV R]]. exists next. split; [|exact R].
          eapply successor_values_mono; [exact Mono|exact Hs|exact SV].
      + intros q Hq. destruct (Nat.eq_dec q p) as [->|Hne].
        * eapply simulated_states_ext; [|exact SS]. intros k Hk. rewrite keys_in_spec in Hk.
          destruct (in_dec Nat.eq_dec k (dense_keys_from_period ss p)); [reflexivity|contradiction].
        * eapply simulated_states_ext; [|apply (I2 q); lia]. intros k Hk. rewrite keys_in_spec in Hk.
          destruct (in_dec Nat.eq_dec k (dense_keys_from_period ss p)) as [Hin|]; [|reflexivity].
          apply In_keys_of_period in Hk. apply In_keys_of_period in Hin.
          destruct Hk as [cx [ck [A B]]], Hin as [cx' [ck' [A' B']]]. rewrite A in A'. injection A' as <- <-. lia.
  Qed.

  Lemma interp_loop : forall n masks ev, (n <= nperiods)%nat -> ev_shape ss ev -> inv n masks ev ->
    exists masks' ev', fold_result (solve_period ss inp') (rev (seq 0 n)) ev = Ok ev' /\
                ev_shape ss ev' /\ inv 0 masks' ev'.
  Proof.
    induction n as [|n IH]; intros masks ev Hn SH C.
    - exists masks, ev. simpl. auto.
    - rewrite seq_S. simpl. rewrite rev_unit. simpl.
      destruct (interp_step n masks ev ltac:(lia) SH C) as [m1 [ev1 [E1 [SH1 C1]]]]. rewrite E1. simpl.
      apply (IH m1); auto. lia.
  Qed.

  Theorem interpolated_solution : forall ev0, ev_shape ss ev0 ->
    exists ev masks, solve_with_backward_induction ss inp' ev0 = Ok ev /\ ev_shape ss ev /\
      (forall p, (p < nperiods)%nat -> simulated_states ss (in_points inp) masks p) /\
      forall k r s d ctx, located ss k r s d -> dense_combination grid d ctx ->
        exists v next, value_at ss ev s d v /\ successor_values nperiods ss ev (csf ctx s) s d next /\
          if nth r (masks k) false then v = simulated_value (model_problem csf inp ctx) delta s next
          else above_mean_values inp ctx (csf ctx s) s next v.
  Proof.
    intros ev0 SH. unfold solve_with_backward_induction. rewrite (sf_nperiods _ _ _ _ _ F).
    destruct (interp_loop nperiods (fun _ => []) ev0 (le_n _) SH) as [masks [ev [E [SH' [C1 C2]]]]].
    - split.
      + intros k r s d ctx arr v L Dc Hs. exfalso.
        destruct (located_describes _ _ _ _ _ _ _ _ _ CF CR L) as [ctx9 [_ [Hc _]]].
        specialize (INP s Hc). lia.
      + intros q Hq. lia.
    - exists ev, masks. split; [exact E|]. split; [exact SH'|]. split; [intros; apply C2; lia|].
      intros k r s d ctx L Dc.
      assert (Hc : In s core) by (destruct (located_describes _ _ _ _ _ _ _ _ _ CF CR L) as [ctx9 [_ [Hc _]]]; exact Hc).
      destruct (value_at_exists _ _ _ _ _ _ ev s d ctx CF F SH' Hc Dc) as [v Hv].
      assert (Hv' := Hv). destruct Hv' as [k' [r' [arr [L' [H1 H2]]]]].
      destruct (located_unique _ _ _ _ _ _ _ _ _ _ _ ND CF F L L') as [<- <-].
      destruct (C1 k r s d ctx arr v L Dc ltac:(lia) H1 H2) as [next [SV R]].
      exists v, next. auto.
  Qed.
End Interpolated.

(** ** Twice as many points as keys *)
Lemma fold_result_steps : forall A B (f : A -> B -> result B) l b r x,
  fold_result f l b = Ok r -> In x l -> exists b' r', f x b' = Ok r'.
Proof.
  induction l as [|y l IH]; intros b r x H Hx; [destruct Hx|]. cbn [fold_result] in H.
  destruct (f y b) as [b1| | | | |] eqn:E; try discriminate. cbn [result_bind] in H.
  destruct Hx as [<-|Hx]; [eauto|]. eapply IH; eauto.
Qed.

Lemma two_per_key_fails : forall ss inp o ev0 p, (p < ss_nperiods ss)%nat ->
  p_delta (in_params inp) <> 0 ->
  in_points inp = (2 * length (keys_in ss p))%nat -> (in_points inp < states_in ss p)%nat ->
  forall ev, solve_with_backward_induction ss (with_interpolation ss o inp) ev0 <> Ok ev.
Proof.
  intros ss inp o ev0 p Hp Dnz E1 E2 ev H. unfold solve_with_backward_induction in H.
  apply (fold_result_steps _ _ _ _ _ _ p) in H; [|apply in_rev; rewrite rev_involutive; apply in_seq; lia].
  destruct H as [ev1 [ev2 H]]. unfold solve_period, period_values in H.
  change (p_delta (in_params (with_interpolation ss o inp))) with (p_delta (in_params inp)) in H.
  destruct (Req_EM_T (p_delta (in_params inp)) 0) as [Z|_]; [contradiction|].
  change (in_points (with_interpolation ss o inp)) with (in_points inp) in H.
  assert (A : any_interpolated ss (in_points inp) p = true).
  { destruct (any_interpolated ss (in_points inp) p) eqn:E; [reflexivity|].
    apply any_interpolated_false in E. unfold solved_exactly in E. lia. }
  rewrite A in H. destruct (result_all _) as [conts| | | | |]; try discriminate. cbn [result_bind] in H.
  change (in_interp (with_interpolation ss o inp) p conts) with (kw_94_interpolation ss inp o p conts) in H.
  unfold kw_94_interpolation in H. unfold states_in in E2. rewrite keys_in_spec in *.
  change (n_states_of_key ss) with (key_size ss) in H.
  rewrite E1, <- (map_length (key_size ss)), split_fails in H; [discriminate|].
  intros N. rewrite N in E2. cbn in E2. lia.
Qed.

(** ** The warning *)
Lemma single_key_warning : forall choose n points ps warn, (1 <= n)%nat ->
  split_interpolation_points_evenly choose [n] points = Ok (ps, warn) ->
  (warn = true <-> few_points [n] ps).
Proof.
  intros choose n points ps warn Hn H. assert (L := split_length _ _ _ _ _ H).
  unfold split_interpolation_points_evenly in H.
  destruct (distribute_points _ _ _ _) as [[[ps' rs'] lst']| | | | |] eqn:E; try discriminate.
  cbn [result_bind] in H. destruct lst' as [pos|]; [|discriminate].
  assert (P : pos = 0%nat).
  { assert (G : forall m i a b l a' b' pos, distribute_points choose m i (a, b, l) = Ok (a', b', Some pos) ->
      length a = 1%nat -> (l = None \/ l = Some 0%nat) -> pos = 0%nat).
    { clear. induction m as [|m IH]; intros i a b l a' b' pos H La Hl; cbn [distribute_points] in H.
      - injection H as _ _ ->. destruct Hl; congruence.
      - destruct (Nat.eqb (list_sum b) 0); [discriminate|].
        destruct (nth_error a _) as [x|] eqn:Ex; [|discriminate].
        destruct (nth_error b _) as [y|] eqn:Ey; [|discriminate].
        apply nth_error_lt in Ex. apply IH in H; [exact H|rewrite length_set_nth; exact La|].
        right. f_equal. lia. }
    eapply G; [exact E|reflexivity|left; reflexivity]. }
  subst pos. cbn [nth] in H. injection H as -> <-.
  destruct ps as [|x [|y ps]]; try discriminate. cbn [last].
  assert (Hi : 0 < INR n) by (apply lt_0_INR; lia).
  assert (K : INR x / INR n < 1 / 100 <-> (100 * x < n)%nat).
  { assert (Hh : INR 100 = 100) by (simpl; lra). split; intros K.
    - apply INR_lt. rewrite mult_INR, Hh.
      apply (Rmult_lt_compat_r (INR n)) in K; [|exact Hi]. unfold Rdiv in K.
      rewrite Rmult_assoc, Rinv_l, Rmult_1_r in K by lra. lra.
    - apply lt_INR in K. rewrite mult_INR, Hh in K.
      apply (Rmult_lt_reg_r (INR n)); [exact Hi|]. unfold Rdiv at 1.
      rewrite Rmult_assoc, Rinv_l, Rmult_1_r by lra. lra. }
  destruct (Rlt_dec (INR x / INR n) (1 / 100)) as [H1|H1].
  - split; [|reflexivity]. intros _. exists 0%nat, n, x. cbn. split; [reflexivity|]. split; [reflexivity|]. apply K. exact H1.
  - split; [discriminate|]. intros [j [n' [p [A [B C]]]]]. exfalso. apply H1. apply K.
    destruct j as [|[|j]]; try discriminate. cbn in A, B. injection A as <-. injection B as <-. exact C.
Qed.
