(** Proofs about the seeds of the approximate solution. *)
From Coq Require Import List Arith Bool ZArith Reals Lra Lia.
From Verif Require Import Base Proof_Base Model_CoreStateSpace Proof_CoreStateSpace
  Model_StateSpace Spec_StateSpace Proof_StateSpace Model_Solve Spec_Solve Proof_Solve Proof_SolveProps
  Model_Calls Proof_Calls Proof_ExogenousInduction Model_ConditionalDraws
  Model_Interpolate Spec_Interpolate Proof_Interpolate Proof_InterpolateSolve
  Model_Options Model_InterpolationSeeds Spec_InterpolationSeeds.
Import ListNotations.
Local Open Scope nat_scope.

(** ** The approximate solution with given simulated states *)
Definition masks_fit (ss : state_space) (o : interp_oracle) (points : nat) (masks : nat -> list bool) (p : nat) : Prop :=
  let keys := dense_keys_from_period ss p in
  (solved_exactly ss points p -> forall k, In k keys -> masks k = repeat true (key_size ss k)) /\
  (interpolated_period ss points p -> exists pts warn,
     split_interpolation_points_evenly (or_choose o p) (map (key_size ss) keys) points = Ok (pts, warn) /\
     feasible_points (map (key_size ss) keys) pts /\ list_sum pts + single_states (map (key_size ss) keys) = points /\
     Forall2 (fun k pt => get_not_interpolated_indicator (or_subset o k) pt (key_size ss k) = Ok (masks k) /\
                          length (masks k) = key_size ss k /\ count_true (masks k) = pt) keys pts).

Lemma Forall2_ext_in : forall A B (P Q : A -> B -> Prop) l l', (forall a b, In a l -> P a b -> Q a b) ->
  Forall2 P l l' -> Forall2 Q l l'.
Proof. intros A B P Q l l' H F. induction F; constructor; [apply H; [left; reflexivity|assumption]|apply IHF; intros; apply H; [right|]; assumption]. Qed.

Section Masks.
  Variables (nperiods : nat) (core : list core_state) (csf : cs_fun)
    (grid : list (list nat)) (ss : state_space) (o : interp_oracle) (points : nat).
  Hypothesis CF : collision_free core csf grid.
  Hypothesis CR : create_state_space nperiods core csf grid = Ok ss.
  Hypothesis DP : forall p, draws_position (or_choose o p).
  Hypothesis DS : forall k, draws_subset (or_subset o k).

  Lemma masks_fit_ext : forall m m' p, (forall k, In k (dense_keys_from_period ss p) -> m k = m' k) ->
    masks_fit ss o points m p -> masks_fit ss o points m' p.
  Proof.
    intros m m' p E [A B]. split.
    - intros S0 k Hk. rewrite <- E by exact Hk. apply A; assumption.
    - intros I. destruct (B I) as [pts [warn [B1 [B2 [B3 B4]]]]]. exists pts, warn. repeat split; try assumption.
      eapply Forall2_ext_in; [|exact B4]. cbn. intros k pt Hk. rewrite E by exact Hk. auto.
  Qed.

  Lemma masks_period : forall p, p < nperiods -> exists masks, masks_fit ss o points masks p.
  Proof.
    intros p Hp.
    destruct (any_interpolated ss points p) eqn:AI.
    2:{ exists (fun k => repeat true (key_size ss k)). split; [auto|]. intros [I1 I2].
        apply any_interpolated_false in AI. unfold solved_exactly in AI. lia. }
    destruct (le_lt_dec points (2 * length (dense_keys_from_period ss p))) as [L|L].
    { exists (fun k => repeat true (key_size ss k)). split; [auto|]. intros [I1 I2]. rewrite keys_in_spec in I1. lia. }
    destruct (le_lt_dec (states_in ss p) points) as [L2|L2].
    { exists (fun k => repeat true (key_size ss k)). split; [auto|]. intros [I1 I2]. lia. }
    unfold states_in in L2. rewrite keys_in_spec in L2.
    destruct (split_ok (or_choose o p) (map (key_size ss) (dense_keys_from_period ss p)) points (DP p))
      as [pts [warn [ES [FP SP]]]].
    - intros n Hn. apply (key_sizes_pos nperiods core csf grid ss CF CR p n Hp Hn).
    - rewrite map_length. exact L.
    - exact L2.
    - destruct (masks_exist ss o DS (dense_keys_from_period ss p) pts (NoDup_keys_of_period ss p)) as [masks Hm].
      { unfold feasible_points in FP. eapply Forall2_weaken; [|exact FP]. cbn. intros; lia. }
      exists masks. split.
      + intros SE. exfalso. unfold solved_exactly, states_in in SE. rewrite keys_in_spec in SE. lia.
      + intros _. exists pts, warn. auto.
  Qed.

  Lemma masks_all : forall n, n <= nperiods -> exists masks, forall p, p < n -> masks_fit ss o points masks p.
  Proof.
    induction n as [|n IH]; intros Hn.
    - exists (fun _ => []). intros p Hp. lia.
    - destruct (IH ltac:(lia)) as [masks Hm]. destruct (masks_period n ltac:(lia)) as [pm Hpm].
      exists (fun k => if in_dec Nat.eq_dec k (dense_keys_from_period ss n) then pm k else masks k).
      intros p Hp. destruct (Nat.eq_dec p n) as [->|Hne].
      + eapply masks_fit_ext; [|exact Hpm]. intros k Hk. destruct (in_dec Nat.eq_dec k (dense_keys_from_period ss n)); [reflexivity|contradiction].
      + eapply masks_fit_ext; [|apply Hm; lia]. intros k Hk.
        destruct (in_dec Nat.eq_dec k (dense_keys_from_period ss n)) as [Hin|]; [|reflexivity].
        apply In_keys_of_period in Hk. apply In_keys_of_period in Hin.
        destruct Hk as [cx [ck [A B]]], Hin as [cx' [ck' [A' B']]]. rewrite A in A'. injection A' as <- <-. lia.
  Qed.

  Lemma masks_simulated : forall masks p, masks_fit ss o points masks p -> simulated_states ss points masks p.
  Proof.
    intros masks p [A B]. unfold simulated_states. rewrite !keys_in_spec. split; [exact A|].
    intros I. destruct (B I) as [pts [warn [B1 [B2 [B3 B4]]]]]. exists pts. split; [exact B2|]. split; [exact B3|].
    eapply Forall2_weaken; [|exact B4]. cbn. tauto.
  Qed.
End Masks.

Section FixedMasks.
  Variables (nchoices nperiods : nat) (core : list core_state) (csf : cs_fun)
    (grid : list (list nat)) (ss : state_space) (inp : inputs) (o : interp_oracle).
  Hypothesis ND : NoDup core.
  Hypothesis CL : closed_under_choices nperiods core csf.
  Hypothesis CF : collision_free core csf grid.
  Hypothesis CR : create_state_space nperiods core csf grid = Ok ss.
  Hypothesis WI : wf_inputs nchoices csf inp.
  Hypothesis INP : forall s, In s core -> cs_period s < nperiods.
  Hypothesis Dnz : p_delta (in_params inp) <> 0%R.
  Hypothesis AV : forall d ctx s, dense_combination grid d ctx -> In s core -> exists c, available (csf ctx s) c.
  Variable masks : nat -> list bool.
  Hypothesis FIT : forall p, p < nperiods -> masks_fit ss o (in_points inp) masks p.
  Hypothesis PT : forall p, p < nperiods -> solved_exactly ss (in_points inp) p \/ interpolated_period ss (in_points inp) p.
  Let F : ss_facts nperiods core csf grid ss := create_state_space_facts _ _ _ _ _ CR.
  Let inp' := with_interpolation ss o inp.

  Lemma fixed_period : forall p ev, p < nperiods -> ev_shape ss ev ->
    exists vals, period_values ss inp' ev p = Ok vals /\ map fst vals = dense_keys_from_period ss p /\
      (forall k arr, In (k, arr) vals -> key_ok nperiods csf grid ss inp ev k (masks k) arr).
  Proof.
    intros p ev Hp SH. destruct (FIT p Hp) as [M1 M2]. destruct (PT p Hp) as [E|E].
    - destruct (period_exact nchoices nperiods core csf grid ss inp o ND CL CF CR WI Dnz p ev Hp SH E) as [vals [A [B C]]].
      exists vals. split; [exact A|]. split; [exact B|]. intros k arr Hin. rewrite (M1 E k); [apply C; exact Hin|].
      rewrite <- B. apply in_map_iff. exists (k, arr). auto.
    - destruct (M2 E) as [pts [warn [ES [FP [SP Hm]]]]].
      unfold period_values. change (p_delta (in_params inp')) with (p_delta (in_params inp)).
      destruct (Req_EM_T (p_delta (in_params inp)) 0) as [Z|_]; [contradiction|].
      change (in_points inp') with (in_points inp). rewrite (interpolated_true ss inp p E).
      destruct (all_conts nchoices nperiods core csf grid ss inp ND CL CF CR WI p ev Hp SH) as [conts [EC HC]].
      rewrite EC. cbn [result_bind].
      change (in_interp inp' p conts) with (kw_94_interpolation ss inp o p conts).
      unfold kw_94_interpolation. change (n_states_of_key ss) with (key_size ss).
      rewrite ES. cbn [result_bind fst].
      set (keys := dense_keys_from_period ss p) in *.
      set (f := fun kp : nat * nat => _).
      assert (Hin : forall k, In k keys -> In k (dense_keys_from_period ss p)) by auto.
      clear ES FP SP M1 M2. clearbody keys. revert Hin HC.
      clear EC. induction Hm as [|k pt ks ps [H1 [H2 H3]] Hm IH]; intros Hin HC.
      + exists []. split; [reflexivity|]. split; [reflexivity|]. intros ? ? [].
      + destruct IH as [vals [V1 [V2 V3]]]; [intros; apply Hin; right; assumption|intros; apply HC; right; assumption|].
        destruct (interpolated_key nchoices nperiods core csf grid ss inp o ND CL CF CR WI p ev k (masks k) Hp SH AV (Hin k (or_introl eq_refl)) H2) as
          [cv [cx [wn [arr [K1 [K2 [K3 [K4 K5]]]]]]]].
        destruct (HC k (or_introl eq_refl)) as [M [N1 N2]]. rewrite K1 in N1. injection N1 as <-.
        exists ((k, arr) :: vals). split.
        * cbn [combine map result_all]. unfold f at 1. cbn [fst snd]. rewrite H1. cbn [result_bind].
          rewrite N2, K2, K3. cbn [result_bind]. rewrite K4. cbn [result_bind]. rewrite V1. reflexivity.
        * split; [cbn [map fst]; congruence|]. intros k' arr' [E'|E']; [|auto]. injection E' as <- <-. exact K5.
  Qed.

  Definition fixed_inv (p : nat) (ev : list (list R)) : Prop :=
    forall k r s d ctx arr v, located ss k r s d -> dense_combination grid d ctx -> p <= cs_period s ->
       nth_error ev k = Some arr -> nth_error arr r = Some v ->
       local_value nperiods csf ss inp (nth r (masks k) false) ev ctx s d v.

  Lemma fixed_step : forall p ev, p < nperiods -> ev_shape ss ev -> fixed_inv (S p) ev ->
    exists ev', solve_period ss inp' p ev = Ok ev' /\ ev_shape ss ev' /\ fixed_inv p ev'.
  Proof.
    intros p ev Hp SH I1.
    destruct (fixed_period p ev Hp SH) as [vals [PV [Keys KO]]].
    unfold solve_period. rewrite PV. cbn [result_bind].
    destruct (set_all ss vals ev SH) as [ev' [EF [SH' [Wr Ot]]]].
    - rewrite Keys. apply NoDup_keys_of_period.
    - intros k arr Hin. destruct (KO k arr Hin) as [K1 [K2 [K3 _]]].
      assert (Hk : In k (dense_keys_from_period ss p)).
      { rewrite <- Keys. apply in_map_iff. exists (k, arr). auto. }
      apply In_keys_of_period in Hk. destruct Hk as [cx [ck [Hk _]]].
      destruct (keys_inhabited _ _ _ _ _ k CF CR (nth_error_lt _ _ _ _ Hk)) as [inds [Hi _]].
      unfold key_size in K3. rewrite Hi in K3. eauto.
    - exists ev'. split; [exact EF|]. split; [exact SH'|].
      assert (Mono : forall k cx ck, nth_error (ss_dpc ss) k = Some (cx, ck) -> p < cx_period cx ->
                nth_error ev k = nth_error ev' k).
      { intros k cx ck Hk Hlt. symmetry. apply Ot. rewrite Keys. intros Hin.
        apply In_keys_of_period in Hin. destruct Hin as [cx' [ck' [Hk' Pk]]]. rewrite Hk in Hk'.
        injection Hk' as <- <-. lia. }
      intros k r s d ctx arr v L Dc Hs Hk Hr.
      destruct (located_facts _ _ _ _ _ _ _ _ _ CF F L) as
            [ctx2 [cx2 [ck2 [inds2 [i2 [Dc2 [Hk2 [Ecx2 _]]]]]]]].
      destruct (in_dec Nat.eq_dec k (dense_keys_from_period ss p)) as [Hin|Hin].
      + assert (Hin' := Hin). rewrite <- Keys in Hin'. apply in_map_iff in Hin'.
        destruct Hin' as [[k0 arr0] [E0 Hv]]. cbn [fst] in E0. subst k0.
        rewrite (Wr k arr0 Hv) in Hk. injection Hk as <-.
        destruct (KO k arr0 Hv) as [_ [_ [_ LV]]].
        destruct (LV r s d ctx v L Dc Hr) as [next [SV R0]]. exists next. split; [|exact R0].
        eapply (successor_values_mono _ _ _ _ _ CF CR); [exact Mono|exact Hs|exact SV].
      + assert (Hp' : cs_period s <> p).
        { intros E. apply Hin. apply In_keys_of_period. exists cx2, ck2. split; [exact Hk2|]. subst cx2. exact E. }
        rewrite Ot in Hk by (rewrite Keys; exact Hin).
        destruct (I1 k r s d ctx arr v L Dc ltac:(lia) Hk Hr) as [next [SV R0]]. exists next. split; [|exact R0].
        eapply (successor_values_mono _ _ _ _ _ CF CR); [exact Mono|exact Hs|exact SV].
  Qed.

  Lemma fixed_end : forall ev, ev_shape ss ev -> fixed_inv 0 ev ->
    forall k r s d ctx, located ss k r s d -> dense_combination grid d ctx ->
      exists v next, value_at ss ev s d v /\ successor_values nperiods ss ev (csf ctx s) s d next /\
        if nth r (masks k) false then v = simulated_value (model_problem csf inp ctx) (p_delta (in_params inp)) s next
        else above_mean_values inp ctx (csf ctx s) s next v.
  Proof.
    intros ev SH' C1 k r s d ctx L Dc.
    assert (Hc : In s core) by (destruct (located_describes _ _ _ _ _ _ _ _ _ CF CR L) as [ctx9 [_ [Hc _]]]; exact Hc).
    destruct (value_at_exists _ _ _ _ _ _ ev s d ctx CF F SH' Hc Dc) as [v Hv].
    assert (Hv' := Hv). destruct Hv' as [k' [r' [arr [L' [H1 H2]]]]].
    destruct (located_unique _ _ _ _ _ _ _ _ _ _ _ ND CF F L L') as [<- <-].
    destruct (C1 k r s d ctx arr v L Dc ltac:(lia) H1 H2) as [next [SV R0]].
    exists v, next. auto.
  Qed.

  Lemma fixed_start : forall ev, fixed_inv nperiods ev.
  Proof.
    intros ev k r s d ctx arr v L Dc Hs. exfalso.
    destruct (located_describes _ _ _ _ _ _ _ _ _ CF CR L) as [ctx9 [_ [Hc _]]].
    specialize (INP s Hc). lia.
  Qed.
End FixedMasks.
