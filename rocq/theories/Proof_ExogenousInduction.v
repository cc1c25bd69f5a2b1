(** Backward induction with exogenous processes. *)
From Coq Require Import List Arith Bool Reals Lra Lia.
From Verif Require Import Base Proof_Base Model_CoreStateSpace Proof_CoreStateSpace
  Model_StateSpace Spec_StateSpace Proof_StateSpace Model_Solve Spec_Solve Proof_Solve
  Model_Simulate Proof_SimulateProps Model_Exogenous Spec_Exogenous Proof_Exogenous Proof_ExogenousSolve.
Import ListNotations.
Open Scope R_scope.

Lemma emax_flows : forall csf inp ctx s n (conts : list R), wf_inputs n csf inp ->
  length conts = length (positions (csf ctx s)) ->
  emax (map (wage_of (in_params inp) (in_cov inp ctx s)) (positions (csf ctx s)))
       (map (nonpec_of (in_params inp) (in_cov inp ctx s)) (positions (csf ctx s)))
       conts
       (transform_draws (in_base inp (count_true (csf ctx s)) (cs_period s)) (csf ctx s) (in_params inp))
       (p_delta (in_params inp)) =
  mean (map (fun u => max0 (map (fun p => fst p + p_delta (in_params inp) * snd p) (combine u conts)))
            (pb_flows (model_problem csf inp ctx) s)).
Proof.
  intros csf inp ctx s n conts WI L.
  assert (Hd : forall e, In e (transform_draws (in_base inp (count_true (csf ctx s)) (cs_period s))
                  (csf ctx s) (in_params inp)) -> length e = length (positions (csf ctx s))).
  { intros e He. rewrite length_positions. destruct WI as [_ [W2 W3]].
    eapply length_transform_row; [|exact He]. rewrite W2. auto. }
  rewrite emax_spec by (rewrite ?map_length; auto).
  cbn [model_problem pb_flows]. rewrite map_map. f_equal. apply map_ext_in. intros e He.
  f_equal. specialize (Hd e He). revert L Hd. clear. revert e conts.
  induction (positions (csf ctx s)) as [|c l IH]; intros [|x e] [|v conts] L1 L2; simpl in *; try lia; [reflexivity|].
  f_equal. apply IH; lia.
Qed.

Section Induction.
  Variables (nchoices nperiods : nat) (core : list core_state) (csf : cs_fun)
    (grid : list (list nat)) (sx : state_space) (procs : processes) (inp : inputs).
  Hypothesis ND : NoDup core.
  Hypothesis CL : closed_under_choices nperiods core csf.
  Hypothesis CF : collision_free core csf grid.
  Hypothesis WI : wf_inputs nchoices csf inp.
  Hypothesis INP : forall s, In s core -> (cs_period s < nperiods)%nat.
  Hypothesis LAY : exogenous_layout grid (levels_of procs).
  Hypothesis PN : procs <> [].
  Hypothesis PL : Forall (fun p => p <> []) procs.
  Hypothesis GN : grid <> [].
  Hypothesis CX : create_state_space_exog nperiods core csf grid (levels_of procs) = Ok sx.
  Hypothesis NI0 : forall p, solved_exactly sx (in_points inp) p.
  Let NI : forall p, any_interpolated sx (in_points inp) p = false :=
    fun p => proj2 (any_interpolated_false sx (in_points inp) p) (NI0 p).
  Hypothesis Dnz : p_delta (in_params inp) <> 0.

  Definition VX (vec : list nat) (s : core_state) : R :=
    expected_value csf inp procs (nperiods - cs_period s) vec s.

  Definition correct_x (p : nat) (ev : list (list R)) : Prop :=
    forall s d vec v, nth_error grid d = Some vec -> (p <= cs_period s)%nat ->
      value_at sx ev s (Some d) v -> v = VX vec s.

  Lemma last_values : forall ss ev k cx ck inds p, create_state_space nperiods core csf grid = Ok ss ->
    sx = with_transit ss (ss_transit sx) (ss_child sx) -> S p = nperiods ->
    nth_error (ss_transit sx) k <> None -> nth_error (ss_child sx) k <> None ->
    nth_error (ss_dpc ss) k = Some (cx, ck) -> dense_key_to_core_indices ss k = Some inds ->
    get_weighted_continuation_values sx procs inp ev p k =
      Ok (map (fun _ => repeat 0 (count_true (cx_choice_set cx))) inds).
  Proof.
    intros ss ev k cx ck inds p CR EX HP T1 T2 Hk Hi.
    assert (F := create_state_space_facts _ _ _ _ _ CR).
    assert (NP : ss_nperiods sx = nperiods) by (rewrite EX; apply (sf_nperiods _ _ _ _ _ F)).
    assert (DP : ss_dpc sx = ss_dpc ss) by (rewrite EX; reflexivity).
    assert (DI : dense_key_to_core_indices sx k = Some inds) by (rewrite EX; exact Hi).
    unfold get_weighted_continuation_values, get_continuation_values. rewrite NP, DP, Hk, DI.
    replace (Nat.eqb p (nperiods - 1)) with true by (symmetry; apply Nat.eqb_eq; lia).
    destruct (nth_error (ss_transit sx) k); [|congruence].
    destruct (nth_error (ss_child sx) k); [|congruence]. reflexivity.
  Qed.

  Lemma step_x : forall p ev, (p < nperiods)%nat -> ev_shape sx ev -> correct_x (S p) ev ->
    exists ev', solve_period_exog sx procs inp p ev = Ok ev' /\ ev_shape sx ev' /\ correct_x p ev'.
  Proof.
    intros p ev Hp SH C.
    destruct (create_exog_facts _ _ _ _ _ _ ND CL CF CX) as [ss [transits [CR [EX [TR [TCS CH]]]]]].
    pose proof (create_state_space_facts _ _ _ _ _ CR) as F.
    assert (LEN : forall ctx s, length (csf ctx s) = nchoices) by apply WI.
    assert (DP : ss_dpc sx = ss_dpc ss) by (rewrite EX; reflexivity).
    assert (SHs : ev_shape ss ev) by (rewrite EX in SH; exact SH).
    assert (LOC : forall k r s d, located sx k r s d <-> located ss k r s d)
      by (intros; rewrite EX; apply sx_located).
    assert (IND : forall k, dense_key_to_core_indices sx k = dense_key_to_core_indices ss k)
      by (intros; rewrite EX; reflexivity).
    assert (RW : forall k, rewards_of sx inp k = rewards_of ss inp k) by (intros; rewrite EX; reflexivity).
    assert (DR : forall k, draws_of sx inp k = draws_of ss inp k) by (intros; rewrite EX; reflexivity).
    assert (VA : forall ev s d v, value_at sx ev s d v <-> value_at ss ev s d v)
      by (intros; rewrite EX; apply sx_value_at).
    assert (DSOME : forall d ctx, dense_combination grid d ctx -> exists d' vec, d = Some d' /\ ctx = Some vec /\ nth_error grid d' = Some vec).
    { intros [d|] ctx Dc; simpl in Dc; [destruct Dc as [vec [G ->]]; eauto|destruct Dc; contradiction]. }
    unfold solve_period_exog, period_values_exog.
    destruct (Req_EM_T (p_delta (in_params inp)) 0) as [Z|_]; [contradiction|]. rewrite NI.
    set (delta := p_delta (in_params inp)) in *.
    set (f := fun k => result_bind (rewards_of sx inp k) (fun wn =>
         result_bind (get_weighted_continuation_values sx procs inp ev p k) (fun conts =>
         result_bind (calculate_expected_value_functions (fst wn) (snd wn) conts
                        (draws_of sx inp k) delta) (fun arr => Ok (k, arr))))).
    assert (Hkey : forall k, In k (dense_keys_from_period sx p) ->
       exists arr inds, f k = Ok (k, arr) /\ dense_key_to_core_indices sx k = Some inds /\
         length arr = length inds /\
         forall r s d vec, located sx k r s (Some d) -> nth_error grid d = Some vec ->
           nth_error arr r = Some (VX vec s)).
    { intros k Hk. apply In_keys_of_period in Hk. destruct Hk as [cx [ck [Hk Pk]]]. rewrite DP in Hk.
      destruct (keys_inhabited _ _ _ _ _ k CF CR (nth_error_lt _ _ _ _ Hk)) as [inds [Hinds [Ne Loc]]].
      assert (H0 : (0 < length inds)%nat) by (destruct inds; [congruence|simpl; lia]).
      destruct (Loc 0%nat H0) as [s0 [d0 L0]].
      destruct (located_facts _ _ _ _ _ _ _ _ _ CF F L0) as
        [ctx0 [cx' [ck' [inds' [i [Dc [Hk' [Ecx _]]]]]]]].
      rewrite Hk in Hk'. injection Hk' as <- <-.
      destruct (rewards_row nchoices nperiods core csf grid ss inp CF CR WI _ _ _ _ _ L0 Dc) as [wn [inds2 [Ew [Ei [Lw [Ln _]]]]]].
      rewrite Hinds in Ei. injection Ei as <-.
      (* continuation values *)
      assert (Cont : exists M, get_weighted_continuation_values sx procs inp ev p k = Ok M /\
        length M = length inds /\ forall r s d vec, located ss k r s (Some d) -> nth_error grid d = Some vec ->
          exists row, nth_error M r = Some row /\
            row = map (fun c => rsum (map (fun e => joint procs (in_cov inp (Some vec) s) e *
                   expected_value csf inp procs (nperiods - S p) (static_part (length procs) vec ++ e)
                     (law_of_motion c s)) (combinations (levels_of procs)))) (positions (csf (Some vec) s))).
      { destruct (Nat.eq_dec (S p) nperiods) as [EP|EP].
        - destruct (rep_spec nchoices nperiods core csf grid ss (levels_of procs) transits (ss_transit sx)
                     ND CF CR LEN LAY GN TR TCS _ _ _ Hk) as [rep [Hrep _]].
          destruct (Forall2_nth_l _ _ _ _ _ _ _ CH (nth_error_combine' _ _ _ _ _ _ _ Hk Hrep)) as [ch [Hch _]].
          rewrite (last_values ss ev k cx ck inds p CR EX EP ltac:(congruence) ltac:(congruence) Hk Hinds).
          eexists. split; [reflexivity|]. split; [apply map_length|]. intros r s d vec L G.
          destruct (located_facts _ _ _ _ _ _ _ _ _ CF F L) as
            [ctx2 [cx2 [ck2 [inds2 [i2 [Dc2 [Hk2 [Ecx2 [Gi2 [Hr2 _]]]]]]]]]].
          rewrite Hk in Hk2. injection Hk2 as <- <-.
          assert (inds2 = inds).
          { unfold dense_key_to_core_indices, dense_key_to_core_key in Hinds. rewrite nth_error_map, Hk in Hinds.
            simpl in Hinds. congruence. }
          subst inds2.
          assert (ctx2 = Some vec) by (eapply dense_combination_fun; eauto; exists vec; auto). subst ctx2.
          exists (repeat 0 (count_true (cx_choice_set cx))). split; [rewrite nth_error_map, Hr2; reflexivity|].
          replace (nperiods - S p)%nat with 0%nat by lia. simpl.
          assert (X : forall l : list nat, map (fun _ : nat => rsum (map (fun e => joint procs (in_cov inp (Some vec) s) e * 0)
                   (combinations (levels_of procs)))) l = repeat 0 (length l)).
          { clear. assert (Z : rsum (map (fun e => joint procs (in_cov inp (Some vec) s) e * 0)
                   (combinations (levels_of procs))) = 0).
            { induction (combinations (levels_of procs)); simpl; [reflexivity|]. rewrite IHl. lra. }
            induction l as [|c l IH]; simpl; [reflexivity|]. f_equal; [exact Z|exact IH]. }
          rewrite X, length_positions. rewrite Ecx2. reflexivity.
        - destruct (weighted_values_spec nchoices nperiods core csf grid ss procs inp transits (ss_transit sx) (ss_child sx)
                     ND CL CF CR WI LAY PN GN TR TCS CH ev p k cx ck inds SHs ltac:(lia) Hk Pk Hinds)
            as [M [EM [LM HM]]].
          rewrite <- EX in EM. exists M. split; [exact EM|]. split; [exact LM|].
          intros r s d vec L G. destruct (HM r s d vec L G) as [row [Hrow V]].
          exists row. split; [exact Hrow|].
          destruct (located_facts _ _ _ _ _ _ _ _ _ CF F L) as
            [ctx2 [cx2 [ck2 [inds2 [i2 [Dc2 [Hk2 [Ecx2 _]]]]]]]].
          rewrite Hk in Hk2. injection Hk2 as <- <-.
          assert (Ps : cs_period s = p) by (rewrite Ecx2 in Pk; exact Pk).
          clear Hrow. clear M EM LM HM. induction V as [|c w l row' [vals [VV ->]] _ IH]; [reflexivity|]. simpl. f_equal.
          + f_equal. clear - VV C VA Ps F. unfold levels_of in *.
            induction VV as [|e v es vals [d' [Gd Hv]] _ IH]; simpl; [reflexivity|]. f_equal; [|apply IH]. f_equal.
            rewrite (sf_grid _ _ _ _ _ F) in Gd. apply VA in Hv.
            assert (Hle : (S p <= cs_period (law_of_motion c s))%nat) by (rewrite law_period; lia).
            rewrite (C _ _ _ _ Gd Hle Hv). unfold VX. rewrite law_period, Ps. reflexivity.
          + exact IH. }
      destruct Cont as [M [EM [LM HM]]].
      exists (map (fun t => emax (fst t) (fst (snd t)) (snd (snd t)) (draws_of sx inp k) delta)
               (combine (fst wn) (combine (snd wn) M))), inds.
      split; [|split; [rewrite IND; exact Hinds|split]].
      - unfold f. rewrite RW, Ew. simpl. rewrite EM. simpl. unfold calculate_expected_value_functions.
        rewrite Lw, Ln, LM, Nat.eqb_refl. reflexivity.
      - rewrite map_length, !combine_length. lia.
      - intros r s d vec L G. apply LOC in L.
        assert (Dv : dense_combination grid (Some d) (Some vec)) by (exists vec; auto).
        destruct (rewards_row nchoices nperiods core csf grid ss inp CF CR WI _ _ _ _ _ L Dv) as [wn' [inds9 [Ew' [_ [_ [_ [R1 R2]]]]]]].
        rewrite Ew in Ew'. injection Ew' as <-.
        destruct (HM r s d vec L G) as [row [Hrow Erow]].
        rewrite nth_error_map, !nth_error_combine, R1, R2, Hrow. simpl. f_equal.
        destruct (located_facts _ _ _ _ _ _ _ _ _ CF F L) as
            [ctx2 [cx2 [ck2 [inds2 [i2 [Dc2 [Hk2 [Ecx2 _]]]]]]]].
        assert (ctx2 = Some vec) by (eapply dense_combination_fun; eauto). subst ctx2.
        rewrite DR. unfold draws_of, dense_key_to_complex. rewrite nth_error_map, Hk2. simpl.
        subst cx2. unfold cx_choice_set, cx_period. simpl.
        assert (Ps : cs_period s = p).
        { rewrite Hk in Hk2. injection Hk2 as E2 _. rewrite E2 in Pk. exact Pk. }
        unfold VX. replace (nperiods - cs_period s)%nat with (S (nperiods - S p)) by lia.
        rewrite (emax_flows csf inp (Some vec) s nchoices) by (subst row; rewrite ?map_length; auto).
        cbn [expected_value]. f_equal. apply map_ext. intros u. f_equal. subst row.
        cbn [model_problem pb_moves]. clear.
        revert u. induction (positions (csf (Some vec) s)) as [|c l IH]; intros [|x u]; simpl; try reflexivity.
        f_equal. apply IH. }
    set (keys := dense_keys_from_period sx p) in *.
    destruct (result_all_Ok_exists _ _ f keys) as [vals Hvals].
    { intros k Hk. destruct (Hkey k Hk) as [arr [inds [E _]]]. eauto. }
    change (exists ev' : list (list R),
      result_bind (result_all (map f keys)) (fun vals => fold_result (fun p ev => set_ev ev (fst p) (snd p)) vals ev)
      = Ok ev' /\ ev_shape sx ev' /\ correct_x p ev').
    rewrite Hvals. cbn [result_bind]. apply result_all_map_Ok in Hvals.
    assert (Keys : map fst vals = keys).
    { clear - Hvals Hkey. induction Hvals as [|k [k' arr] l l' H _ IH]; simpl; [reflexivity|].
      f_equal.
      - destruct (Hkey k (or_introl eq_refl)) as [a [i [E _]]]. rewrite H in E. congruence.
      - apply IH. intros; apply Hkey; right; auto. }
    assert (HV : forall k arr, In (k, arr) vals -> In k keys /\ f k = Ok (k, arr)).
    { intros k arr Hin. apply In_nth_error in Hin. destruct Hin as [n Hn].
      assert (Hk : nth_error keys n = Some k) by (rewrite <- Keys, nth_error_map, Hn; reflexivity).
      destruct (Forall2_nth_l _ _ _ _ _ _ _ Hvals Hk) as [x [Hx Fx]].
      rewrite Hn in Hx. injection Hx as <-. split; [eapply nth_error_In; eauto|exact Fx]. }
    destruct (set_all sx vals ev SH) as [ev' [EF [SH' [Wr Ot]]]].
    - rewrite Keys. apply NoDup_keys_of_period.
    - intros k arr Hin. destruct (HV k arr Hin) as [Hk Fk].
      destruct (Hkey k Hk) as [arr' [inds [Fk' [Hi [La _]]]]]. rewrite Fk in Fk'. injection Fk' as <-.
      exists inds. split; [exact Hi|]. split; [exact La|].
      apply In_keys_of_period in Hk. destruct Hk as [cx [ck [Hk _]]]. destruct SH as [SH1 _].
      rewrite SH1. eapply nth_error_lt; eauto.
    - exists ev'. split; [exact EF|]. split; [exact SH'|].
      intros s d vec v G Hps Va.
      destruct (Nat.eq_dec (cs_period s) p) as [E|E].
      + destruct Va as [k [r [arr [L [Hk Hr]]]]].
        assert (Hin : In k keys).
        { apply LOC in L. destruct (located_facts _ _ _ _ _ _ _ _ _ CF F L) as
            [ctx2 [cx2 [ck2 [inds2 [i2 [Dc2 [Hk2 [Ecx2 _]]]]]]]].
          apply In_keys_of_period. rewrite DP. exists cx2, ck2. split; [exact Hk2|]. subst cx2. exact E. }
        destruct (Hkey k Hin) as [arr' [inds [Fk [_ [_ Val]]]]].
        destruct (Forall2_In_l _ _ _ _ _ _ Hvals Hin) as [[k2 a2] [Fk2 Hc]].
        rewrite Fk in Fk2. injection Fk2 as <- <-.
        apply in_combine_r in Hc. rewrite (Wr _ _ Hc) in Hk. injection Hk as <-.
        rewrite (Val r s d vec L G) in Hr. congruence.
      + apply (C s d vec v G ltac:(lia)).
        destruct Va as [k [r [arr [L [Hk Hr]]]]]. exists k, r, arr. split; [exact L|].
        split; [|exact Hr]. rewrite <- Ot; [exact Hk|]. rewrite Keys. intro Hin.
        apply In_keys_of_period in Hin. destruct Hin as [cx [ck [Hk1 Pk]]]. rewrite DP in Hk1. apply LOC in L.
        destruct (located_facts _ _ _ _ _ _ _ _ _ CF F L) as
            [ctx2 [cx2 [ck2 [inds2 [i2 [Dc2 [Hk2 [Ecx2 _]]]]]]]].
        rewrite Hk1 in Hk2. injection Hk2 as <- <-. subst cx. apply E. exact Pk.
  Qed.

  Lemma loop_x : forall n ev, (n <= nperiods)%nat -> ev_shape sx ev -> correct_x n ev ->
    exists ev', fold_result (solve_period_exog sx procs inp) (rev (seq 0 n)) ev = Ok ev' /\
                ev_shape sx ev' /\ correct_x 0 ev'.
  Proof.
    induction n as [|n IH]; intros ev Hn SH C.
    - exists ev. simpl. auto.
    - rewrite seq_S. simpl. rewrite rev_unit. simpl.
      destruct (step_x n ev ltac:(lia) SH C) as [ev1 [E1 [SH1 C1]]]. rewrite E1. simpl.
      apply IH; auto. lia.
  Qed.

  Theorem solve_exog_spec : forall ev0, ev_shape sx ev0 ->
    exists ev, solve_exog sx procs inp ev0 = Ok ev /\ ev_shape sx ev /\
      forall s vec, In s core -> In vec grid -> forall v, value_in sx ev vec s v <-> v = VX vec s.
  Proof.
    intros ev0 SH. unfold solve_exog.
    destruct (create_exog_facts _ _ _ _ _ _ ND CL CF CX) as [ss [transits [CR [EX [TR [TCS CH]]]]]].
    pose proof (create_state_space_facts _ _ _ _ _ CR) as F.
    assert (LOC : forall k r s d, located sx k r s d <-> located ss k r s d)
      by (intros; rewrite EX; apply sx_located).
    assert (NP : ss_nperiods sx = nperiods) by (rewrite EX; apply (sf_nperiods _ _ _ _ _ F)).
    assert (GR : ss_grid sx = grid) by (rewrite EX; apply (sf_grid _ _ _ _ _ F)).
    rewrite NP. destruct (loop_x nperiods ev0 (le_n _) SH) as [ev [E [SH' C]]].
    - intros s d vec v G Hp [k [r [arr [L _]]]]. exfalso. apply LOC in L.
      destruct (located_describes _ _ _ _ _ _ _ _ _ CF CR L) as [ctx [_ [Hc _]]].
      specialize (INP s Hc). lia.
    - exists ev. split; [exact E|]. split; [exact SH'|]. intros s vec Hs Hv v.
      assert (EXV : exists d v', nth_error grid d = Some vec /\ value_at sx ev s (Some d) v').
      { apply In_nth_error in Hv. destruct Hv as [d G]. 
        assert (Dc : dense_combination grid (Some d) (Some vec)) by (exists vec; auto).
        assert (SHs : ev_shape ss ev) by (rewrite EX in SH'; exact SH').
        destruct (value_at_exists _ _ _ _ _ _ ev s _ _ CF F SHs Hs Dc) as [v' Hv'].
        exists d, v'. split; [exact G|]. rewrite EX. apply sx_value_at. exact Hv'. }
      unfold value_in. rewrite GR. split.
      + intros [d [G Va]]. apply (C s d vec v G ltac:(lia) Va).
      + intros ->. destruct EXV as [d [v' [G Va]]]. exists d. split; [exact G|].
        rewrite <- (C s d vec v' G ltac:(lia) Va). exact Va.
  Qed.
End Induction.
