(** The panel of a model with exogenous processes. *)
From Coq Require Import List Arith Bool Reals Lia Lra.
From Verif Require Import Base Proof_Base Model_CoreStateSpace Spec_CoreStateSpace Model_StateSpace
  Spec_StateSpace Proof_CoreStateSpace Proof_StateSpace Model_Solve Spec_Solve Proof_Solve
  Proof_Shocks Proof_SolveProps Model_Parallel Spec_Parallel Proof_Parallel Model_Simulate Spec_Simulate
  Proof_Simulate Proof_Panel Proof_PanelModel Proof_SimulateProps Model_Exogenous Spec_Exogenous Proof_Exogenous
  Proof_ExogenousSolve Proof_ExogenousInduction Proof_ExogenousProps Model_SimulateExog Spec_SimulateExog.
Import ListNotations.
Open Scope nat_scope.

(** ** np.random.choice *)
Lemma first_below_interval : forall probs u, probs <> [] -> (forall p, In p probs -> (0 <= p)%R) ->
  rsum probs = 1%R -> (0 <= u < 1)%R ->
  exists i, first_below u 0 (cumsum 0 probs) = Some i /\ drawn_interval probs i u.
Proof.
  intros probs u Hne Hp Hs Hu.
  assert (Hn : 0 < length probs) by (destruct probs; [contradiction|simpl; lia]).
  assert (Hnth : forall i, i < length probs -> nth_error (cumsum 0 probs) i = Some (rsum (firstn (S i) probs))).
  { intros i Hi. rewrite cumsum_nth by exact Hi. f_equal. lra. }
  assert (Hlast : rsum (firstn (S (length probs - 1)) probs) = 1%R).
  { replace (S (length probs - 1)) with (length probs) by lia. rewrite firstn_all. exact Hs. }
  destruct (first_below u 0 (cumsum 0 probs)) as [i|] eqn:E.
  - exists i. split; [reflexivity|]. apply first_below_spec in E. rewrite Nat.sub_0_r in E.
    destruct E as [_ [x [H1 [H2 H3]]]].
    assert (Hi : i < length probs).
    { rewrite <- (cumsum_length probs 0%R). apply nth_error_Some. congruence. }
    rewrite Hnth in H1 by exact Hi.
    match type of H1 with Some ?a = Some x => assert (Ex : a = x) by congruence end. rewrite <- Ex in H2. clear Ex H1.
    split; [exact Hi|]. split.
    + destruct i as [|i]; [unfold rsum; simpl; lra|]. apply (H3 i); [lia|]. apply Hnth. lia.
    + destruct (Nat.eqb_spec (S i) (length probs)) as [Ei|Ei]; [lra|exact H2].
  - exfalso. assert (G : forall l i, first_below u i l = None -> forall x, In x l -> (x <= u)%R).
    { clear. induction l as [|a l IH]; intros i H x Hx; [contradiction|]. simpl in H.
      destruct (Rlt_dec u a) as [L|L]; [discriminate|]. destruct Hx as [<-|Hx]; [lra|exact (IH _ H x Hx)]. }
    assert (I1 : In 1%R (cumsum 0 probs)).
    { apply nth_error_In with (n := length probs - 1). rewrite Hnth by lia. rewrite Hlast. reflexivity. }
    specialize (G _ _ E _ I1). lra.
Qed.

Lemma numpy_choice_spec : forall values probs u, length values = length probs -> probs <> [] ->
  (forall p, In p probs -> (0 <= p)%R) -> rsum probs = 1%R -> (0 <= u < 1)%R ->
  exists i v, numpy_choice values probs u = Some v /\ nth_error values i = Some v /\ drawn_interval probs i u.
Proof.
  intros values probs u L Hne Hp Hs Hu.
  destruct (first_below_interval probs u Hne Hp Hs Hu) as [i [E D]].
  assert (Hn : 0 < length probs) by (destruct probs; [contradiction|simpl; lia]).
  assert (Hlast : last (cumsum 0 probs) 0%R = 1%R).
  { assert (Hc : cumsum 0 probs <> []).
    { intros Z. apply (f_equal (@length R)) in Z. rewrite cumsum_length in Z. simpl in Z. lia. }
    pose proof (last_nth _ (cumsum 0 probs) 0%R Hc) as La. rewrite cumsum_length, cumsum_nth in La by lia.
    replace (S (length probs - 1)) with (length probs) in La by lia. rewrite firstn_all, Hs in La.
    rewrite Rplus_0_l in La. congruence. }
  assert (Ec : map (fun c => (c / last (cumsum 0 probs) 0)%R) (cumsum 0 probs) = cumsum 0 probs).
  { rewrite Hlast. rewrite <- (map_id (cumsum 0 probs)) at 2. apply map_ext. intros c. field. }
  destruct (nth_error values i) as [v|] eqn:Ev.
  - exists i, v. split; [|split; [exact Ev|exact D]].
    unfold numpy_choice. cbv zeta. rewrite Ec, E. exact Ev.
  - exfalso. apply nth_error_None in Ev. destruct D as [D _]. lia.
Qed.

Section Exog.
  Variables (sp : core_spec) (neg : neg_set) (kp : nat) (grid : list (list nat)) (procs : processes)
    (sx : state_space) (inp : inputs) (ev : list (list R)).
  Hypothesis EM : exogenous_model sp neg kp grid procs sx inp.
  Hypothesis SHX : ev_shape sx ev.
  Let core := create_core_state_space sp.
  Let csf := choice_set_of sp (process sp (S kp) neg).
  Let np := sp_nperiods sp.
  Let nch := sp_nchoices sp.
  Let CF : collision_free core csf grid := em_collisions _ _ _ _ _ _ _ EM.
  Let ND : NoDup core := core_nodup sp.
  Let CL : closed_under_choices np core csf := em_closed _ _ _ _ _ _ _ EM.
  Let CX : create_state_space_exog np core csf grid (levels_of procs) = Ok sx := em_created _ _ _ _ _ _ _ EM.
  Let NG : NoDup grid := em_grid _ _ _ _ _ _ _ EM.
  Let PN : procs <> [] := em_procs _ _ _ _ _ _ _ EM.
  Let LAYGN : grid <> [] /\ exogenous_layout grid (levels_of procs) :=
    layout_needed _ _ _ _ _ _ ND CL CF NG (em_inhabited _ _ _ _ _ _ _ EM) CX.
  Let env := environment_exog sx procs inp ev.

  Lemma LENx : forall ctx s, length (csf ctx s) = nch.
  Proof. intros ctx s. unfold csf, choice_set_of. rewrite map_length, seq_length. reflexivity. Qed.

  Lemma context_some : forall x, context grid x = Some (i_dense x).
  Proof. intros x. destruct LAYGN as [GN _]. unfold context. destruct grid; [congruence|reflexivity]. Qed.

  Lemma in_model_dense : forall t x, in_model core grid t x -> In (i_dense x) grid.
  Proof. intros t x [_ [_ H]]. destruct LAYGN as [GN _]. destruct grid; [congruence|exact H]. Qed.

  Lemma WIx : wf_inputs nch csf inp.
  Proof.
    split; [apply EM|]. split; [intros; apply LENx|]. exact (proj1 (em_chol _ _ _ _ _ _ _ EM)).
  Qed.

  (** The plain state space with the same layout. *)
  Lemma plain : exists ss, standard_model sp neg kp grid ss inp /\ ev_shape ss ev /\
    sx = with_transit ss (ss_transit sx) (ss_child sx).
  Proof.
    destruct (create_exog_facts _ _ _ _ _ _ ND CL CF CX) as [ss [transits [CR [EX [TR [TCS CH]]]]]].
    exists ss. split; [|split; [pose proof SHX as SH'; rewrite EX in SH'; exact SH'|exact EX]].
    pose proof EM as [W L Fi NE _ _ _ _ IC LC NI]. constructor; auto.
    intros p. specialize (NI p). rewrite EX in NI. exact NI.
  Qed.

  (** Continuation values for the states of a period. *)
  Lemma conts_spec : forall t k r s d vec, located sx k r s (Some d) -> nth_error grid d = Some vec ->
    cs_period s = t -> t < np ->
    exists M row, get_weighted_continuation_values sx procs inp ev t k = Ok M /\ nth_error M r = Some row /\
      length row = count_true (csf (Some vec) s) /\
      forall j c, nth_error (positions (csf (Some vec) s)) j = Some c ->
        (S t = np -> nth j row 0%R = 0%R) /\
        (S t < np -> expected_stored sx ev procs (in_cov inp (Some vec) s) vec (law_of_motion c s) (nth j row 0%R)).
  Proof.
    intros t k r s d vec L G Hs Ht.
    destruct (Nat.eq_dec (S t) np) as [E|E].
    - destruct (create_exog_facts _ _ _ _ _ _ ND CL CF CX) as [ss [transits [CR [EX [TR [TCS CH]]]]]].
      pose proof (create_state_space_facts _ _ _ _ _ CR) as F.
      destruct LAYGN as [GN LAY].
      assert (L' : located ss k r s (Some d)) by (rewrite EX in L; exact L).
      destruct (located_facts _ _ _ _ _ _ _ _ _ CF F L') as
        [ctx [cx [ck [inds [i [Dc [Hk [Ecx [Gi [Hr Hi]]]]]]]]]].
      assert (ctx = Some vec) by (eapply dense_combination_fun; eauto; exists vec; auto). subst ctx.
      assert (Hinds : dense_key_to_core_indices ss k = Some inds).
      { unfold dense_key_to_core_indices, dense_key_to_core_key. rewrite nth_error_map, Hk. exact Gi. }
      destruct (rep_spec nch np core csf grid ss (levels_of procs) transits (ss_transit sx)
                 ND CF CR LENx LAY GN TR TCS _ _ _ Hk) as [rep [Hrep _]].
      destruct (Forall2_nth_l _ _ _ _ _ _ _ CH (nth_error_combine' _ _ _ _ _ _ _ Hk Hrep)) as [ch [Hch _]].
      rewrite (last_values np core csf grid sx procs inp ss ev k cx ck inds t CR EX E ltac:(congruence) ltac:(congruence) Hk Hinds).
      exists (map (fun _ => repeat 0%R (count_true (cx_choice_set cx))) inds), (repeat 0%R (count_true (cx_choice_set cx))).
      split; [reflexivity|]. split; [rewrite nth_error_map, Hr; reflexivity|].
      split; [rewrite repeat_length; subst cx; reflexivity|]. intros j c Hj. split; [|lia].
      intros _. apply nth_repeat.
    - destruct (weighted_values nch np core csf grid procs sx inp ev k r s vec d ND CL CF NG PN WIx CX SHX L G ltac:(lia))
        as [M [row [E1 [E2 [E3 E4]]]]].
      exists M, row. rewrite Hs in E1. split; [exact E1|]. split; [exact E2|]. split; [exact E3|].
      intros j c Hj. split; [lia|]. intros _. destruct (E4 j c Hj) as [vals [V1 V2]].
      exists vals. split; [exact V1|]. apply nth_error_nth. exact V2.
  Qed.

  Lemma located_model : forall t x, in_model core grid t x ->
    exists d k r, nth_error grid d = Some (i_dense x) /\ located sx k r (i_core x) (Some d) /\
      locate sx (i_core x) (i_dense x) = Ok (k, r).
  Proof.
    intros t x IM. destruct plain as [ss [SM [SH EX]]].
    destruct (locate_spec sp neg kp grid ss inp SM t x IM) as [d [k [r [Dc [L E]]]]].
    rewrite context_some in Dc. destruct d as [d|]; [|destruct Dc; discriminate].
    destruct Dc as [vec [G Ev]]. injection Ev as <-. exists d, k, r. split; [exact G|].
    rewrite EX. split; [exact L|exact E].
  Qed.

  Lemma key_first_x : forall t k, In k (dense_keys_from_period sx t) ->
    exists s d vec, located sx k 0 s (Some d) /\ nth_error grid d = Some vec /\ cs_period s = t /\ In s core.
  Proof.
    intros t k Hk. destruct plain as [ss [SM [SH EX]]]. rewrite EX in Hk.
    destruct (key_first sp neg kp grid ss inp SM t k Hk) as [s [d [ctx [L [Dc [P Hs]]]]]].
    destruct d as [d|]; [|destruct Dc as [Z _]; destruct LAYGN; contradiction].
    destruct Dc as [vec [G _]]. exists s, d, vec. rewrite EX. auto.
  Qed.

  Lemma attribute_x : forall A (f : nat -> result A) t,
    (forall k, In k (dense_keys_from_period sx t) -> exists x, f k = Ok x) ->
    exists d, attribute_from_period sx f t = Ok d /\ NoDup (map fst d) /\
      forall k x, In k (dense_keys_from_period sx t) -> f k = Ok x -> In (k, x) d.
  Proof.
    intros A f t. destruct plain as [ss [SM [SH EX]]]. rewrite EX. exact (attribute_spec ss A f t).
  Qed.

  Lemma conts_exist : forall t k, t < np -> In k (dense_keys_from_period sx t) ->
    exists M, get_weighted_continuation_values sx procs inp ev t k = Ok M.
  Proof.
    intros t k Ht Hk. destruct (key_first_x t k Hk) as [s [d [vec [L [G [P _]]]]]].
    destruct (conts_spec t k 0 s d vec L G P Ht) as [M [row [E _]]]. eauto.
  Qed.

  Lemma ready_x : forall t, t < np -> period_ready env t.
  Proof.
    intros t Ht. destruct plain as [ss [SM [SH EX]]].
    destruct (ready sp neg kp grid ss inp ev SM SH t Ht) as [R1 [R2 [R3 _]]].
    split; [|split; [|split]].
    - unfold env. rewrite EX. exact R1.
    - unfold env. rewrite EX. exact R2.
    - unfold env. rewrite EX. exact R3.
    - destruct (attribute_x _ (get_weighted_continuation_values sx procs inp ev t) t) as [d [E [N _]]].
      { intros k Hk. apply conts_exist; assumption. }
      exists d. split; [exact E|exact N].
  Qed.

  (** The entries for an individual. *)
  Definition cont_x (t : nat) (x : individual) (c : list R) : Prop :=
    forall j ch, nth_error (positions (csf (context grid x) (i_core x))) j = Some ch ->
      (S t = np -> nth j c 0%R = 0%R) /\
      (S t < np -> expected_stored sx ev procs (in_cov inp (Some (i_dense x)) (i_core x)) (i_dense x)
                     (law_of_motion ch (i_core x)) (nth j c 0%R)).

  Lemma found_x : forall t x, in_model core grid t x ->
    0 < count_true (csf (context grid x) (i_core x)) ->
    exists k i cx wm npm cm w npr c,
      found env nch t x k i cx wm npm cm w npr c /\
      cx_choice_set cx = csf (context grid x) (i_core x) /\
      w = map (wage_of (in_params inp) (in_cov inp (context grid x) (i_core x)))
              (positions (csf (context grid x) (i_core x))) /\
      npr = map (nonpec_of (in_params inp) (in_cov inp (context grid x) (i_core x)))
              (positions (csf (context grid x) (i_core x))) /\
      cont_x t x c.
  Proof.
    intros t x IM Pos. destruct plain as [ss [SM [SH EX]]].
    pose proof (in_model_period sp neg kp grid ss inp SM t x IM) as Ht.
    destruct (found_spec sp neg kp grid ss inp ev SM SH t x IM Pos) as (k&i&wm&npm&cm&w&npr&c&Fo&Ew&En&_).
    destruct (located_model t x IM) as [d [k' [r [G [L E]]]]].
    assert (Ek : k' = k /\ r = i).
    { pose proof (fo_locate _ _ _ _ _ _ _ _ _ _ _ _ _ Fo) as E'. rewrite EX in E.
      change (locate ss (i_core x) (i_dense x) = Ok (k', r)) in E.
      change (locate ss (i_core x) (i_dense x) = Ok (k, i)) in E'. rewrite E in E'. injection E' as -> ->. auto. }
    destruct Ek as [-> ->].
    destruct (conts_spec t k i (i_core x) d (i_dense x) L G (proj1 (proj2 IM)) Ht) as [M [row [EMx [Hrow [Lrow HC]]]]].
    assert (Hkey : In k (dense_keys_from_period sx t)).
    { pose proof L as [cx [ck [Hk _]]]. apply In_keys_of_period. exists cx, ck. split; [exact Hk|].
      pose proof (create_state_space_facts _ _ _ _ _ (sm_created _ _ _ _ _ _ SM)) as F.
      assert (L' : located ss k i (i_core x) (Some d)) by (rewrite EX in L; exact L).
      destruct (located_facts _ _ _ _ _ _ _ _ _ CF F L') as
        [ctx [cx' [ck' [inds [i' [Dc [Hk' [Ecx _]]]]]]]].
      assert (Hk2 : nth_error (ss_dpc ss) k = Some (cx, ck)) by (rewrite EX in Hk; exact Hk).
      rewrite Hk2 in Hk'. injection Hk' as <- <-. subst cx. exact (proj1 (proj2 IM)). }
    do 5 eexists. exists M. exists w, npr, row. split; [|split; [|split; [exact Ew|split; [exact En|]]]].
    - destruct Fo as [F1 F2 F3 F4 _ F6 F7 _ F9 F10 _ F12 F13]. constructor.
      + unfold env. rewrite EX. exact F1.
      + unfold env. rewrite EX. exact F2.
      + unfold env. rewrite EX. exact F3.
      + unfold env. rewrite EX. exact F4.
      + destruct (attribute_x _ (get_weighted_continuation_values sx procs inp ev t) t) as [dd [E1 [_ I]]].
        { intros k' Hk'. apply conts_exist; assumption. }
        exists dd. split; [exact E1|]. apply I; assumption.
      + exact F6.
      + exact F7.
      + exact Hrow.
      + exact F9.
      + exact F10.
      + rewrite Lrow. change (count_true (csf (Some (i_dense x)) (i_core x)) = count_true (csf (context grid x) (i_core x))).
        rewrite context_some. reflexivity.
      + exact F12.
      + exact F13.
    - reflexivity.
    - intros j ch Hj. rewrite context_some in Hj. exact (HC j ch Hj).
  Qed.

  Lemma found_complex_x : forall t x k i cx wm npm cm w npr c, in_model core grid t x ->
    0 < count_true (csf (context grid x) (i_core x)) ->
    found env nch t x k i cx wm npm cm w npr c ->
    cx_choice_set cx = csf (context grid x) (i_core x).
  Proof.
    intros t x k i cx wm npm cm w npr c IM Pos Fo.
    assert (Ht : t < np) by (rewrite <- (proj1 (proj2 IM)); apply core_periods; [apply EM|apply EM|apply IM]).
    destruct (found_x t x IM Pos) as (k'&i'&cx'&wm'&npm'&cm'&w'&npr'&c'&Fo'&Ecs&_).
    destruct Fo as [E1 E2 _ _ _ _ _ _ _ _ _ _ _], Fo' as [E1' E2' _ _ _ _ _ _ _ _ _ _ _].
    rewrite E1 in E1'. injection E1' as <- <-.
    destruct (ready_x t Ht) as [N _].
    rewrite (NoDup_fst_functional _ _ _ _ _ _ N E2 E2'). exact Ecs.
  Qed.

  (** The next dense key. *)
  Lemma next_key_spec : forall u t i k r s d vec, located sx k r s (Some d) -> nth_error grid d = Some vec ->
    (0 <= u t i < 1)%R ->
    exists e d', drawn_levels procs (in_cov inp (Some vec) s) (u t i) e /\
      In e (combinations (levels_of procs)) /\
      nth_error grid d' = Some (static_part (length procs) vec ++ e) /\
      located sx (next_dense_key sx procs inp u t i k r) r s (Some d').
  Proof.
    intros u t i k r s d vec L G Hu. destruct plain as [ss [SM [SH EX]]].
    pose proof (create_state_space_facts _ _ _ _ _ (sm_created _ _ _ _ _ _ SM)) as F.
    fold core csf np in F.
    assert (L' : located ss k r s (Some d)) by (rewrite EX in L; exact L).
    destruct (located_facts _ _ _ _ _ _ _ _ _ CF F L') as
      [ctx [cx [ck [inds [i0 [Dc [Hk [Ecx [Gi [Hr Hi]]]]]]]]]].
    assert (ctx = Some vec) by (eapply dense_combination_fun; eauto; exists vec; auto). subst ctx.
    assert (Gi' : nth_error (core_key_to_core_indices core csf) ck = Some inds)
      by (rewrite <- (sf_groups _ _ _ _ _ F); exact Gi).
    destruct (dpc_facts_all _ _ _ _ CF (sf_dpc _ _ _ _ _ F)) as [N En Fi]. simpl in *.
    destruct (Fi cx ck inds (nth_error_In _ _ Hk) Gi') as [ctx [Dcx Hf]].
    assert (Ed : cx_dense cx = Some d) by (subst cx; reflexivity). rewrite Ed in Dcx.
    assert (ctx = Some vec) by (eapply dense_combination_fun; eauto; exists vec; auto). subst ctx.
    destruct (group_members core csf ck inds Gi') as [_ [Ne Lr]].
    (* all rows of the frame exist *)
    assert (Ht : forall r' s', nth_error (rows core inds) r' = Some s' ->
       exists row, transition_row grid (ss_dpc sx) procs k (in_cov inp (Some vec) s') = Ok row /\
         Forall2 (fun e col => snd col = joint procs (in_cov inp (Some vec) s') e /\
               exists d', nth_error grid d' = Some (static_part (length procs) vec ++ e) /\
                          located sx (fst col) r' s' (Some d')) (combinations (levels_of procs)) row /\
         (forall col, In col row -> (0 < snd col)%R) /\ rsum (map snd row) = 1%R).
    { intros r' s' Hs'. rewrite nth_error_rows in Hs' by exact Lr.
      destruct (nth_error inds r') as [i'|] eqn:Ei; [|discriminate].
      apply (transition_rows np core csf grid procs sx k r' s' vec d); auto.
      rewrite EX. exists cx, ck. split; [exact Hk|]. split; [exact Ed|]. exists inds, i'.
      split; [exact Gi|]. split; [exact Ei|].
      change (nth_error (ss_core ss) i' = Some s'). rewrite (sf_core _ _ _ _ _ F). exact Hs'. }
    assert (Hrs : nth_error (rows core inds) r = Some s).
    { rewrite nth_error_rows by exact Lr. rewrite Hr. exact Hi. }
    assert (EF : exists M, transition_frame sx procs inp k = Ok M /\ forall r' s', nth_error (rows core inds) r' = Some s' ->
       exists row, nth_error M r' = Some row /\ transition_row grid (ss_dpc sx) procs k (in_cov inp (Some vec) s') = Ok row).
    { unfold transition_frame.
      assert (Hcx : dense_key_to_complex sx k = Some cx).
      { rewrite EX. unfold dense_key_to_complex. simpl. rewrite nth_error_map, Hk. reflexivity. }
      assert (Hfx : dict_get complex_eq_dec cx (ss_files sx) = Some (rows core inds, Some vec)).
      { rewrite EX. exact Hf. }
      assert (Hgx : ss_grid sx = grid) by (rewrite EX; exact (sf_grid _ _ _ _ _ F)).
      rewrite Hcx, Hfx, Hgx. cbn [fst snd].
      destruct (result_all_Ok_exists _ _ (fun s' => transition_row grid (ss_dpc sx) procs k (in_cov inp (Some vec) s')) (rows core inds)) as [M EMM].
      { intros s' Hs'. apply In_nth_error in Hs'. destruct Hs' as [r' Hr']. destruct (Ht r' s' Hr') as [row [E _]]. eauto. }
      exists M. split; [exact EMM|]. intros r' s' Hr'.
      destruct (nth_error_result_all _ _ _ _ _ _ _ EMM Hr') as [row [E1 E2]]. eauto. }
    destruct EF as [M [EF HM]]. destruct (HM r s Hrs) as [row [Er Etr]].
    destruct (Ht r s Hrs) as [row' [Etr' [FA [Pq Sq]]]]. rewrite Etr in Etr'. injection Etr' as <-.
    assert (Eq : map snd row = map (joint procs (in_cov inp (Some vec) s)) (combinations (levels_of procs))).
    { clear - FA. induction FA as [|e col es row [H _] _ IH]; simpl; [reflexivity|]. f_equal; assumption. }
    assert (Nrow : row <> []).
    { intros ->. unfold rsum in Sq. simpl in Sq. lra. }
    destruct (numpy_choice_spec (map fst row) (map snd row) (u t i)) as [pos [k' [Ek [Hpos D]]]]; auto.
    { rewrite !map_length. reflexivity. }
    { destruct row; [congruence|discriminate]. }
    { intros q Hq. apply in_map_iff in Hq. destruct Hq as [col [<- Hc]]. left. apply Pq. exact Hc. }
    rewrite nth_error_map in Hpos. destruct (nth_error row pos) as [col|] eqn:Ecol; [|discriminate].
    simpl in Hpos. injection Hpos as <-.
    apply Forall2_nth_iff in FA. destruct FA as [FL FA].
    destruct (nth_error (combinations (levels_of procs)) pos) as [e|] eqn:Ee;
      [|apply nth_error_None in Ee; apply nth_error_lt in Ecol; lia].
    destruct (FA pos e col Ee Ecol) as [_ [d' [G' Lk]]].
    exists e, d'. split; [|split; [eapply nth_error_In; exact Ee|split; [exact G'|]]].
    - exists pos. split; [exact Ee|]. unfold levels_of in Eq. rewrite <- Eq. exact D.
    - unfold next_dense_key. rewrite EF, Er, Ek. exact Lk.
  Qed.

  Lemma levels_length : forall e, In e (combinations (levels_of procs)) -> length e = length procs.
  Proof.
    intros e H. apply In_combinations, Forall2_length_eq in H. unfold levels_of in H. rewrite map_length in H. auto.
  Qed.

  Lemma update_spec : forall k r s d vec e dense,
    located sx k r s (Some d) -> nth_error grid d = Some (static_part (length procs) vec ++ e) ->
    In e (combinations (levels_of procs)) ->
    update_dense env (length procs) dense k = Ok (static_part (length procs) dense ++ e).
  Proof.
    intros k r s d vec e dense [cx [ck [Hk [Hd _]]]] G He. pose proof (levels_length e He) as Le.
    destruct plain as [ss [SM [SH EX]]].
    pose proof (create_state_space_facts _ _ _ _ _ (sm_created _ _ _ _ _ _ SM)) as F.
    assert (Hgx : ss_grid sx = grid) by (rewrite EX; exact (sf_grid _ _ _ _ _ F)).
    unfold update_dense. destruct (length procs) as [|n] eqn:En; [destruct procs; [congruence|discriminate]|].
    unfold env, environment_exog, en_dense_cov, dense_covariates_of_key. rewrite Hk, Hd, Hgx, G.
    unfold static_part at 2. do 2 f_equal. unfold exogenous_part.
    rewrite app_length, Le. replace (length (static_part (S n) vec) + S n - S n) with (length (static_part (S n) vec)) by lia.
    rewrite skipn_app, Nat.sub_diag, skipn_all. reflexivity.
  Qed.

  (** The outcome of a row, given what is found for the individual. *)
  Lemma row_x : forall si next_key t idx x s m mb o,
    si_params si = in_params inp -> si_choices si = in_choices inp -> length (si_meas si) = nch ->
    in_model core grid t x -> 0 < count_true (csf (context grid x) (i_core x)) ->
    length s = nch -> length mb = nch ->
    m = map (fun p : R * R => exp (fst p * snd p)) (combine mb (si_meas si)) ->
    (forall k i cx wm npm cm w npr c, found env nch t x k i cx wm npm cm w npr c ->
       simulate_row si next_key cx wm npm cm idx (mkRow x k i s m) = Ok o) ->
    o_ind o = x /\ exogenous_row sp neg kp grid procs sx inp ev si t s mb o.
  Proof.
    intros si next_key t idx x s m mb o Ep Ech Lsm IM Pos Ls Lmb Em H8.
    assert (LCh : si_choices si = seq 0 nch) by (rewrite Ech; apply EM).
    assert (NC : NoDup (si_choices si)) by (rewrite LCh; apply seq_NoDup).
    assert (LC : length (si_choices si) = nch) by (rewrite LCh; apply seq_length).
    assert (SQ : square nch (p_chol (si_params si))) by (rewrite Ep; apply EM).
    assert (Lm : length m = nch).
    { rewrite Em, map_length, combine_length, Lmb, Lsm. apply Nat.min_id. }
    destruct (found_x t _ IM Pos) as (k&i&cx&wm&npm&cm&w&npr&c&Fo&Ecs&Ew&En&Ec).
    specialize (H8 _ _ _ _ _ _ _ _ _ Fo).
    destruct (simulate_row_spec nch si next_key cx wm npm cm idx (mkRow x k i s m) w npr c)
      as [o' [Eo' [O1 [O2 [O3 [O4 [O5 [O6 [j [ch [O7 [O8 O9]]]]]]]]]]]]; simpl; auto; try apply Fo.
    rewrite H8 in Eo'. injection Eo' as <-. simpl in *. rewrite Ecs in *. rewrite Ep in *.
    assert (Hnth : forall (f : nat -> R) j c, nth_error (positions (csf (context grid x) (i_core x))) j = Some c ->
              nth j (map f (positions (csf (context grid x) (i_core x)))) 0%R = f c).
    { intros f j' c' Hj. apply nth_error_nth. rewrite nth_error_map, Hj. reflexivity. }
    split; [exact O1|]. constructor; try rewrite O1.
    * exact IM.
    * exact O2.
    * unfold choices_of. apply (record_available (si_choices si) _ (o_values o)); auto.
      rewrite LC. unfold choice_set_of. rewrite map_length, seq_length. reflexivity.
    * exact O4.
    * intros j' c' Hj'.
      exists (nth j' c 0%R). split; [|exact (Ec _ _ Hj')].
      rewrite (O5 j' c' Hj'). subst w npr. rewrite !Hnth with (c := c') by exact Hj'. rewrite <- (context_some x). reflexivity.
    * rewrite <- Ech. exact O6.
    * exists j, ch. split; [exact O7|]. split; [exact O8|]. rewrite O9.
      destruct (Nat.ltb ch (p_nwages (in_params inp))); [|reflexivity].
      subst w. rewrite (Hnth _ _ _ O8). rewrite <- (context_some x). f_equal. f_equal.
      apply nth_error_nth. rewrite Em, nth_error_map, nth_error_combine.
      assert (Lch : ch < nch).
      { apply nth_error_In, In_positions, nth_error_lt in O8. rewrite LENx in O8. exact O8. }
      rewrite (nth_error_nth' mb 0%R) by lia. rewrite (nth_error_nth' (si_meas si) 0%R) by lia. reflexivity.
  Qed.

  Lemma panel_x : forall si order u n ids base base_wage df,
    exogenous_setup sp neg kp grid procs sx inp ev si order u n ids base base_wage df ->
    exists panel,
      simulate_exog sx procs inp ev si order u n base base_wage df = Ok panel /\
      map fst panel = panel_index ids n /\
      (forall id o, In ((id, 0), o) panel -> In ((id, 0), o_ind o) df) /\
      (forall id t o o', In ((id, t), o) panel -> In ((id, S t), o') panel ->
         i_core (o_ind o') = law_of_motion (o_choice o) (i_core (o_ind o)) /\
         exists e, drawn_levels procs (in_cov inp (Some (i_dense (o_ind o))) (i_core (o_ind o))) (u t (id, t)) e /\
           i_dense (o_ind o') = static_part (length procs) (i_dense (o_ind o)) ++ e) /\
      (forall id t o, In ((id, t), o) panel -> exists p s m,
         nth_error ids p = Some id /\ nth_error base (length ids * t + p) = Some s /\
         nth_error base_wage (length ids * t + p) = Some m /\
         exogenous_row sp neg kp grid procs sx inp ev si t s m o).
  Proof.
    intros si order u n ids base base_wage df SU.
    destruct SU as [_ _ XP XC XM XO XU XN XI XS XB XW XX XT XA].
    assert (LCh : si_choices si = seq 0 nch) by (rewrite XC; apply EM).
    assert (NC : NoDup (si_choices si)) by (rewrite LCh; apply seq_NoDup).
    assert (LC : length (si_choices si) = nch) by (rewrite LCh; apply seq_length).
    assert (SQ : square nch (p_chol (si_params si))) by (rewrite XP; apply EM).
    assert (Hpos : forall t x, in_model core grid t x -> 0 < count_true (csf (context grid x) (i_core x))).
    { intros t x IM. rewrite context_some. destruct (XA (i_core x) (i_dense x) (proj1 IM) (in_model_dense t x IM)) as [ch Hc].
      unfold available in Hc. fold csf in Hc. apply In_positions in Hc. rewrite <- length_positions.
      destruct (positions (csf (Some (i_dense x)) (i_core x))); [destruct Hc|simpl; lia]. }
    (* the next state of a row *)
    assert (HN : forall t id x k i cx wm npm cm w npr c s m o, in_model core grid t x ->
      found env nch t x k i cx wm npm cm w npr c -> length s = nch -> length m = nch ->
      simulate_row si (next_dense_key sx procs inp u t) cx wm npm cm (id, t) (mkRow x k i s m) = Ok o ->
      o_ind o = x /\ nth_error (csf (context grid x) (i_core x)) (o_choice o) = Some true /\
      exists e d', drawn_levels procs (in_cov inp (Some (i_dense x)) (i_core x)) (u t (id, t)) e /\
        nth_error grid d' = Some (static_part (length procs) (i_dense x) ++ e) /\
        next_state env (length procs) o = Ok (mkInd (law_of_motion (o_choice o) (i_core x)) (static_part (length procs) (i_dense x) ++ e))).
    { intros t id x k i cx wm npm cm w npr c s m o IM Fo Ls Lm Eo.
      pose proof (found_complex_x _ _ _ _ _ _ _ _ _ _ _ IM (Hpos t x IM) Fo) as Ecs.
      destruct (simulate_row_spec nch si (next_dense_key sx procs inp u t) cx wm npm cm (id, t) (mkRow x k i s m) w npr c)
        as [o' [Eo' [O1 [_ [O3 [O4 [_ [O6 _]]]]]]]]; simpl; auto; try apply Fo.
      rewrite Eo in Eo'. injection Eo' as <-. simpl in O1, O3.
      split; [exact O1|]. split.
      { rewrite <- Ecs. apply (record_available (si_choices si) _ (o_values o)); auto. rewrite LC. apply Fo. }
      destruct (located_model t x IM) as [d [k' [r [G [L E]]]]].
      pose proof (fo_locate _ _ _ _ _ _ _ _ _ _ _ _ _ Fo) as E'.
      change (locate sx (i_core x) (i_dense x) = Ok (k, i)) in E'. rewrite E in E'. injection E' as -> ->.
      destruct (next_key_spec u t (id, t) k i (i_core x) d (i_dense x) L G (XU _ _)) as [e [d' [DL [He [G' L']]]]].
      exists e, d'. split; [exact DL|]. split; [exact G'|].
      unfold next_state. rewrite O1, O3, (update_spec _ _ _ _ _ _ (i_dense x) L' G' He). reflexivity. }
    destruct (panel_spec env si order (next_dense_key sx procs inp u) nch (length procs) n base (measurement_errors si base_wage) ids
                (in_model core grid)) with (df := df) as [frames [E [I H]]].
    - exact XO.
    - exact SQ.
    - exact NC.
    - exact LC.
    - intros t Ht. apply ready_x. unfold np. lia.
    - intros t x Ht IM. destruct (found_x t x IM (Hpos t x IM)) as (k&i&cx&wm&npm&cm&w&npr&c&Fo&_).
      do 9 eexists. exact Fo.
    - intros t id x k i cx wm npm cm w npr c s m o Ht IM Fo Ls Lm Eo.
      destruct (HN _ _ _ _ _ _ _ _ _ _ _ _ _ _ _ IM Fo Ls Lm Eo) as [O1 [Av [e [d' [_ [G' NS]]]]]].
      eexists. split; [exact NS|]. destruct IM as [M1 [M2 M3]].
      split; [|split]; simpl.
      + eapply CL; [exact M1| |exact Av]. rewrite M2. unfold np. lia.
      + rewrite M2. reflexivity.
      + apply nth_error_In in G'. destruct grid; [exact Logic.I|exact G'].
    - exact XI.
    - exact XS.
    - exact XB.
    - apply length_measurement; assumption.
    - exact XX.
    - intros id x Hx. exact (XT _ _ Hx).
    - exists (sort_index (concat frames)). unfold simulate_exog, simulate_n_step. fold env. rewrite E. cbn [result_bind].
      assert (Row : forall id t o, In ((id, t), o) (sort_index (concat frames)) -> exists p s mb m,
         nth_error ids p = Some id /\ nth_error base (length ids * t + p) = Some s /\
         nth_error base_wage (length ids * t + p) = Some mb /\ length s = nch /\ length mb = nch /\ length m = nch /\
         m = map (fun p : R * R => exp (fst p * snd p)) (combine mb (si_meas si)) /\ in_model core grid t (o_ind o) /\
         (forall k i cx wm npm cm w npr c, found env nch t (o_ind o) k i cx wm npm cm w npr c ->
           simulate_row si (next_dense_key sx procs inp u t) cx wm npm cm (id, t) (mkRow (o_ind o) k i s m) = Ok o)).
      { intros id t o Ho. destruct (H id t o Ho) as [p [[id' [s [m [H1 [H2 [H3 [H4 [H5 [H6 [H7 H8]]]]]]]]]] _]].
        simpl in H2. injection H2 as ->. simpl in H7, H8.
        unfold measurement_errors in H4. rewrite nth_error_map in H4.
        destruct (nth_error base_wage (length ids * t + p)) as [mb|] eqn:Eb; [|discriminate].
        simpl in H4. injection H4 as Em.
        exists p, s, mb, m. repeat (split; [solve [auto]|]). split; [apply XW; eapply nth_error_In; eauto|]. auto 10. }
      split; [reflexivity|]. split; [exact I|]. split; [|split].
      + intros id o Ho. destruct (H id 0 o Ho) as [p [_ [H2 _]]]. auto.
      + intros id t o o' Ho Ho'. destruct (H id t o Ho) as [p [_ [_ H3]]]. specialize (H3 o' Ho').
        destruct (Row id t o Ho) as [p' [s [mb [m [R1 [R2 [R3 [R4 [R5 [R6 [R7 [R8 R9]]]]]]]]]]]].
        destruct (found_x t _ R8 (Hpos t _ R8)) as (k&i&cx&wm&npm&cm&w&npr&c&Fo&_).
        destruct (HN _ _ _ _ _ _ _ _ _ _ _ _ _ _ _ R8 Fo R4 R6 (R9 _ _ _ _ _ _ _ _ _ Fo)) as [_ [_ [e [d' [DL [_ NS]]]]]].
        rewrite NS in H3. injection H3 as <-. simpl. split; [reflexivity|]. exists e. auto.
      + intros id t o Ho. destruct (Row id t o Ho) as [p' [s [mb [m [R1 [R2 [R3 [R4 [R5 [R6 [R7 [R8 R9]]]]]]]]]]]].
        exists p', s, mb. split; [exact R1|]. split; [exact R2|]. split; [exact R3|].
        apply (row_x si (next_dense_key sx procs inp u t) t (id, t) (o_ind o) s m mb o); auto.
        apply (Hpos t). exact R8.
  Qed.
End Exog.

(** ** Choices under the solution *)
Lemma exogenous_row_values : forall sp neg k grid procs sx inp ev0 ev si t s m o,
  exogenous_model sp neg k grid procs sx inp -> ev_shape sx ev0 -> solve_exog sx procs inp ev0 = Ok ev ->
  exogenous_row sp neg k grid procs sx inp ev si t s m o ->
  forall j c, nth_error (positions (choices_of sp neg k grid (o_ind o))) j = Some c ->
    nth_error (o_values o) j = Some (exogenous_decision_value sp neg k grid procs inp (si_beta si) t (o_ind o) s c).
Proof.
  intros sp neg k grid procs sx inp ev0 ev si t s m o EM SH0 HS [R1 R2 R3 R4 R5 R6 _] j' c' Hj'.
  destruct (R5 j' c' Hj') as [w [Hw [W0 W1]]]. rewrite Hw. f_equal.
  unfold exogenous_decision_value. f_equal.
  destruct R1 as [I1 [I2 I3]].
  assert (Ht : t < sp_nperiods sp) by (rewrite <- I2; apply core_periods; auto; apply EM).
  destruct (Req_dec (p_delta (in_params inp)) 0) as [D|D]; [rewrite D; lra|]. f_equal.
  destruct (layout_needed _ _ _ _ _ _ (core_nodup sp) (em_closed _ _ _ _ _ _ _ EM) (em_collisions _ _ _ _ _ _ _ EM)
              (em_grid _ _ _ _ _ _ _ EM) (em_inhabited _ _ _ _ _ _ _ EM) (em_created _ _ _ _ _ _ _ EM)) as [GN LAY].
  destruct (Nat.eq_dec (S t) (sp_nperiods sp)) as [E|E].
  - rewrite (W0 E), E, Nat.sub_diag. symmetry.
    cbn [expected_value].
    induction (combinations (map (fun p => length p) procs)) as [|e l IH]; unfold rsum in *; cbn [map fold_right]; [reflexivity|].
    rewrite IH. lra.
  - assert (Hl : In (law_of_motion c' (i_core (o_ind o))) (create_core_state_space sp)).
    { eapply (em_closed sp neg k); [exact EM|exact I1|lia|].
      apply In_positions. eapply nth_error_In. exact Hj'. }
    destruct (solve_exog_model sp neg k grid procs sx inp ev0 EM D SH0) as [ev' [HS' V]].
    rewrite HS in HS'. injection HS' as <-.
    destruct (W1 ltac:(lia)) as [vals [F ->]]. clear W0 W1 Hw. f_equal.
    assert (Hd : In (i_dense (o_ind o)) grid) by (destruct grid; [congruence|exact I3]).
    destruct (proj2 LAY _ Hd) as [static [e0 [Ed [C0 X]]]].
    assert (SP : static_part (length procs) (i_dense (o_ind o)) = static).
    { unfold static_part. rewrite Ed, app_length.
      apply Forall2_length_eq in C0. unfold levels_of in C0. rewrite map_length in C0. rewrite C0.
      replace (length static + length e0 - length e0) with (length static + 0) by lia.
      rewrite firstn_app_2. simpl. apply app_nil_r. }
    rewrite SP in *.
    assert (FI : forall e, In e (combinations (map (fun p => length p) procs)) -> In (static ++ e) grid).
    { intros e He. apply X. apply In_combinations. exact He. }
    revert F FI. generalize (combinations (map (fun p : list (list (nat * R)) => length p) procs)).
    intros l F. induction F as [|e v l vals Fe _ IH]; intros FI; simpl; [reflexivity|].
    f_equal; [|apply IH; intros; apply FI; right; assumption].
    f_equal. apply V in Fe; [|exact Hl|apply FI; left; reflexivity]. rewrite Fe. f_equal. simpl. lia.
Qed.

Lemma exogenous_row_optimal : forall sp neg k grid procs sx inp ev0 ev si t s m o,
  exogenous_model sp neg k grid procs sx inp -> ev_shape sx ev0 -> solve_exog sx procs inp ev0 = Ok ev ->
  exogenous_row sp neg k grid procs sx inp ev si t s m o ->
  in_place (choices_of sp neg k grid (o_ind o)) ->
  forall c, available (choices_of sp neg k grid (o_ind o)) c ->
    (exogenous_decision_value sp neg k grid procs inp (si_beta si) t (o_ind o) s c <=
     exogenous_decision_value sp neg k grid procs inp (si_beta si) t (o_ind o) s (o_choice o))%R.
Proof.
  intros sp neg k grid procs sx inp ev0 ev si t s m o EM SH0 HS RR IP c Hc.
  pose proof (exogenous_row_values _ _ _ _ _ _ _ _ _ _ _ _ _ _ EM SH0 HS RR) as Q.
  destruct RR as [R1 R2 R3 R4 R5 R6 _].
  set (cs := choices_of sp neg k grid (o_ind o)) in *.
  assert (NDc : NoDup (in_choices inp)) by (rewrite (em_choices _ _ _ _ _ _ _ EM); apply seq_NoDup).
  assert (Lcs : length cs = length (in_choices inp)).
  { rewrite (em_choices _ _ _ _ _ _ _ EM), seq_length. unfold cs, choices_of, choice_set_of.
    rewrite map_length, seq_length. reflexivity. }
  destruct (record_best _ _ _ NDc Lcs R4 IP _ R6) as [j [v [Hj [Hv Hmax]]]].
  rewrite (Q j _ Hj) in Hv. injection Hv as <-. apply Hmax.
  apply In_positions, In_nth_error in Hc. destruct Hc as [j' Hj'].
  eapply nth_error_In. exact (Q j' c Hj').
Qed.

Lemma panel_optimal_x : forall sp neg k grid procs sx inp ev0 ev si order u n ids base base_wage df panel,
  ev_shape sx ev0 -> solve_exog sx procs inp ev0 = Ok ev ->
  exogenous_setup sp neg k grid procs sx inp ev si order u n ids base base_wage df ->
  simulate_exog sx procs inp ev si order u n base base_wage df = Ok panel ->
  forall id t o, In ((id, t), o) panel -> in_place (choices_of sp neg k grid (o_ind o)) ->
  forall c, available (choices_of sp neg k grid (o_ind o)) c ->
    (exogenous_decision_value sp neg k grid procs inp (si_beta si) t (o_ind o) (o_shocks o) c <=
     exogenous_decision_value sp neg k grid procs inp (si_beta si) t (o_ind o) (o_shocks o) (o_choice o))%R.
Proof.
  intros sp neg k grid procs sx inp ev0 ev si order u n ids base base_wage df panel SH0 HS SU HP id t o Hin IP.
  assert (EM : exogenous_model sp neg k grid procs sx inp) by (eapply xs_model; exact SU).
  assert (SH : ev_shape sx ev) by (eapply xs_ev; exact SU).
  destruct (panel_x sp neg k grid procs sx inp ev EM SH si order u n ids base base_wage df SU)
    as [panel' [HP' [_ [_ [_ H]]]]].
  rewrite HP in HP'. injection HP' as <-.
  destruct (H id t o Hin) as [p [s [m [_ [_ [_ RR]]]]]].
  rewrite (xr_shocks _ _ _ _ _ _ _ _ _ _ _ _ _ RR).
  exact (exogenous_row_optimal _ _ _ _ _ _ _ _ _ _ _ _ _ _ EM SH0 HS RR IP).
Qed.

(** ** Probabilities of the levels *)
Lemma levels_interval : forall procs x e, Forall (fun p => p <> []) procs ->
  combination (levels_of procs) e ->
  exists a, (0 <= a)%R /\ (a + joint procs x e <= 1)%R /\ (0 < joint procs x e)%R /\
    forall u, drawn_levels procs x u e <-> (a <= u < a + joint procs x e)%R.
Proof.
  intros procs x e PL C. apply In_combinations in C. pose proof C as C0. apply In_nth_error in C. destruct C as [i Hi].
  set (probs := map (joint procs x) (combinations (levels_of procs))).
  assert (HS : rsum probs = 1%R) by (apply joint_sum; exact PL).
  assert (HP : forall p, In p probs -> (0 <= p)%R).
  { intros p Hp. apply in_map_iff in Hp. destruct Hp as [e' [<- _]]. left. apply joint_pos. exact PL. }
  assert (Hn : nth_error probs i = Some (joint procs x e)) by (unfold probs; rewrite nth_error_map, Hi; reflexivity).
  exists (rsum (firstn i probs)). split; [|split; [|split]].
  - assert (M := rsum_firstn_mono probs 0 i HP ltac:(lia)). unfold rsum at 1 in M. simpl in M. exact M.
  - rewrite <- (rsum_firstn_S _ _ _ Hn).
    assert (M := rsum_firstn_mono probs (S i) (length probs) HP (nth_error_lt _ _ _ _ Hn)).
    rewrite firstn_all in M. lra.
  - apply joint_pos. exact PL.
  - intros u. rewrite <- (interval_length _ _ _ HS Hn). split.
    + intros [j [Hj [_ D]]]. fold (levels_of procs) in Hj, D. fold probs in D.
      assert (j = i).
      { apply (proj1 (NoDup_nth_error _) (NoDup_combinations (levels_of procs)));
          [eapply nth_error_lt; exact Hj|congruence]. }
      subst j. exact D.
    + intros D. exists i. split; [exact Hi|]. fold (levels_of procs). fold probs. split; [|exact D].
      eapply nth_error_lt. exact Hn.
Qed.

Lemma solve_exog_shape : forall sp neg k grid procs sx inp ev0,
  exogenous_model sp neg k grid procs sx inp -> p_delta (in_params inp) <> 0%R -> ev_shape sx ev0 ->
  exists ev, solve_exog sx procs inp ev0 = Ok ev /\ ev_shape sx ev.
Proof.
  intros sp neg k grid procs sx inp ev0 [W L Fi NE NG PN CF CR IC LC NI] DN SH0.
  assert (ND := core_nodup sp).
  destruct (layout_needed _ _ _ _ _ _ ND Fi CF NG NE CR) as [GN LAY].
  destruct (solve_exog_spec (sp_nchoices sp) (sp_nperiods sp) (create_core_state_space sp)
      (choice_set_of sp (process sp (S k) neg)) grid sx procs inp) with (ev0 := ev0) as [ev [E [SH _]]]; auto.
  - split; [exact IC|]. split; [|exact (proj1 LC)]. intros ctx s. unfold choice_set_of. rewrite map_length, seq_length. reflexivity.
  - intros s Hs. apply core_periods; assumption.
  - exists ev. auto.
Qed.
