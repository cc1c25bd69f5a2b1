(** The panel of a model without exogenous processes. *)
From Coq Require Import List Arith Bool Reals Lia Lra Permutation Sorted.
From Verif Require Import Base Proof_Base Model_CoreStateSpace Spec_CoreStateSpace Model_StateSpace
  Spec_StateSpace Proof_CoreStateSpace Proof_StateSpace Model_Solve Spec_Solve Proof_Solve
  Proof_Shocks Proof_SolveProps
  Model_Parallel Spec_Parallel Proof_Parallel Model_Simulate Spec_Simulate Proof_Simulate Proof_Panel.
Import ListNotations.
Open Scope nat_scope.

Lemma dict_of_pairs_get : forall K V (eqd : forall x y : K, {x = y} + {x <> y}) (l : list (K * V)) k v,
  dict_get eqd k (dict_of_pairs eqd l) = Some v -> In (k, v) l.
Proof.
  intros K V eqd l k v. unfold dict_of_pairs, dict_update.
  assert (H : forall d, dict_get eqd k (fold_left (fun d p => dict_set eqd (fst p) (snd p) d) l d) = Some v ->
     dict_get eqd k d = Some v \/ In (k, v) l).
  { induction l as [|[k' v'] l IH]; simpl; intros d H; [auto|]. apply IH in H. destruct H as [H|H]; [|auto].
    destruct (eqd k k') as [->|E].
    - rewrite dict_get_set_same in H. injection H as ->. auto.
    - rewrite dict_get_set_other in H by congruence. auto. }
  intros E. apply H in E. destruct E as [E|E]; [discriminate|exact E].
Qed.

Lemma nodense_key : forall nperiods core csf ss k cx ck,
  ss_facts nperiods core csf [] ss -> nth_error (ss_dpc ss) k = Some (cx, ck) -> ck = k.
Proof.
  intros nperiods core csf ss k cx ck F H. pose proof (sf_dpc _ _ _ _ _ F) as E.
  unfold create_dense_period_choice in E. injection E as E _.
  rewrite dict_of_pairs_NoDup in E.
  - rewrite <- E, nth_error_map, nth_error_enumerate in H.
    destruct (nth_error (core_key_to_complex core csf) k) as [x|]; [|discriminate].
    simpl in H. congruence.
  - unfold dict_keys. rewrite map_map. simpl.
    rewrite <- (map_map snd (fun k : ckey => (fst k, snd k, None) : complex)).
    rewrite map_snd_enumerate. apply FinFun.Injective_map_NoDup; [|apply NoDup_core_keys].
    intros [a b] [a' b'] E'. simpl in E'. congruence.
Qed.

Section PanelModel.
  Variables (sp : core_spec) (neg : neg_set) (kp : nat) (grid : list (list nat))
    (ss : state_space) (inp : inputs) (ev : list (list R)).
  Hypothesis SM : standard_model sp neg kp grid ss inp.
  Hypothesis SH : ev_shape ss ev.
  Let core := create_core_state_space sp.
  Let csf := choice_set_of sp (process sp (S kp) neg).
  Let np := sp_nperiods sp.
  Let nch := sp_nchoices sp.
  Let CF : collision_free core csf grid := sm_collisions _ _ _ _ _ _ SM.
  Let CR : create_state_space np core csf grid = Ok ss := sm_created _ _ _ _ _ _ SM.
  Let F : ss_facts np core csf grid ss := create_state_space_facts _ _ _ _ _ CR.
  Let ND : NoDup core := core_nodup sp.
  Let CL : closed_under_choices np core csf :=
    sm_closed _ _ _ _ _ _ SM.
  Let WI : wf_inputs nch csf inp := standard_wf_inputs _ _ _ _ _ _ SM.

  Lemma in_model_period : forall t x, in_model core grid t x -> t < np.
  Proof.
    intros t x [H1 [H2 _]]. rewrite <- H2. apply core_periods; auto; apply SM.
  Qed.

  Lemma locate_spec : forall t x, in_model core grid t x ->
    exists d k r, dense_combination grid d (context grid x) /\ located ss k r (i_core x) d /\
      locate ss (i_core x) (i_dense x) = Ok (k, r).
  Proof.
    intros t x [H1 [H2 H3]].
    assert (Hd : exists d, dense_combination grid d (context grid x) /\
       match grid with [] => True | _ =>
         dict_get (list_eq_dec Nat.eq_dec) (i_dense x)
           (dict_of_pairs (list_eq_dec Nat.eq_dec) (map (fun p => (snd p, fst p)) (enumerate grid))) = d end).
    { unfold context. destruct grid as [|v gr] eqn:G.
      - exists None. split; [split; reflexivity|exact I].
      - set (l := map (fun p : nat * list nat => (snd p, fst p)) (enumerate (v :: gr))).
        destruct (dict_get (list_eq_dec Nat.eq_dec) (i_dense x) (dict_of_pairs (list_eq_dec Nat.eq_dec) l)) as [d|] eqn:E.
        + exists (Some d). split; [|reflexivity].
          apply dict_of_pairs_get in E. unfold l in E. apply in_map_iff in E.
          destruct E as [[i y] [E Hi]]. simpl in E. injection E as -> ->.
          apply In_enumerate in Hi. exists (i_dense x). split; [exact Hi|reflexivity].
        + exfalso. apply dict_get_None in E. apply E. unfold dict_of_pairs.
          apply In_keys_update. right. unfold dict_keys, l. rewrite map_map.
          change (In (i_dense x) (map snd (enumerate (v :: gr)))). rewrite map_snd_enumerate. exact H3. }
    destruct Hd as [d [Dc Hd]].
    destruct (located_exists _ _ _ _ _ _ _ _ CF F H1 Dc) as [k [r L]].
    exists d, k, r. split; [exact Dc|]. split; [exact L|].
    destruct (located_facts _ _ _ _ _ _ _ _ _ CF F L) as
      [ctx [cx [ck [inds [i [D' [Hk [Ecx [Gi [Hr Hi]]]]]]]]]].
    assert (M : dict_get core_state_eq_dec (i_core x) (ss_indexer ss) = Some (ck, r)).
    { rewrite (sf_indexer _ _ _ _ _ F). apply indexer_spec; [exact ND|].
      exists inds, i. rewrite <- (sf_groups _ _ _ _ _ F). auto. }
    pose proof (lookup_dense_key _ _ _ _ _ _ _ _ CF F Hk) as LK.
    unfold locate. rewrite M, (sf_grid _ _ _ _ _ F).
    destruct grid as [|v gr] eqn:G.
    - rewrite (nodense_key _ _ _ _ _ _ _ F Hk). reflexivity.
    - rewrite Hd. destruct d as [d|]; [|destruct Dc; discriminate].
      assert (cx_dense cx = Some d) by (subst cx; reflexivity). rewrite H in LK.
      unfold core_dense_key in LK. rewrite LK. reflexivity.
  Qed.

  Lemma key_first : forall t k, In k (dense_keys_from_period ss t) ->
    exists s d ctx, located ss k 0 s d /\ dense_combination grid d ctx /\ cs_period s = t /\ In s core.
  Proof.
    intros t k Hk. apply In_keys_of_period in Hk. destruct Hk as [cx [ck [Hk Pk]]].
    destruct (keys_inhabited _ _ _ _ _ k CF CR (nth_error_lt _ _ _ _ Hk)) as [inds [Hinds [Ne Loc]]].
    assert (H0 : 0 < length inds) by (destruct inds; [congruence|simpl; lia]).
    destruct (Loc 0 H0) as [s0 [d L0]].
    destruct (located_facts _ _ _ _ _ _ _ _ _ CF F L0) as
      [ctx [cx' [ck' [inds' [i [Dc [Hk' [Ecx [_ [_ Hi]]]]]]]]]].
    rewrite Hk in Hk'. injection Hk' as <- <-.
    exists s0, d, ctx. split; [exact L0|]. split; [exact Dc|]. split; [subst cx; exact Pk|].
    eapply nth_error_In; eauto.
  Qed.

  Lemma attribute_spec : forall A (f : nat -> result A) t,
    (forall k, In k (dense_keys_from_period ss t) -> exists x, f k = Ok x) ->
    exists d, attribute_from_period ss f t = Ok d /\ NoDup (map fst d) /\
      forall k x, In k (dense_keys_from_period ss t) -> f k = Ok x -> In (k, x) d.
  Proof.
    intros A f t H. unfold attribute_from_period.
    set (g := fun k => result_bind (f k) (fun x => Ok (k, x))).
    destruct (result_all_Ok_exists _ _ g (dense_keys_from_period ss t)) as [d E].
    { intros k Hk. destruct (H k Hk) as [x Hx]. exists (k, x). unfold g. rewrite Hx. reflexivity. }
    exists d. split; [exact E|].
    assert (K : map fst d = dense_keys_from_period ss t).
    { apply result_all_map_Ok in E. clear - E. induction E as [|k [k' x] l l' H _ IH]; simpl; [reflexivity|].
      f_equal; [|exact IH]. unfold g in H. destruct (f k); simpl in H; congruence. }
    split; [rewrite K; apply NoDup_keys_of_period|].
    intros k x Hk Hx. apply In_nth_error in Hk. destruct Hk as [n Hn].
    destruct (nth_error_result_all _ _ _ _ _ _ _ E Hn) as [y [H1 H2]].
    unfold g in H2. rewrite Hx in H2. simpl in H2. injection H2 as <-. eapply nth_error_In; eauto.
  Qed.

  Let env := environment_of ss inp ev.

  Lemma complex_spec : forall t, NoDup (map fst (en_complex env t)) /\
    forall k cx, In k (dense_keys_from_period ss t) -> dense_key_to_complex ss k = Some cx ->
      In (k, cx) (en_complex env t).
  Proof.
    intros t. simpl. set (f := fun k => match dense_key_to_complex ss k with Some cx => [(k, cx)] | None => [] end).
    split.
    - assert (Z : forall l, NoDup l -> NoDup (map fst (flat_map f l)) /\
        forall k, In k (map fst (flat_map f l)) -> In k l).
      { induction l as [|k l IH]; simpl; intros N; [split; [constructor|tauto]|].
        inversion N; subst. destruct (IH H2) as [I1 I2].
        unfold f at 1 3. destruct (dense_key_to_complex ss k); simpl.
        - split; [constructor; auto|]. intros k' [<-|H]; auto.
        - split; [exact I1|auto]. }
      apply Z, NoDup_keys_of_period.
    - intros k cx Hk Hc. apply in_flat_map. exists k. split; [exact Hk|]. unfold f. rewrite Hc. simpl. auto.
  Qed.

  Lemma ready : forall t, t < np -> period_ready env t.
  Proof.
    intros t Ht. split; [apply complex_spec|].
    assert (HR : forall k, In k (dense_keys_from_period ss t) -> exists wn, rewards_of ss inp k = Ok wn).
    { intros k Hk. destruct (key_first _ _ Hk) as [s [d [ctx [L [Dc [P Hs]]]]]].
      destruct (rewards_row nch np core csf grid ss inp CF CR WI _ _ _ _ _ L Dc) as [wn [inds [E _]]]. eauto. }
    split; [|split].
    - destruct (attribute_spec _ (fun k => result_bind (rewards_of ss inp k) (fun wn => Ok (fst wn))) t)
        as [d [E [N _]]]; [|eauto].
      intros k Hk. destruct (HR k Hk) as [wn ->]. simpl. eauto.
    - destruct (attribute_spec _ (fun k => result_bind (rewards_of ss inp k) (fun wn => Ok (snd wn))) t)
        as [d [E [N _]]]; [|eauto].
      intros k Hk. destruct (HR k Hk) as [wn ->]. simpl. eauto.
    - destruct (attribute_spec _ (get_continuation_values 0%R ss ev t) t) as [d [E [N _]]]; [|eauto].
      intros k Hk. destruct (key_first _ _ Hk) as [s [d [ctx [L [Dc [P Hs]]]]]].
      destruct (continuation_values_spec R 0%R _ _ _ _ _ ev _ _ _ _ _ ND CL CF CR SH L Dc
                  ltac:(rewrite P; exact Ht)) as [M [row0 [EM _]]].
      rewrite P in EM. eauto.
  Qed.

  (** The entries for an individual. *)
  Definition cont_ok (t : nat) (x : individual) (c : list R) : Prop :=
    exists d, dense_combination grid d (context grid x) /\
      forall j ch, nth_error (positions (csf (context grid x) (i_core x))) j = Some ch ->
        (S t = np -> nth j c 0%R = 0%R) /\
        (S t < np -> exists v, nth j c 0%R = v /\ value_at ss ev (law_of_motion ch (i_core x)) d v).

  Lemma found_spec : forall t x, in_model core grid t x ->
    0 < count_true (csf (context grid x) (i_core x)) ->
    exists k i wm npm cm w npr c,
      found env nch t x k i (cs_period (i_core x), csf (context grid x) (i_core x),
                             cx_dense (match dense_key_to_complex ss k with Some cx => cx | None => (0, [], None) end))
        wm npm cm w npr c /\
      w = map (wage_of (in_params inp) (in_cov inp (context grid x) (i_core x)))
              (positions (csf (context grid x) (i_core x))) /\
      npr = map (nonpec_of (in_params inp) (in_cov inp (context grid x) (i_core x)))
              (positions (csf (context grid x) (i_core x))) /\
      cont_ok t x c.
  Proof.
    intros t x IM Pos. pose proof (in_model_period _ _ IM) as Ht.
    destruct (locate_spec t x IM) as [d [k [r [Dc [L E]]]]].
    destruct IM as [H1 [H2 H3]]. set (s := i_core x) in *. set (ctx := context grid x) in *.
    destruct (located_facts _ _ _ _ _ _ _ _ _ CF F L) as
      [ctx' [cx [ck [inds [i [D' [Hk [Ecx [Gi [Hr Hi]]]]]]]]]].
    assert (ctx' = ctx) by (eapply dense_combination_fun; eauto). subst ctx'.
    assert (Hkey : In k (dense_keys_from_period ss t)).
    { apply In_keys_of_period. exists cx, ck. split; [exact Hk|]. subst cx. exact H2. }
    destruct (rewards_row nch np core csf grid ss inp CF CR WI _ _ _ _ _ L Dc) as [wn [inds' [Ew [_ [_ [_ [Rw Rn]]]]]]].
    destruct (continuation_values_spec R 0%R _ _ _ _ _ ev _ _ _ _ _ ND CL CF CR SH L Dc
                  ltac:(rewrite H2; exact Ht)) as [M [row [EM [Hrow [Lrow [Last Mid]]]]]].
    rewrite H2 in *.
    assert (Hcx : dense_key_to_complex ss k = Some cx).
    { unfold dense_key_to_complex. rewrite nth_error_map, Hk. reflexivity. }
    exists k, r, (fst wn), (snd wn), M. do 3 eexists.
    split; [|split; [reflexivity|split; [reflexivity|]]].
    - rewrite Hcx. subst cx. unfold cx_dense; simpl.
      assert (HR : forall k, In k (dense_keys_from_period ss t) -> exists wn, rewards_of ss inp k = Ok wn).
      { intros k' Hk'. destruct (key_first _ _ Hk') as [s' [d'' [ctx' [L' [Dc' [P Hs']]]]]].
        destruct (rewards_row nch np core csf grid ss inp CF CR WI _ _ _ _ _ L' Dc') as [wn' [inds'' [E' _]]]. eauto. }
      constructor.
      + exact E.
      + apply complex_spec; assumption.
      + destruct (attribute_spec _ (fun k => result_bind (rewards_of ss inp k) (fun wn => Ok (fst wn))) t)
          as [dd [E1 [N I]]].
        { intros k' Hk'. destruct (HR k' Hk') as [wn' ->]. simpl. eauto. }
        exists dd. split; [exact E1|]. apply I; [exact Hkey|]. rewrite Ew. reflexivity.
      + destruct (attribute_spec _ (fun k => result_bind (rewards_of ss inp k) (fun wn => Ok (snd wn))) t)
          as [dd [E1 [N I]]].
        { intros k' Hk'. destruct (HR k' Hk') as [wn' ->]. simpl. eauto. }
        exists dd. split; [exact E1|]. apply I; [exact Hkey|]. rewrite Ew. reflexivity.
      + destruct (attribute_spec _ (get_continuation_values 0%R ss ev t) t) as [dd [E1 [N I]]].
        { intros k' Hk'. destruct (key_first _ _ Hk') as [s' [d'' [ctx' [L' [Dc' [P Hs']]]]]].
          destruct (continuation_values_spec R 0%R _ _ _ _ _ ev _ _ _ _ _ ND CL CF CR SH L' Dc'
                  ltac:(rewrite P; exact Ht)) as [M' [row0 [EM' _]]].
          rewrite P in EM'. eauto. }
        exists dd. split; [exact E1|]. apply I; assumption.
      + exact Rw.
      + exact Rn.
      + exact Hrow.
      + rewrite map_length, length_positions. reflexivity.
      + rewrite map_length, length_positions. reflexivity.
      + exact Lrow.
      + apply WI.
      + exact Pos.
    - exists d. split; [exact Dc|]. intros j ch Hj. fold s ctx in Hj. split.
      + intros Z. destruct (nth_in_or_default j row 0%R) as [Hin| ->]; [|reflexivity].
        apply (Last Z _ Hin).
      + intros Z. destruct (Mid Z j ch Hj) as [v [Hv Va]]. exists v. split; [|exact Va].
        apply nth_error_nth. exact Hv.
  Qed.

  Lemma found_complex : forall t x k i cx wm npm cm w npr c, in_model core grid t x ->
    0 < count_true (csf (context grid x) (i_core x)) ->
    found env nch t x k i cx wm npm cm w npr c ->
    cx_choice_set cx = csf (context grid x) (i_core x).
  Proof.
    intros t x k i cx wm npm cm w npr c IM Pos Fo.
    destruct (found_spec t x IM Pos) as (k'&i'&wm'&npm'&cm'&w'&npr'&c'&Fo'&_).
    destruct Fo as [E1 E2 _ _ _ _ _ _ _ _ _ _ _], Fo' as [E1' E2' _ _ _ _ _ _ _ _ _ _ _].
    rewrite E1 in E1'. injection E1' as <- <-.
    destruct (complex_spec t) as [N _].
    rewrite (NoDup_fst_functional _ _ _ _ _ _ N E2 E2'). reflexivity.
  Qed.

  Lemma length_measurement : forall si base, length (si_meas si) = nch ->
    forall rows, draws_shape rows nch base -> draws_shape rows nch (measurement_errors si base).
  Proof.
    intros si base L rows [D1 D2]. unfold measurement_errors. split; [rewrite map_length; exact D1|].
    intros row H. apply in_map_iff in H. destruct H as [r [<- Hr]].
    rewrite map_length, combine_length, L, (D2 r Hr). apply Nat.min_id.
  Qed.

  (** The outcome of a row, given what is found for the individual. *)
  Lemma row_right : forall si next_key t idx x s m mb o,
    si_params si = in_params inp -> si_choices si = in_choices inp -> length (si_meas si) = nch ->
    in_model core grid t x -> 0 < count_true (csf (context grid x) (i_core x)) ->
    length s = nch -> length mb = nch ->
    m = map (fun p : R * R => exp (fst p * snd p)) (combine mb (si_meas si)) ->
    (forall k i cx wm npm cm w npr c, found env nch t x k i cx wm npm cm w npr c ->
       simulate_row si next_key cx wm npm cm idx (mkRow x k i s m) = Ok o) ->
    o_ind o = x /\ right_row sp neg kp grid ss inp ev si t s mb o.
  Proof.
    intros si next_key t idx x s m mb o Ep Ech Lsm IM Pos Ls Lmb Em H8.
    assert (LCh : si_choices si = seq 0 nch) by (rewrite Ech; apply SM).
    assert (NC : NoDup (si_choices si)) by (rewrite LCh; apply seq_NoDup).
    assert (LC : length (si_choices si) = nch) by (rewrite LCh; apply seq_length).
    assert (SQ : square nch (p_chol (si_params si))) by (rewrite Ep; apply SM).
    assert (Lm : length m = nch).
    { rewrite Em, map_length, combine_length, Lmb, Lsm. apply Nat.min_id. }
    destruct (found_spec t _ IM Pos) as (k&i&wm&npm&cm&w&npr&c&Fo&Ew&En&Ec).
    specialize (H8 _ _ _ _ _ _ _ _ _ Fo).
    set (cx := (cs_period (i_core x), csf (context grid x) (i_core x),
                         cx_dense (match dense_key_to_complex ss k with Some cx => cx | None => (0, [], None) end))) in *.
    assert (Ecs : cx_choice_set cx = csf (context grid x) (i_core x)) by reflexivity.
    destruct (simulate_row_spec nch si next_key cx wm npm cm idx (mkRow x k i s m) w npr c)
      as [o' [Eo' [O1 [O2 [O3 [O4 [O5 [O6 [j [ch [O7 [O8 O9]]]]]]]]]]]]; simpl; auto; try apply Fo.
    rewrite H8 in Eo'. injection Eo' as <-. simpl in *. rewrite Ecs in *. rewrite Ep in *.
    assert (Hnth : forall (f : nat -> R) j c, nth_error (positions (csf (context grid x) (i_core x))) j = Some c ->
              nth j (map f (positions (csf (context grid x) (i_core x)))) 0%R = f c).
    { intros f j' c' Hj. apply nth_error_nth. rewrite nth_error_map, Hj. reflexivity. }
    split; [exact O1|]. constructor; try rewrite O1.
    * exact IM.
    * exact O2.
    * unfold choices_of. apply (record_available (si_choices si) _ (o_values o)); auto.
      rewrite LC. unfold choice_set_of. rewrite map_length, seq_length. reflexivity.
    * exact O4.
    * destruct Ec as [d [Dc Ec]]. exists d. split; [exact Dc|]. intros j' c' Hj'.
      exists (nth j' c 0%R). split;
        [|destruct (Ec _ _ Hj') as [C1 C2]; split; [exact C1|];
          intros Z; destruct (C2 Z) as [v [-> Va]]; exact Va].
      rewrite (O5 j' c' Hj'). subst w npr. rewrite !Hnth with (c := c') by exact Hj'. reflexivity.
    * rewrite <- Ech. exact O6.
    * exists j, ch. split; [exact O7|]. split; [exact O8|]. rewrite O9.
      destruct (Nat.ltb ch (p_nwages (in_params inp))); [|reflexivity].
      subst w. rewrite (Hnth _ _ _ O8). f_equal. f_equal.
      apply nth_error_nth. rewrite Em, nth_error_map, nth_error_combine.
      assert (Lch : ch < nch).
      { apply nth_error_In, In_positions, nth_error_lt in O8. unfold csf, choice_set_of in O8.
        rewrite map_length, seq_length in O8. exact O8. }
      rewrite (nth_error_nth' mb 0%R) by lia. rewrite (nth_error_nth' (si_meas si) 0%R) by lia. reflexivity.
  Qed.

  Lemma panel_rows : forall si order next_key n ids base base_wage df,
    simulation_setup sp neg kp grid ss inp ev si order n ids base base_wage df ->
    exists panel,
      simulate_n_step env si order next_key 0 n base base_wage df = Ok panel /\
      map fst panel = panel_index ids n /\
      (forall id o, In ((id, 0), o) panel -> In ((id, 0), o_ind o) df) /\
      (forall id t o o', In ((id, t), o) panel -> In ((id, S t), o') panel ->
         o_ind o' = mkInd (law_of_motion (o_choice o) (i_core (o_ind o))) (i_dense (o_ind o))) /\
      (forall id t o, In ((id, t), o) panel -> exists p s m,
         nth_error ids p = Some id /\ nth_error base (length ids * t + p) = Some s /\
         nth_error base_wage (length ids * t + p) = Some m /\
         right_row sp neg kp grid ss inp ev si t s m o /\
         forall k i cx wm npm cm w npr c, found env nch t (o_ind o) k i cx wm npm cm w npr c ->
           simulate_row si (next_key t) cx wm npm cm (id, t)
             (mkRow (o_ind o) k i s (map (fun p : R * R => exp (fst p * snd p)) (combine m (si_meas si)))) = Ok o).
  Proof.
    intros si order next_key n ids base base_wage df SU.
    assert (LCh : si_choices si = seq 0 nch).
    { rewrite (su_names _ _ _ _ _ _ _ _ _ _ _ _ _ _ SU). apply SM. }
    assert (NC : NoDup (si_choices si)) by (rewrite LCh; apply seq_NoDup).
    assert (LC : length (si_choices si) = nch) by (rewrite LCh; apply seq_length).
    assert (SQ : square nch (p_chol (si_params si))).
    { rewrite (su_params _ _ _ _ _ _ _ _ _ _ _ _ _ _ SU). apply SM. }
    assert (Hpos : forall t x, in_model core grid t x -> 0 < count_true (csf (context grid x) (i_core x))).
    { intros t x [H1 [_ H3]]. destruct (su_choice _ _ _ _ _ _ _ _ _ _ _ _ _ _ SU (i_core x) x H1 H3) as [ch Hc].
      unfold available in Hc. fold csf in Hc. apply In_positions in Hc. rewrite <- length_positions.
      destruct (positions (csf (context grid x) (i_core x))); [destruct Hc|simpl; lia]. }
    pose proof (su_periods _ _ _ _ _ _ _ _ _ _ _ _ _ _ SU) as Hn.
    destruct (panel_spec env si order next_key nch 0 n base (measurement_errors si base_wage) ids
                (in_model core grid)) with (df := df) as [frames [E [I H]]].
    - apply SU.
    - exact SQ.
    - exact NC.
    - exact LC.
    - intros t Ht. apply ready. unfold np. lia.
    - intros t x Ht IM. destruct (found_spec t x IM (Hpos t x IM)) as (k&i&wm&npm&cm&w&npr&c&Fo&_).
      do 9 eexists. exact Fo.
    - intros t id x k i cx wm npm cm w npr c s m o Ht IM Fo Ls Lm Eo.
      pose proof (found_complex _ _ _ _ _ _ _ _ _ _ _ IM (Hpos t x IM) Fo) as Ecs.
      destruct (simulate_row_spec nch si (next_key t) cx wm npm cm (id, t) (mkRow x k i s m) w npr c)
        as [o' [Eo' [O1 [_ [_ [O4 [_ [O6 _]]]]]]]]; simpl; auto; try apply Fo.
      rewrite Eo in Eo'. injection Eo' as <-. simpl in O1.
      unfold next_state, update_dense. cbn [result_bind].
      eexists. split; [reflexivity|]. rewrite O1.
      destruct IM as [M1 [M2 M3]].
      assert (Av : nth_error (csf (context grid x) (i_core x)) (o_choice o) = Some true).
      { rewrite <- Ecs. apply (record_available (si_choices si) _ (o_values o)); auto.
        rewrite LC. apply Fo. }
      split; [|split]; simpl.
      + eapply CL; [exact M1| |exact Av]. rewrite M2. unfold np. lia.
      + rewrite M2. reflexivity.
      + destruct grid; auto.
    - eapply su_increasing; exact SU.
    - eapply su_some; exact SU.
    - eapply su_base; exact SU.
    - apply length_measurement; [eapply su_meas; exact SU|eapply su_base_wage; exact SU].
    - eapply su_index; exact SU.
    - intros id x Hx. eapply su_states; eauto.
    - exists (sort_index (concat frames)). unfold simulate_n_step. rewrite E. cbn [result_bind].
      split; [reflexivity|]. split; [exact I|]. split; [|split].
      + intros id o Ho. destruct (H id 0 o Ho) as [p [_ [H2 _]]]. auto.
      + intros id t o o' Ho Ho'. destruct (H id t o Ho) as [p [_ [_ H3]]]. specialize (H3 o' Ho').
        unfold next_state, update_dense in H3. simpl in H3. congruence.
      + intros id t o Ho. destruct (H id t o Ho) as [p [[id' [s [m [H1 [H2 [H3 [H4 [H5 [H6 [H7 H8]]]]]]]]]] _]].
        simpl in H2. injection H2 as ->. simpl in H7, H8.
        unfold measurement_errors in H4. rewrite nth_error_map in H4.
        destruct (nth_error base_wage (length ids * t + p)) as [mb|] eqn:Eb; [|discriminate].
        simpl in H4. injection H4 as Em.
        exists p, s, mb. split; [exact H1|]. split; [exact H3|]. split; [exact Eb|].
        split; [|rewrite Em; exact H8].
        apply (row_right si (next_key t) t (id', t) (o_ind o) s m mb o); auto.
        * apply SU.
        * eapply su_names; exact SU.
        * eapply su_meas; exact SU.
        * apply (Hpos t). exact H7.
        * apply (su_base_wage _ _ _ _ _ _ _ _ _ _ _ _ _ _ SU). eapply nth_error_In; eauto.
  Qed.

  Lemma panel_model : forall si order next_key n ids base base_wage df,
    simulation_setup sp neg kp grid ss inp ev si order n ids base base_wage df ->
    exists panel,
      simulate_n_step env si order next_key 0 n base base_wage df = Ok panel /\
      map fst panel = panel_index ids n /\
      (forall id o, In ((id, 0), o) panel -> In ((id, 0), o_ind o) df) /\
      (forall id t o o', In ((id, t), o) panel -> In ((id, S t), o') panel ->
         o_ind o' = mkInd (law_of_motion (o_choice o) (i_core (o_ind o))) (i_dense (o_ind o))) /\
      (forall id t o, In ((id, t), o) panel -> exists p s m,
         nth_error ids p = Some id /\ nth_error base (length ids * t + p) = Some s /\
         nth_error base_wage (length ids * t + p) = Some m /\
         right_row sp neg kp grid ss inp ev si t s m o).
  Proof.
    intros si order next_key n ids base base_wage df SU.
    destruct (panel_rows si order next_key n ids base base_wage df SU) as [panel [H1 [H2 [H3 [H4 H5]]]]].
    exists panel. repeat (split; [assumption|]). intros id t o Ho.
    destruct (H5 id t o Ho) as [p [s [m [E1 [E2 [E3 [E4 _]]]]]]]. eauto 8.
  Qed.


  Lemma measurement_firstn : forall si q base, measurement_errors si (firstn q base) = firstn q (measurement_errors si base).
  Proof. intros si q base. unfold measurement_errors. symmetry. apply firstn_map. Qed.

  Lemma panel_short : forall si order next_key n ids base base_wage df q q',
    simulation_setup sp neg kp grid ss inp ev si order n ids base base_wage df ->
    q < length ids * n \/ q' < length ids * n ->
    simulate_n_step env si order next_key 0 n (firstn q base) (firstn q' base_wage) df = ValueError.
  Proof.
    intros si order next_key n ids base base_wage df q q' SU HQ.
    assert (LCh : si_choices si = seq 0 nch).
    { rewrite (su_names _ _ _ _ _ _ _ _ _ _ _ _ _ _ SU). apply SM. }
    assert (NC : NoDup (si_choices si)) by (rewrite LCh; apply seq_NoDup).
    assert (LC : length (si_choices si) = nch) by (rewrite LCh; apply seq_length).
    assert (SQ : square nch (p_chol (si_params si))).
    { rewrite (su_params _ _ _ _ _ _ _ _ _ _ _ _ _ _ SU). apply SM. }
    assert (Hpos : forall t x, in_model core grid t x -> 0 < count_true (csf (context grid x) (i_core x))).
    { intros t x [H1 [_ H3]]. destruct (su_choice _ _ _ _ _ _ _ _ _ _ _ _ _ _ SU (i_core x) x H1 H3) as [ch Hc].
      unfold available in Hc. fold csf in Hc. apply In_positions in Hc. rewrite <- length_positions.
      destruct (positions (csf (context grid x) (i_core x))); [destruct Hc|simpl; lia]. }
    pose proof (su_periods _ _ _ _ _ _ _ _ _ _ _ _ _ _ SU) as Hn.
    unfold simulate_n_step. rewrite measurement_firstn.
    rewrite (n_step_short env si order next_key nch 0 n base (measurement_errors si base_wage) ids
                (in_model core grid)) with (df := df); [reflexivity|..].
    - apply SU.
    - exact SQ.
    - exact NC.
    - exact LC.
    - intros t Ht. apply ready. unfold np. lia.
    - intros t x Ht IM. destruct (found_spec t x IM (Hpos t x IM)) as (k&i&wm&npm&cm&w&npr&c&Fo&_).
      do 9 eexists. exact Fo.
    - intros t id x k i cx wm npm cm w npr c s m o Ht IM Fo Ls Lm Eo.
      pose proof (found_complex _ _ _ _ _ _ _ _ _ _ _ IM (Hpos t x IM) Fo) as Ecs.
      destruct (simulate_row_spec nch si (next_key t) cx wm npm cm (id, t) (mkRow x k i s m) w npr c)
        as [o' [Eo' [O1 [_ [_ [O4 [_ [O6 _]]]]]]]]; simpl; auto; try apply Fo.
      rewrite Eo in Eo'. injection Eo' as <-. simpl in O1.
      unfold next_state, update_dense. cbn [result_bind].
      eexists. split; [reflexivity|]. rewrite O1.
      destruct IM as [M1 [M2 M3]].
      assert (Av : nth_error (csf (context grid x) (i_core x)) (o_choice o) = Some true).
      { rewrite <- Ecs. apply (record_available (si_choices si) _ (o_values o)); auto.
        rewrite LC. apply Fo. }
      split; [|split]; simpl.
      + eapply CL; [exact M1| |exact Av]. rewrite M2. unfold np. lia.
      + rewrite M2. reflexivity.
      + destruct grid; auto.
    - eapply su_increasing; exact SU.
    - eapply su_some; exact SU.
    - eapply su_base; exact SU.
    - apply length_measurement; [eapply su_meas; exact SU|eapply su_base_wage; exact SU].
    - exact HQ.
    - reflexivity.
    - lia.
    - lia.
    - eapply su_index; exact SU.
    - intros id x Hx. eapply su_states; eauto.
    - destruct n; [|lia]. rewrite Nat.mul_0_r in HQ. lia.
  Qed.

  (** *** one-step-ahead *)
  Lemma combine_filter : forall A B (f : A -> bool) (l : list A) (m : list B), length l = length m ->
    combine (filter f l) (compress (map f l) m) = filter (fun p => f (fst p)) (combine l m).
  Proof.
    induction l as [|x l IH]; intros [|y m] H; simpl in *; try discriminate; [reflexivity|].
    destruct (f x); simpl; rewrite IH by lia; reflexivity.
  Qed.

  Lemma compress_combine : forall A B (m : list bool) (l : list A) (l' : list B), length l = length m ->
    length l' = length m -> compress m (combine l l') = combine (compress m l) (compress m l').
  Proof.
    induction m as [|b m IH]; intros [|x l] [|y l'] H H'; simpl in *; try discriminate; [reflexivity|].
    destruct b; simpl; rewrite IH by lia; reflexivity.
  Qed.

  Lemma Forall2_exists : forall A B (P : A -> B -> Prop) l, (forall a, In a l -> exists b, P a b) ->
    exists l', Forall2 P l l'.
  Proof.
    induction l as [|a l IH]; intros H; [exists []; constructor|].
    destruct (H a (or_introl eq_refl)) as [b Hb]. destruct IH as [l' Hl]; [intros; apply H; right; auto|].
    exists (b :: l'). constructor; auto.
  Qed.

  Lemma Forall2_filter : forall A B (P : A -> B -> Prop) (f : A -> bool) (g : B -> bool) l l',
    Forall2 P l l' -> (forall a b, P a b -> f a = g b) -> Forall2 P (filter f l) (filter g l').
  Proof.
    induction 1 as [|a b l l' H _ IH]; intros E; simpl; [constructor|].
    rewrite (E a b H). destruct (g b); [constructor|]; auto.
  Qed.

  Lemma Forall2_det : forall A B (P : A -> B -> Prop) l l1 l2,
    (forall a b b', In a l -> P a b -> P a b' -> b = b') -> Forall2 P l l1 -> Forall2 P l l2 -> l1 = l2.
  Proof.
    induction l as [|a l IH]; intros l1 l2 D H1 H2; inversion H1; inversion H2; subst; [reflexivity|].
    f_equal; [eapply D; eauto; left; reflexivity|]. apply IH; auto. intros; eapply D; eauto; right; auto.
  Qed.

  Lemma filter_sorted : forall A (R : A -> A -> Prop) f l, StronglySorted R l -> StronglySorted R (filter f l).
  Proof.
    induction 1 as [|x l _ IH H]; simpl; [constructor|]. destruct (f x); [|exact IH].
    constructor; [exact IH|]. rewrite Forall_forall in *. intros y Hy. apply filter_In in Hy. apply H. tauto.
  Qed.

  Lemma ordered_filter : forall A (f : index * A -> bool) (df : frame A), ordered_frame df ->
    ordered_frame (filter f df).
  Proof.
    unfold ordered_frame. induction df as [|r df IH]; simpl; intros H; [constructor|].
    inversion H; subst. destruct (f r); simpl; [|auto]. constructor; [auto|].
    rewrite Forall_forall in *. intros y Hy. apply H3. apply in_map_iff in Hy. destruct Hy as [z [<- Hz]].
    apply filter_In in Hz. apply in_map. tauto.
  Qed.

  Lemma In_compress : forall A m (l : list A) x, In x (compress m l) -> In x l.
  Proof.
    induction m as [|b m IH]; intros [|y l] x H; simpl in *; auto; try contradiction.
    destruct b; simpl in H; [destruct H as [->|H]|]; auto.
  Qed.

  Lemma one_step_rows : forall si order next_key n base base_wage df,
    one_step_setup sp neg kp grid ss inp ev si order n base base_wage df ->
    exists panel, one_step env si order next_key n base base_wage df = Ok panel /\
      map fst panel = map fst df /\
      forall p id t x o, nth_error df p = Some ((id, t), x) -> nth_error panel p = Some ((id, t), o) ->
        exists s m, nth_error base p = Some s /\ nth_error base_wage p = Some m /\ o_ind o = x /\
          right_row sp neg kp grid ss inp ev si t s m o /\
          forall k i cx wm npm cm w npr c, found env nch t x k i cx wm npm cm w npr c ->
            simulate_row si (next_key t) cx wm npm cm (id, t)
              (mkRow x k i s (map (fun p : R * R => exp (fst p * snd p)) (combine m (si_meas si)))) = Ok o.
  Proof.
    intros si order next_key n base base_wage df OS.
    pose proof (os_params _ _ _ _ _ _ _ _ _ _ _ _ _ OS) as Ep.
    pose proof (os_names _ _ _ _ _ _ _ _ _ _ _ _ _ OS) as Ech.
    pose proof (os_meas _ _ _ _ _ _ _ _ _ _ _ _ _ OS) as Lsm.
    pose proof (os_ordered _ _ _ _ _ _ _ _ _ _ _ _ _ OS) as OF.
    pose proof (os_states _ _ _ _ _ _ _ _ _ _ _ _ _ OS) as ST.
    destruct (os_base _ _ _ _ _ _ _ _ _ _ _ _ _ OS) as [LB RB].
    destruct (os_base_wage _ _ _ _ _ _ _ _ _ _ _ _ _ OS) as [LW RW].
    assert (LCh : si_choices si = seq 0 nch) by (rewrite Ech; apply SM).
    assert (NC : NoDup (si_choices si)) by (rewrite LCh; apply seq_NoDup).
    assert (LC : length (si_choices si) = nch) by (rewrite LCh; apply seq_length).
    assert (SQ : square nch (p_chol (si_params si))) by (rewrite Ep; apply SM).
    assert (Hpos : forall t x, in_model core grid t x -> 0 < count_true (csf (context grid x) (i_core x))).
    { intros t x [H1 [_ H3]]. destruct (os_choice _ _ _ _ _ _ _ _ _ _ _ _ _ OS (i_core x) x H1 H3) as [ch Hc].
      unfold available in Hc. fold csf in Hc. apply In_positions in Hc. rewrite <- length_positions.
      destruct (positions (csf (context grid x) (i_core x))); [destruct Hc|simpl; lia]. }
    set (meas := measurement_errors si base_wage).
    destruct (length_measurement si base_wage Lsm (length df) (conj LW RW)) as [LM RM]. fold meas in LM, RM.
    set (Z := combine df (combine base meas)).
    set (Rel := fun (z : index * individual * (list R * list R)) (o : index * outcome) =>
       fst o = fst (fst z) /\ forall k i cx wm npm cm w npr c,
         found env nch (snd (fst (fst z))) (snd (fst z)) k i cx wm npm cm w npr c ->
         simulate_row si (next_key (snd (fst (fst z)))) cx wm npm cm (fst (fst z))
           (mkRow (snd (fst z)) k i (fst (snd z)) (snd (snd z))) = Ok (snd o)).
    assert (HZ : forall z, In z Z -> exists id t x s m, z = (((id, t), x), (s, m)) /\ In ((id, t), x) df /\
              t < n /\ in_model core grid t x /\ length s = nch /\ length m = nch).
    { intros [[[id t] x] [s m]] Hz. exists id, t, x, s, m. split; [reflexivity|].
      pose proof (in_combine_l _ _ _ _ Hz) as H1. pose proof (in_combine_r _ _ _ _ Hz) as H2.
      split; [exact H1|]. destruct (ST _ _ _ H1) as [S1 S2]. split; [exact S1|]. split; [exact S2|].
      split; [apply RB; exact (in_combine_l _ _ _ _ H2)|apply RM; exact (in_combine_r _ _ _ _ H2)]. }
    assert (HFo : forall t x, in_model core grid t x ->
              exists k i cx wm npm cm w npr c, found env nch t x k i cx wm npm cm w npr c).
    { intros t x IM. destruct (found_spec t x IM (Hpos t x IM)) as (k&i&wm&npm&cm&w&npr&c&Fo&_).
      do 9 eexists. exact Fo. }
    assert (Hready : forall t, t < n -> period_ready env t).
    { intros t Ht. destruct (os_every _ _ _ _ _ _ _ _ _ _ _ _ _ OS t Ht) as [id [x Hx]].
      apply ready. destruct (ST _ _ _ Hx) as [_ IM]. eapply in_model_period; eauto. }
    assert (Det : forall z o o', In z Z -> Rel z o -> Rel z o' -> o = o').
    { intros z [i1 o1] [i2 o2] Hz [E1 R1] [E2 R2].
      destruct (HZ z Hz) as (id&t&x&s&m&->&_&_&IM&_&_). simpl in *.
      destruct (HFo t x IM) as (k&i&cx&wm&npm&cm&w&npr&c&Fo).
      specialize (R1 _ _ _ _ _ _ _ _ _ Fo). specialize (R2 _ _ _ _ _ _ _ _ _ Fo). congruence. }
    (* each period *)
    assert (Hper : forall t, t < n -> exists out,
       simulate_period env si order next_key t (filter (fun r => Nat.eqb (snd (fst r)) t) df)
           (compress (rows_of_period df t) base) (compress (rows_of_period df t) meas) = Ok out /\
       Forall2 Rel (filter (fun z => Nat.eqb (snd (fst (fst z))) t) Z) out).
    { intros t Ht.
      set (f := fun r : index * individual => Nat.eqb (snd (fst r)) t).
      assert (Lrp : length (rows_of_period df t) = length df) by (unfold rows_of_period; apply map_length).
      assert (Lf : forall A (l : list A), length l = length df -> length (compress (rows_of_period df t) l) = length (filter f df)).
      { intros A l Hl. rewrite length_compress by lia. unfold rows_of_period, f. clear. unfold frame, index in *.
        induction df as [|r df IH]; simpl; [reflexivity|].
        destruct (Nat.eqb (snd (fst r)) t); simpl; rewrite IH; reflexivity. }
      destruct (simulate_period_spec env si order next_key nch t (filter f df)
                  (compress (rows_of_period df t) base) (compress (rows_of_period df t) meas))
        as [out [E [Lout Hout]]]; auto.
      - eapply os_order; exact OS.
      - apply ordered_filter, OF.
      - destruct (os_every _ _ _ _ _ _ _ _ _ _ _ _ _ OS t Ht) as [id [x Hx]].
        intros Q. assert (Hin : In ((id, t), x) (filter f df)).
        { apply filter_In. split; [exact Hx|]. unfold f. simpl. apply Nat.eqb_refl. }
        rewrite Q in Hin. destruct Hin.
      - intros s Hs. apply RB. eapply In_compress; eauto.
      - intros s Hs. apply RM. eapply In_compress; eauto.
      - intros id x Hx. apply filter_In in Hx. destruct Hx as [Hx Hp]. unfold f in Hp. simpl in Hp.
        apply Nat.eqb_eq in Hp. destruct id as [id t']. simpl in Hp. subst t'.
        apply HFo. eapply ST. exact Hx.
      - exists out. split; [exact E|].
        assert (EZ : filter (fun z => Nat.eqb (snd (fst (fst z))) t) Z =
                     combine (filter f df) (combine (compress (rows_of_period df t) base) (compress (rows_of_period df t) meas))).
        { unfold Z. rewrite <- compress_combine by lia.
          unfold rows_of_period. rewrite combine_filter by (rewrite combine_length; unfold frame, index in *; lia). reflexivity. }
        rewrite EZ. apply Forall2_nth_iff. split.
        { rewrite !combine_length, !Lf by assumption. lia. }
        intros q [[[id t'] x] [s m]] o Hz Ho. rewrite !nth_error_combine in Hz.
        destruct (nth_error (filter f df) q) as [r|] eqn:H1; [|discriminate].
        destruct (nth_error (compress (rows_of_period df t) base) q) as [s'|] eqn:H2; [|discriminate].
        destruct (nth_error (compress (rows_of_period df t) meas) q) as [m'|] eqn:H3; [|discriminate].
        injection Hz as -> -> ->.
        assert (t' = t).
        { apply nth_error_In, filter_In in H1. destruct H1 as [_ H1]. apply Nat.eqb_eq in H1. exact H1. }
        subst t'. destruct (Hout _ _ _ _ _ _ H1 H2 H3 Ho) as [A1 A2]. split; [exact A1|]. simpl. exact A2. }
    (* all outcomes in the order of the data *)
    destruct (Forall2_exists _ _ Rel Z) as [O HO].
    { intros z Hz. destruct (HZ z Hz) as (id&t&x&s&m&->&_&_&IM&Ls&Lm).
      destruct (HFo t x IM) as (k&i&cx&wm&npm&cm&w&npr&c&Fo).
      assert (Ht : t < n) by (destruct (HZ _ Hz) as (?&?&?&?&?&Q&_&Ht&_); injection Q as -> -> -> -> ->; exact Ht).
      destruct (Hper t Ht) as [out [_ Fout]].
      assert (Hf : In (((id, t), x), (s, m)) (filter (fun z => Nat.eqb (snd (fst (fst z))) t) Z)).
      { apply filter_In. split; [exact Hz|]. simpl. apply Nat.eqb_refl. }
      apply In_nth_error in Hf. destruct Hf as [q Hq].
      destruct (Forall2_nth_l _ _ _ _ _ _ _ Fout Hq) as [o [_ Ho]]. eauto. }
    assert (IO : map fst O = map fst df).
    { transitivity (map (fun z => fst (fst z)) Z).
      - clear - HO. induction HO as [|z o l l' [H _] _ IH]; simpl; [reflexivity|]. f_equal; [exact H|exact IH].
      - unfold Z. rewrite <- (map_map fst fst). f_equal. apply map_fst_combine. rewrite combine_length; lia. }
    exists O. unfold one_step. fold meas.
    set (per := fun t => simulate_period env si order next_key t (filter (fun r => Nat.eqb (snd (fst r)) t) df)
           (compress (rows_of_period df t) base) (compress (rows_of_period df t) meas)).
    destruct (result_all_Ok_exists _ _ per (seq 0 n)) as [frames Efr].
    { intros t Ht. apply in_seq in Ht. destruct (Hper t ltac:(lia)) as [out [E _]]. eauto. }
    rewrite Efr. cbn [result_bind].
    assert (Ecat : concat frames = flat_map (fun t => filter (fun o => Nat.eqb (snd (fst o)) t) O) (seq 0 n)).
    { rewrite flat_map_concat_map. f_equal. apply result_all_map_Ok in Efr.
      assert (G : forall l fr, (forall t, In t l -> t < n) -> Forall2 (fun a x => per a = Ok x) l fr ->
                 fr = map (fun t => filter (fun o : index * outcome => Nat.eqb (snd (fst o)) t) O) l).
      { induction l as [|t l IHl]; intros fr Hl Hfr; inversion Hfr; subst; simpl; [reflexivity|].
        f_equal; [|apply IHl; auto; intros; apply Hl; right; auto].
        destruct (Hper t (Hl t (or_introl eq_refl))) as [out [E Fout]]. unfold per in H1. rewrite E in H1.
        injection H1 as <-.
        apply (Forall2_det _ _ Rel (filter (fun z => Nat.eqb (snd (fst (fst z))) t) Z)); [|exact Fout|].
        - intros a b b' Ha. apply Det. apply filter_In in Ha. tauto.
        - apply Forall2_filter; [exact HO|]. intros a b [H _]. rewrite H. reflexivity. }
      apply G; [|exact Efr]. intros t Ht. apply in_seq in Ht. lia. }
    assert (ES : sort_index (concat frames) = O).
    { apply sort_index_perm; [unfold ordered_frame; rewrite IO; exact OF|]. rewrite Ecat.
      rewrite (perm_groups _ (fun o : index * outcome => snd (fst o)) (seq 0 n) O) by apply seq_NoDup.
      rewrite filter_all; [reflexivity|]. intros [[id t] o] Ho. apply mem_In. simpl.
      apply (in_map fst) in Ho. rewrite IO in Ho. apply in_map_iff in Ho.
      destruct Ho as [[i x] [Q Hx]]. simpl in Q. subst i. destruct (ST _ _ _ Hx) as [Ht _].
      apply in_seq. lia. }
    rewrite ES. split; [reflexivity|]. split; [exact IO|].
    intros p id t x o Hd Ho.
    destruct (nth_error base p) as [s|] eqn:Es; [|apply nth_error_None in Es; apply nth_error_lt in Hd; unfold frame, index in *; lia].
    destruct (nth_error base_wage p) as [mb|] eqn:Em; [|apply nth_error_None in Em; apply nth_error_lt in Hd; unfold frame, index in *; lia].
    assert (Emeas : nth_error meas p = Some (map (fun p : R * R => exp (fst p * snd p)) (combine mb (si_meas si)))).
    { unfold meas, measurement_errors. rewrite nth_error_map, Em. reflexivity. }
    exists s, mb. split; [reflexivity|]. split; [reflexivity|].
    assert (Hz : nth_error Z p = Some (((id, t), x), (s, map (fun p : R * R => exp (fst p * snd p)) (combine mb (si_meas si))))).
    { unfold Z. rewrite !nth_error_combine, Hd, Es, Emeas. reflexivity. }
    destruct (Forall2_nth_l _ _ _ _ _ _ _ HO Hz) as [o' [Ho' [_ Hr]]]. rewrite Ho in Ho'. injection Ho' as <-.
    simpl in Hr. destruct (ST id t x (nth_error_In _ _ Hd)) as [Ht IM].
    assert (X : o_ind o = x /\ right_row sp neg kp grid ss inp ev si t s mb o).
    { eapply row_right; eauto.
      - apply RB. eapply nth_error_In; eauto.
      - apply RW. eapply nth_error_In; eauto. }
    destruct X as [X1 X2]. split; [exact X1|]. split; [exact X2|]. exact Hr.
  Qed.

  Lemma one_step_model : forall si order next_key n base base_wage df,
    one_step_setup sp neg kp grid ss inp ev si order n base base_wage df ->
    exists panel, one_step env si order next_key n base base_wage df = Ok panel /\
      map fst panel = map fst df /\
      forall p id t x o, nth_error df p = Some ((id, t), x) -> nth_error panel p = Some ((id, t), o) ->
        exists s m, nth_error base p = Some s /\ nth_error base_wage p = Some m /\ o_ind o = x /\
          right_row sp neg kp grid ss inp ev si t s m o.
  Proof.
    intros si order next_key n base base_wage df OS.
    destruct (one_step_rows si order next_key n base base_wage df OS) as [panel [H1 [H2 H3]]].
    exists panel. split; [exact H1|]. split; [exact H2|]. intros p id t x o Hd Ho.
    destruct (H3 p id t x o Hd Ho) as [s [m [E1 [E2 [E3 [E4 _]]]]]]. eauto 8.
  Qed.
End PanelModel.
