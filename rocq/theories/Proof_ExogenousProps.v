(** Statements about exogenous processes in the form used by the property theorems. *)
From Coq Require Import List Arith Bool Reals Lra Lia.
From Verif Require Import Base Proof_Base Model_CoreStateSpace Spec_CoreStateSpace Proof_CoreStateSpace
  Model_StateSpace Spec_StateSpace Proof_StateSpace Model_Solve Spec_Solve Proof_Solve Proof_SolveProps
  Model_Simulate Proof_SimulateProps Model_Exogenous Spec_Exogenous Proof_Exogenous
  Proof_ExogenousSolve Proof_ExogenousInduction.
Import ListNotations.
Open Scope R_scope.

(** ** the layout of the grid *)
Lemma layout_succeeds : forall nchoices nperiods core csf grid levels,
  NoDup core -> closed_under_choices nperiods core csf -> collision_free core csf grid ->
  homogeneous core csf grid -> (forall ctx s, length (csf ctx s) = nchoices) ->
  grid <> [] -> exogenous_layout grid levels ->
  exists sx, create_state_space_exog nperiods core csf grid levels = Ok sx.
Proof.
  intros nchoices nperiods core csf grid levels ND CL CF HH LEN GN LAY.
  destruct (create_state_space_succeeds nperiods core csf grid ND CL CF HH) as [ss CR].
  pose proof (create_state_space_facts _ _ _ _ _ CR) as F.
  destruct (transits_exist nperiods core csf grid ss levels ND CF CR LAY GN) as [ts TR].
  destruct (reps_exist nchoices nperiods core csf grid ss levels ts ND CF CR LEN LAY GN TR) as [tr TCS].
  destruct (children_exist nchoices nperiods core csf grid ss levels ts tr ND CL CF CR LEN LAY GN TR TCS) as [ch CH].
  unfold create_state_space_exog. rewrite (sf_dpc _ _ _ _ _ F). cbn [result_bind fst snd].
  rewrite TR. cbn [result_bind]. rewrite TCS. cbn [result_bind].
  rewrite (sf_indexer _ _ _ _ _ F) in CH. rewrite CH. cbn [result_bind]. eauto.
Qed.

Lemma result_all_nth : forall A B (f : A -> result B) l xs i a,
  result_all (map f l) = Ok xs -> nth_error l i = Some a ->
  exists x, nth_error xs i = Some x /\ f a = Ok x.
Proof. exact nth_error_result_all. Qed.

Lemma dict_update_get_In : forall K V (eqd : forall x y : K, {x = y} + {x <> y}) k (v : V) d2 d1,
  dict_get eqd k (dict_update eqd d1 d2) = Some v -> In (k, v) d2 \/ dict_get eqd k d1 = Some v.
Proof.
  unfold dict_update. induction d2 as [|[k' v'] d2 IH]; cbn [fold_left fst snd]; intros d1 H; [auto|].
  destruct (IH _ H) as [I|I]; [left; right; exact I|].
  destruct (eqd k k') as [->|N].
  - rewrite dict_get_set_same in I. injection I as ->. left. left. reflexivity.
  - rewrite dict_get_set_other in I by exact N. auto.
Qed.

Lemma transit_key_form : forall nperiods core csf grid ss levels k cx ck d vec ks, NoDup grid ->
  collision_free core csf grid -> ss_facts nperiods core csf grid ss ->
  nth_error (ss_dpc ss) k = Some (cx, ck) -> cx_dense cx = Some d -> nth_error grid d = Some vec ->
  transit_keys grid (ss_dpc ss) levels k = Ok ks ->
  Forall2 (fun e k' => exists d', nth_error grid d' = Some (drop_last (length levels) vec ++ e) /\
                                  key_at (ss_dpc ss) k' d' ck) (combinations levels) ks.
Proof.
  intros nperiods core csf grid ss levels k cx ck d vec ks NG CF F Hk Hd G H.
  unfold transit_keys, dense_covariates_of_key in H. rewrite Hk, Hd, G in H. cbn [result_bind] in H.
  apply result_bind_Ok in H. destruct H as [ds [H1 H2]].
  apply result_all_map_Ok in H1. apply result_all_map_Ok in H2. rewrite <- combinations_grid in H1.
  revert ks H2. induction H1 as [|e d0 es ds0 E _ IH]; intros ks H2; inversion H2 as [|? y ? ? H3 H4]; subst; constructor; auto.
  destruct (dict_get dense_eq_dec (drop_last (length levels) vec ++ e) (dense_covariates_to_dense_index grid))
    as [d1|] eqn:Ed; [|discriminate]. injection E as ->.
  apply (dense_index_lookup grid d0 _ NG) in Ed. exists d0. split; [exact Ed|].
  destruct (dict_get pair_nat_eq_dec (ck, d0) (core_key_and_dense_index_to_dense_key (ss_dpc ss))) as [k1|] eqn:Ek;
    [|discriminate]. injection H3 as ->.
  unfold core_key_and_dense_index_to_dense_key, dict_of_pairs in Ek.
  (* the key found belongs to this core key and dense index *)
  assert (I : In ((ck, d0), y) (map (fun p => (core_dense_key (snd (snd p)) (cx_dense (fst (snd p))), fst p))
                (enumerate (ss_dpc ss)))).
  { apply dict_update_get_In in Ek. destruct Ek as [Ek|Ek]; [exact Ek|discriminate]. }
  apply in_map_iff in I. destruct I as [[k2 [cx2 ck2]] [E2 I]]. simpl in E2. apply In_enumerate in I.
  injection E2 as -> E2 ->. exists cx2. split; [exact I|].
  destruct (dpc_facts_all _ _ _ _ CF (sf_dpc _ _ _ _ _ F)) as [N En Fi]. simpl in *.
  pose proof (proj1 (En cx2 ck) (nth_error_In _ _ I)) as [ctx2 [inds2 [Dc2 _]]].
  destruct (cx_dense cx2) as [d2|]; [congruence|]. destruct Dc2 as [-> _]. destruct d; discriminate.
Qed.

Lemma layout_needed : forall nperiods core csf grid levels sx,
  NoDup core -> closed_under_choices nperiods core csf -> collision_free core csf grid ->
  NoDup grid -> core <> [] ->
  create_state_space_exog nperiods core csf grid levels = Ok sx ->
  grid <> [] /\ exogenous_layout grid levels.
Proof.
  intros nperiods core csf grid levels sx ND CL CF NG NE H.
  destruct (create_exog_facts _ _ _ _ _ _ ND CL CF H) as [ss [transits [CR [EX [TR [TCS CH]]]]]].
  pose proof (create_state_space_facts _ _ _ _ _ CR) as F.
  destruct core as [|s0 core0] eqn:Ecore; [congruence|]. rewrite <- Ecore in *.
  assert (I0 : In s0 core) by (rewrite Ecore; left; reflexivity). clear NE.
  assert (LT : length transits = length (ss_dpc ss)).
  { apply result_all_map_Ok, Forall2_length_eq in TR. rewrite seq_length in TR. auto. }
  assert (TK : forall k, (k < length (ss_dpc ss))%nat -> exists ks, nth_error transits k = Some ks /\
             transit_keys grid (ss_dpc ss) levels k = Ok ks).
  { intros k Hk. apply (result_all_nth _ _ _ _ _ _ _ TR). apply nth_error_seq0. exact Hk. }
  assert (GN : grid <> []).
  { intros G. assert (Dc : dense_combination grid None None) by (split; auto).
    destruct (located_exists _ _ _ _ _ _ _ _ CF F I0 Dc) as [k [r [cx [ck [Hk [Hd _]]]]]].
    destruct (TK k (nth_error_lt _ _ _ _ Hk)) as [ks [_ T]].
    unfold transit_keys, dense_covariates_of_key in T. rewrite Hk, Hd in T. discriminate. }
  split; [exact GN|]. split; [exact NG|]. intros vec Hv.
  apply In_nth_error in Hv. destruct Hv as [d G].
  assert (Dc : dense_combination grid (Some d) (Some vec)) by (exists vec; auto).
  destruct (located_exists _ _ _ _ _ _ _ _ CF F I0 Dc) as [k [r [cx [ck [Hk [Hd _]]]]]].
  destruct (TK k (nth_error_lt _ _ _ _ Hk)) as [ks [_ T]].
  pose proof (transit_key_form _ _ _ _ _ _ _ _ _ _ _ _ NG CF F Hk Hd G T) as TF.
  (* the key is reached from some key *)
  unfold transit_choice_sets in TCS.
  assert (Hs : nth_error (seq 0 (length transits)) k = Some k).
  { apply nth_error_seq0. rewrite LT. eapply nth_error_lt; eauto. }
  destruct (result_all_nth _ _ _ _ _ _ _ TCS Hs) as [rep [_ R]].
  destruct (map snd (filter (fun p => existsb (Nat.eqb k) (fst p))
      (combine transits (map (fun p => cx_choice_set (fst p)) (ss_dpc ss))))) as [|cs0 css] eqn:EF; [discriminate|].
  assert (I : In cs0 (cs0 :: css)) by (left; reflexivity). rewrite <- EF in I.
  apply reached_from in I. destruct I as [k' [ks' [cx' [ck' [T1 [I' [Hk' _]]]]]]].
  destruct (TK k' (nth_error_lt _ _ _ _ Hk')) as [ks2 [T2 T3]]. rewrite T1 in T2. injection T2 as <-.
  destruct (dpc_facts_all _ _ _ _ CF (sf_dpc _ _ _ _ _ F)) as [N En Fi]. simpl in *.
  pose proof (proj1 (En cx' ck') (nth_error_In _ _ Hk')) as [ctx' [inds' [Dc' _]]].
  destruct (cx_dense cx') as [d'|] eqn:Hd'; [|destruct Dc'; contradiction].
  destruct Dc' as [vec' [G' ->]].
  pose proof (transit_key_form _ _ _ _ _ _ _ _ _ _ _ _ NG CF F Hk' Hd' G' T3) as TF'.
  apply In_nth_error in I'. destruct I' as [n Hn].
  assert (X : exists e, In e (combinations levels) /\ exists d2, nth_error grid d2 = Some (drop_last (length levels) vec' ++ e) /\
             key_at (ss_dpc ss) k d2 ck').
  { clear - TF' Hn. revert n Hn. induction TF'; intros [|n] Hn; simpl in *; try discriminate.
    - injection Hn as ->. eauto.
    - destruct (IHTF' n Hn) as [e [I E]]. eauto. }
  destruct X as [e [Ie [d2 [G2 [cx2 [Hk2 Hd2]]]]]].
  rewrite Hk in Hk2. injection Hk2 as <- <-. rewrite Hd in Hd2. injection Hd2 as <-.
  rewrite G in G2. injection G2 as ->. apply In_combinations in Ie.
  exists (drop_last (length levels) vec'), e. split; [reflexivity|]. split; [exact Ie|].
  intros e' He'. rewrite (drop_last_app _ _ e) in TF by (apply combination_length; exact Ie).
  apply In_combinations in He'. destruct (Forall2_In_l _ _ _ _ _ _ TF He') as [k3 [[d3 [G3 _]] _]].
  eapply nth_error_In; eauto.
Qed.

Lemma processes_have_levels : forall grid procs, grid <> [] -> exogenous_layout grid (levels_of procs) ->
  Forall (fun p => p <> []) procs.
Proof.
  intros [|vec grid] procs GN [_ H]; [congruence|].
  destruct (H vec (or_introl eq_refl)) as [st [e [_ [C _]]]]. revert C. clear. unfold combination, levels_of.
  revert e. induction procs as [|p procs IH]; intros e C; inversion C; subst; constructor; eauto.
  intros ->. simpl in *. lia.
Qed.

(** ** C29 *)
Lemma transit_states : forall nperiods core csf grid levels sx k r s vec d,
  NoDup core -> closed_under_choices nperiods core csf -> collision_free core csf grid ->
  NoDup grid -> create_state_space_exog nperiods core csf grid levels = Ok sx ->
  located sx k r s (Some d) -> nth_error grid d = Some vec ->
  exists ks static e, transit_keys grid (ss_dpc sx) levels k = Ok ks /\ NoDup ks /\
    vec = static ++ e /\ combination levels e /\
    Forall2 (fun e' k' => exists d', nth_error grid d' = Some (static ++ e') /\ located sx k' r s (Some d'))
            (combinations levels) ks.
Proof.
  intros nperiods core csf grid levels sx k r s vec d ND CL CF NG CX L G.
  destruct (create_exog_facts _ _ _ _ _ _ ND CL CF CX) as [ss [transits [CR [EX [TR [TCS CH]]]]]].
  pose proof (create_state_space_facts _ _ _ _ _ CR) as F.
  assert (DP : ss_dpc sx = ss_dpc ss) by (rewrite EX; reflexivity).
  assert (LOC : forall k r s d, located sx k r s d <-> located ss k r s d)
    by (intros; rewrite EX; apply sx_located).
  apply LOC in L.
  destruct (located_describes _ _ _ _ _ _ _ _ _ CF CR L) as [ctx [Dc [Hin _]]].
  assert (NE : core <> []) by (intros ->; destruct Hin).
  destruct (layout_needed _ _ _ _ _ _ ND CL CF NG NE CX) as [GN LAY].
  pose proof (proj2 LAY) as LG. destruct (LG vec (nth_error_In _ _ G)) as [static [e [E [C _]]]]. 
  pose proof L as [cx [ck [Hk [Hd M]]]].
  destruct (transit_keys_spec nperiods core csf grid ss levels ND CF F LAY k d ck vec static e) as [ks [H1 H2]]; auto.
  { exists cx; auto. }
  exists ks, static, e. rewrite DP. split; [exact H1|].
  split; [eapply NoDup_transit; eauto|]. split; [exact E|]. split; [exact C|].
  eapply Forall2_impl_In; [exact H2|]. intros e' k' _ _ [d' [G' [cx' [Hk' Hd']]]].
  exists d'. split; [exact G'|]. apply LOC. exists cx', ck. auto.
Qed.

(** ** C28 *)
Lemma weighted_values : forall nchoices nperiods core csf grid procs sx inp ev k r s vec d,
  NoDup core -> closed_under_choices nperiods core csf -> collision_free core csf grid ->
  NoDup grid -> procs <> [] -> wf_inputs nchoices csf inp ->
  create_state_space_exog nperiods core csf grid (levels_of procs) = Ok sx ->
  ev_shape sx ev -> located sx k r s (Some d) -> nth_error grid d = Some vec ->
  (S (cs_period s) < nperiods)%nat ->
  exists M row, get_weighted_continuation_values sx procs inp ev (cs_period s) k = Ok M /\
    nth_error M r = Some row /\ length row = count_true (csf (Some vec) s) /\
    forall j c, nth_error (positions (csf (Some vec) s)) j = Some c ->
      exists vals,
        Forall2 (fun e v => value_in sx ev (static_part (length procs) vec ++ e) (law_of_motion c s) v)
                (combinations (levels_of procs)) vals /\
        nth_error row j = Some (rsum (map (fun p => joint procs (in_cov inp (Some vec) s) (fst p) * snd p)
                                          (combine (combinations (levels_of procs)) vals))).
Proof.
  intros nchoices nperiods core csf grid procs sx inp ev k r s vec d ND CL CF NG PN WI CX SH L G HP.
  destruct (create_exog_facts _ _ _ _ _ _ ND CL CF CX) as [ss [transits [CR [EX [TR [TCS CH]]]]]].
  pose proof (create_state_space_facts _ _ _ _ _ CR) as F.
  assert (DP : ss_dpc sx = ss_dpc ss) by (rewrite EX; reflexivity).
  assert (LOC : forall k r s d, located sx k r s d <-> located ss k r s d)
    by (intros; rewrite EX; apply sx_located).
  apply LOC in L.
  destruct (located_facts _ _ _ _ _ _ _ _ _ CF F L) as
      [ctx' [cx [ck [inds [i [D' [Hk [Ecx [Gi [Hi Hs]]]]]]]]]].
  assert (NE : core <> []) by (intros ->; destruct i; discriminate).
  destruct (layout_needed _ _ _ _ _ _ ND CL CF NG NE CX) as [GN LAY].
  assert (Hinds : dense_key_to_core_indices ss k = Some inds).
  { unfold dense_key_to_core_indices, dense_key_to_core_key. rewrite nth_error_map, Hk. exact Gi. }
  assert (SHs : ev_shape ss ev) by (rewrite EX in SH; exact SH).
  assert (Pk : cx_period cx = cs_period s) by (rewrite Ecx; reflexivity).
  destruct (weighted_values_spec nchoices nperiods core csf grid ss procs inp transits (ss_transit sx) (ss_child sx)
             ND CL CF CR WI LAY PN GN TR TCS CH ev (cs_period s) k cx ck inds SHs HP Hk Pk Hinds)
    as [M [EM [LM HM]]].
  rewrite <- EX in EM. destruct (HM r s d vec L G) as [row [Hrow V]].
  exists M, row. split; [exact EM|]. split; [exact Hrow|]. split.
  { apply Forall2_length_eq in V. rewrite length_positions in V. auto. }
  intros j c Hj. destruct (Forall2_nth_l _ _ _ _ _ _ _ V Hj) as [w [Hw [vals [VV ->]]]].
  exists vals. split; [|exact Hw].
  eapply Forall2_impl_In; [exact VV|]. intros e v _ _ [d' [G' Va]]. exists d'.
  rewrite EX. split; [exact G'|]. apply sx_value_at. exact Va.
Qed.

(** Each key's choice set is contained in the representative choice set of the keys it can
    transit to. *)
Lemma representative : forall nchoices nperiods core csf grid levels sx k k' cx ck ks,
  NoDup core -> closed_under_choices nperiods core csf -> collision_free core csf grid ->
  NoDup grid -> core <> [] -> (forall ctx s, length (csf ctx s) = nchoices) ->
  create_state_space_exog nperiods core csf grid levels = Ok sx ->
  nth_error (ss_dpc sx) k = Some (cx, ck) -> transit_keys grid (ss_dpc sx) levels k = Ok ks -> In k' ks ->
  exists rep, nth_error (ss_transit sx) k' = Some rep /\ length rep = nchoices /\
    (forall c, nth_error (cx_choice_set cx) c = Some true -> nth_error rep c = Some true) /\
    compress (representation_cols rep (cx_choice_set cx)) (positions rep) = positions (cx_choice_set cx).
Proof.
  intros nchoices nperiods core csf grid levels sx k k' cx ck ks ND CL CF NG NE LEN CX Hk T I.
  destruct (create_exog_facts _ _ _ _ _ _ ND CL CF CX) as [ss [transits [CR [EX [TR [TCS CH]]]]]].
  pose proof (create_state_space_facts _ _ _ _ _ CR) as F.
  assert (DP : ss_dpc sx = ss_dpc ss) by (rewrite EX; reflexivity). rewrite DP in *.
  destruct (layout_needed _ _ _ _ _ _ ND CL CF NG NE CX) as [GN LAY].
  assert (Hs : nth_error (seq 0 (length (ss_dpc ss))) k = Some k)
    by (apply nth_error_seq0; eapply nth_error_lt; eauto).
  destruct (result_all_nth _ _ _ _ _ _ _ TR Hs) as [ks' [T1 T2]]. rewrite T in T2. injection T2 as <-.
  assert (Hk2 : exists cx' ck', nth_error (ss_dpc ss) k' = Some (cx', ck')).
  { destruct (key_exists nperiods core csf grid ss levels CF CR LAY GN _ _ _ Hk) as [d [vec [_ [_ [Hd [G _]]]]]].
    pose proof (transit_key_form _ _ _ _ _ _ _ _ _ _ _ _ NG CF F Hk Hd G T) as TF.
    apply In_nth_error in I. destruct I as [n Hn]. revert n Hn. clear - TF.
    induction TF as [|e k1 es ks [d1 [_ [cx1 [K1 _]]]] _ IH]; intros [|n] Hn; simpl in *; try discriminate; eauto.
    injection Hn as ->. eauto. }
  destruct Hk2 as [cx' [ck' Hk']].
  destruct (rep_spec nchoices nperiods core csf grid ss levels transits (ss_transit sx) ND CF CR LEN LAY GN TR TCS
              _ _ _ Hk') as [rep [R1 [R2 _]]].
  exists rep. split; [exact R1|]. split; [exact R2|].
  assert (SB : subset (cx_choice_set cx) rep)
    by (eapply (subset_rep nchoices nperiods core csf grid ss levels transits (ss_transit sx)); eauto).
  split; [apply SB|]. apply select_positions. exact SB.
Qed.

(** ** solution *)
Lemma solve_exog_model : forall sp neg k grid procs sx inp ev0,
  exogenous_model sp neg k grid procs sx inp -> p_delta (in_params inp) <> 0 -> ev_shape sx ev0 ->
  exists ev, solve_exog sx procs inp ev0 = Ok ev /\
    forall s vec, In s (create_core_state_space sp) -> In vec grid ->
      forall v, value_in sx ev vec s v <->
        v = expected_value (choice_set_of sp (process sp (S k) neg)) inp procs (sp_nperiods sp - cs_period s) vec s.
Proof.
  intros sp neg k grid procs sx inp ev0 [W L Fi NE NG PN CF CR IC LC NI] DN SH0.
  set (core := create_core_state_space sp) in *.
  set (csf := choice_set_of sp (process sp (S k) neg)) in *.
  assert (ND : NoDup core) by apply core_nodup.
  assert (CL : closed_under_choices (sp_nperiods sp) core csf) by exact Fi.
  assert (LEN : forall ctx s, length (csf ctx s) = sp_nchoices sp).
  { intros ctx s. unfold csf, choice_set_of. rewrite map_length, seq_length. reflexivity. }
  assert (WI : wf_inputs (sp_nchoices sp) csf inp).
  { split; [exact IC|]. split; [|exact (proj1 LC)]. exact LEN. }
  destruct (layout_needed _ _ _ _ _ _ ND CL CF NG NE CR) as [GN LAY].
  destruct (solve_exog_spec (sp_nchoices sp) (sp_nperiods sp) core csf grid sx procs inp) with (ev0 := ev0)
    as [ev [E [_ V]]]; auto.
  - intros s Hs. apply core_periods; assumption.
  - exists ev. split; [exact E|]. intros s vec Hs Hv v. apply V; assumption.
Qed.

(** ** The dense grid *)
From Verif Require Import Proof_DenseGrid.

Lemma Forall2_flip : forall A B (P : A -> B -> Prop) l m, Forall2 P l m <-> Forall2 (fun b a => P a b) m l.
Proof.
  intros A B P l m. split; intros H; induction H; constructor; auto.
Qed.

Lemma same_combinations : forall ws ls, Forall (fun w => (0 < w)%nat) ws ->
  (forall e, combination ws e <-> combination ls e) -> ws = ls.
Proof.
  unfold combination. induction ws as [|w ws IH]; intros ls P H.
  - assert (Y : Forall2 (fun l v => (v < l)%nat) ls []) by (apply H; constructor).
    inversion Y. reflexivity.
  - inversion P as [|? ? Pw Pws]; subst.
    assert (Z : combination ws (map (fun _ => 0%nat) ws)).
    { clear - Pws. unfold combination. induction Pws; simpl; constructor; auto. }
    assert (T : Forall2 (fun l v => (v < l)%nat) (w :: ws) ((w - 1)%nat :: map (fun _ => 0%nat) ws))
      by (constructor; [lia|exact Z]).
    apply H in T. inversion T as [|l ? ls' ? Tl Tls]; subst.
    assert (w = l).
    { assert (T2 : Forall2 (fun l v => (v < l)%nat) (l :: ls') ((l - 1)%nat :: map (fun _ => 0%nat) ws))
        by (constructor; [lia|exact Tls]).
      apply H in T2. inversion T2; subst. lia. }
    subst l. f_equal. apply IH; [exact Pws|]. intros e. split; intros E.
    + assert (X : Forall2 (fun l v => (v < l)%nat) (w :: ws) (0%nat :: e)) by (constructor; auto).
      apply H in X. inversion X; subst; auto.
    + assert (X : Forall2 (fun l v => (v < l)%nat) (w :: ls') (0%nat :: e)) by (constructor; auto).
      apply H in X. inversion X; subst; auto.
Qed.

Lemma layout_of_product : forall ws levels, Forall (fun w => (0 < w)%nat) ws ->
  exogenous_layout (combinations ws) levels <-> exists ws1, ws = ws1 ++ levels.
Proof.
  intros ws levels P. split.
  - intros [_ H].
    assert (Z : combination ws (map (fun _ => 0%nat) ws)).
    { clear - P. unfold combination. induction P; simpl; constructor; auto. }
    apply In_combinations in Z. destruct (H _ Z) as [st [e [E [C X]]]].
    rewrite E in Z. apply In_combinations in Z. unfold combination in Z.
    apply Forall2_app_inv_r in Z. destruct Z as [ws1 [ws2 [Z1 [Z2 ->]]]].
    exists ws1. f_equal. apply same_combinations; [apply Forall_app in P; tauto|].
    assert (L2 : length ws2 = length levels).
    { apply Forall2_length_eq in Z2. apply Forall2_length_eq in C. congruence. }
    intros f. split; intros F.
    + assert (I : In (st ++ f) (combinations (ws1 ++ ws2))).
      { apply In_combinations. apply Forall2_app; assumption. }
      destruct (H _ I) as [st' [e' [E' [C' _]]]].
      assert (length f = length e').
      { apply Forall2_length_eq in F. apply Forall2_length_eq in C'. congruence. }
      assert (f = e').
      { apply (f_equal (@rev nat)) in E'. rewrite !rev_app_distr in E'.
        assert (E2 : firstn (length f) (rev f ++ rev st) = firstn (length f) (rev e' ++ rev st')) by congruence.
        rewrite H0 in E2 at 2. rewrite <- (rev_length f), <- (rev_length e') in E2.
        rewrite !firstn_app, !Nat.sub_diag, !firstn_all, !firstn_O, !app_nil_r in E2.
        apply (f_equal (@rev nat)) in E2. rewrite !rev_involutive in E2. exact E2. }
      subst e'. exact C'.
    + apply X in F. apply In_combinations in F. unfold combination in F.
      apply Forall2_app_inv_l in F. destruct F as [v1 [v2 [F1 [F2 F3]]]].
      assert (L1 : length v1 = length st).
      { apply Forall2_length_eq in F1. apply Forall2_length_eq in Z1. congruence. }
      assert (v2 = f).
      { apply (f_equal (skipn (length st))) in F3. rewrite <- L1 in F3 at 2.
        rewrite !skipn_app, !Nat.sub_diag, !skipn_all in F3. simpl in F3. congruence. }
      subst v2. exact F2.
  - intros [ws1 ->]. split; [apply NoDup_combinations|]. intros vec I.
    apply In_combinations in I. apply Forall2_app_inv_l in I. destruct I as [st [e [I1 [I2 ->]]]].
    exists st, e. split; [reflexivity|]. split; [exact I2|]. intros e' C'.
    apply In_combinations. apply Forall2_app; assumption.
Qed.

Lemma dense_grid_combinations : forall levels n_types, dims levels n_types <> [] ->
  dense_state_space_grid levels n_types = combinations (dims levels n_types).
Proof.
  intros levels n_types NE. rewrite combinations_grid. unfold exogenous_grid, dense_state_space_grid, dims in *.
  rewrite map_app.
  replace (map (seq 0) (if Nat.leb 2 n_types then [n_types] else []))
    with (if Nat.leb 2 n_types then [seq 0 n_types] else [])
    by (destruct (Nat.leb 2 n_types); reflexivity).
  destruct (product _) as [|[|x v] [|]] eqn:E; try reflexivity. exfalso.
  assert (I : In [] (product (map (seq 0) levels ++ (if Nat.leb 2 n_types then [seq 0 n_types] else []))))
    by (rewrite E; left; reflexivity).
  apply In_product in I. destruct levels; [|inversion I]. cbn [map app] in I.
  destruct (Nat.leb 2 n_types); [inversion I|]. apply NE. reflexivity.
Qed.

(** The construction accepts exactly the models whose last dense dimensions have as many
    levels as the processes. *)
Lemma accepted_iff : forall nchoices nperiods core csf levels n_types exog,
  NoDup core -> core <> [] -> closed_under_choices nperiods core csf ->
  let grid := dense_state_space_grid levels n_types in
  collision_free core csf grid -> homogeneous core csf grid ->
  (forall ctx s, length (csf ctx s) = nchoices) ->
  Forall (fun w => (0 < w)%nat) levels -> exog <> [] ->
  ((exists sx, create_state_space_exog nperiods core csf grid exog = Ok sx) <->
   exists static, dims levels n_types = static ++ exog).
Proof.
  intros nchoices nperiods core csf levels n_types exog ND NE CL grid CF HH LEN PW XN.
  assert (PD : Forall (fun w => (0 < w)%nat) (dims levels n_types)).
  { unfold dims. apply Forall_app. split; [exact PW|]. destruct (Nat.leb 2 n_types) eqn:T; constructor; auto.
    apply Nat.leb_le in T. lia. }
  assert (D : dims levels n_types <> [] -> grid = combinations (dims levels n_types))
    by (apply dense_grid_combinations).
  split.
  - intros [sx H].
    assert (NG : NoDup grid).
    { destruct (dims levels n_types) eqn:E; [|rewrite D by congruence; apply NoDup_combinations].
      unfold grid, dense_state_space_grid. unfold dims in E. destruct levels; [|discriminate].
      destruct (Nat.leb 2 n_types); [discriminate|]. constructor. }
    destruct (layout_needed _ _ _ _ _ _ ND CL CF NG NE H) as [GN LAY].
    destruct (dims levels n_types) as [|w ws] eqn:E.
    { exfalso. apply GN. unfold grid, dense_state_space_grid. unfold dims in E. destruct levels; [|discriminate].
      destruct (Nat.leb 2 n_types); [discriminate|]. reflexivity. }
    rewrite <- E in *. rewrite D in LAY by congruence. apply layout_of_product in LAY; assumption.
  - intros [st E].
    assert (DN : dims levels n_types <> []).
    { rewrite E. destruct st; [simpl; exact XN|discriminate]. }
    apply (layout_succeeds nchoices); auto.
    + rewrite D by exact DN. intros G.
      assert (I : combination (dims levels n_types) (map (fun _ => 0%nat) (dims levels n_types))).
      { clear - PD. unfold combination. induction PD; simpl; constructor; auto. }
      apply In_combinations in I. rewrite G in I. destruct I.
    + rewrite D by exact DN. apply layout_of_product; eauto.
Qed.

(** ** C27: the transition frame *)
Lemma transition_rows : forall nperiods core csf grid procs sx k r s vec d x,
  NoDup core -> closed_under_choices nperiods core csf -> collision_free core csf grid ->
  NoDup grid -> procs <> [] -> create_state_space_exog nperiods core csf grid (levels_of procs) = Ok sx ->
  located sx k r s (Some d) -> nth_error grid d = Some vec ->
  exists row, transition_row grid (ss_dpc sx) procs k x = Ok row /\
    Forall2 (fun e col => snd col = joint procs x e /\
               exists d', nth_error grid d' = Some (static_part (length procs) vec ++ e) /\
                          located sx (fst col) r s (Some d'))
            (combinations (levels_of procs)) row /\
    (forall col, In col row -> 0 < snd col) /\ rsum (map snd row) = 1.
Proof.
  intros nperiods core csf grid procs sx k r s vec d x ND CL CF NG PN CX L G.
  destruct (create_exog_facts _ _ _ _ _ _ ND CL CF CX) as [ss [transits [CR [EX [TR [TCS CH]]]]]].
  pose proof (create_state_space_facts _ _ _ _ _ CR) as F.
  assert (DP : ss_dpc sx = ss_dpc ss) by (rewrite EX; reflexivity).
  assert (LOC : forall k r s d, located sx k r s d <-> located ss k r s d)
    by (intros; rewrite EX; apply sx_located).
  apply LOC in L.
  destruct (located_describes _ _ _ _ _ _ _ _ _ CF CR L) as [ctx [Dc [Hin _]]].
  assert (NE : core <> []) by (intros ->; destruct Hin).
  destruct (layout_needed _ _ _ _ _ _ ND CL CF NG NE CX) as [GN LAY].
  pose proof (processes_have_levels _ _ GN LAY) as PL.
  destruct (proj2 LAY vec (nth_error_In _ _ G)) as [static [e [E [C _]]]].
  pose proof L as [cx [ck [Hk [Hd M]]]].
  assert (SP : static_part (length procs) vec = static).
  { unfold static_part. rewrite E, app_length.
    apply Forall2_length_eq in C. unfold levels_of in C. rewrite map_length in C. rewrite C.
    replace (length static + length e - length e)%nat with (length static + 0)%nat by lia.
    rewrite firstn_app_2. simpl. apply app_nil_r. }
  rewrite SP, DP.
  destruct (transition_row_spec nperiods core csf grid ss procs transits ND CF CR LAY PN TR k d ck vec static e x)
    as [ks [_ [K R]]]; auto.
  { exists cx; auto. }
  exists (combine ks (map (joint procs x) (combinations (levels_of procs)))). split; [exact R|].
  assert (LK : length (combinations (levels_of procs)) = length ks) by (eapply Forall2_length_eq; eauto).
  split; [|split].
  - clear - K LOC M. induction K as [|e' k' es ks [d' [G' [cx' [Hk' Hd']]]] K IH]; cbn [map combine]; constructor; auto.
    simpl. split; [reflexivity|]. exists d'. split; [exact G'|]. apply LOC. exists cx', ck. auto.
  - intros [k' q] I. apply in_combine_r in I. apply in_map_iff in I. destruct I as [e' [<- _]].
    apply joint_pos. exact PL.
  - rewrite map_snd_combine by (rewrite map_length; lia). apply joint_sum. exact PL.
Qed.
