(** Continuation values and backward induction with exogenous processes. *)
From Coq Require Import List Arith Bool Reals Lra Lia.
From Verif Require Import Base Proof_Base Model_CoreStateSpace Proof_CoreStateSpace
  Model_StateSpace Spec_StateSpace Proof_StateSpace Model_Solve Spec_Solve Proof_Solve
  Model_Simulate Proof_SimulateProps Model_Exogenous Spec_Exogenous Proof_Exogenous.
Import ListNotations.
Open Scope R_scope.

(** ** sums of rows *)
Lemma sum_rows_spec : forall rows n, rows <> [] -> (forall r, In r rows -> length r = n) ->
  exists out, sum_rows rows = Ok out /\ length out = n /\
    forall j, (j < n)%nat -> nth_error out j = Some (rsum (map (fun r => nth j r 0) rows)).
Proof.
  intros [|r rows] n NE L; [congruence|]. clear NE. unfold sum_rows.
  assert (Lr : length r = n) by (apply L; left; reflexivity).
  assert (L' : forall x, In x rows -> length x = n) by (intros; apply L; right; auto). clear L.
  assert (G : forall rows r, length r = n -> (forall x, In x rows -> length x = n) ->
    exists out, fold_result (fun b a => add_rows a b) rows r = Ok out /\ length out = n /\
      forall j, (j < n)%nat -> nth_error out j = Some (nth j r 0 + rsum (map (fun x => nth j x 0) rows))).
  { clear. induction rows as [|x rows IH]; intros r Lr L; simpl.
    - exists r. split; [reflexivity|]. split; [exact Lr|]. intros j Hj.
      destruct (nth_error r j) as [v|] eqn:E; [|apply nth_error_None in E; lia].
      rewrite (nth_error_nth _ _ _ E). f_equal. lra.
    - unfold add_rows at 1. rewrite Lr, (L x) by (left; reflexivity). rewrite Nat.eqb_refl. simpl.
      destruct (IH (map (fun p => fst p + snd p) (combine r x))) as [out [E [Lo H]]].
      + rewrite map_length, combine_length, Lr, (L x) by (left; reflexivity). lia.
      + intros; apply L; right; auto.
      + exists out. split; [exact E|]. split; [exact Lo|]. intros j Hj. rewrite H by exact Hj. f_equal.
        rewrite (nth_indep _ 0 ((fun p => fst p + snd p) (0, 0)))
          by (rewrite map_length, combine_length, Lr, (L x) by (left; reflexivity); lia).
        rewrite (map_nth (fun p => fst p + snd p)).
        rewrite combine_nth by (rewrite Lr, (L x) by (left; reflexivity); reflexivity). simpl. lra. }
  destruct (G rows r Lr L') as [out [E [Lo H]]]. exists out. split; [exact E|]. split; [exact Lo|].
  intros j Hj. rewrite H by exact Hj. simpl. reflexivity.
Qed.

Lemma Forall2_impl_In : forall A B (P Q : A -> B -> Prop) l m, Forall2 P l m ->
  (forall a b, In a l -> In b m -> P a b -> Q a b) -> Forall2 Q l m.
Proof.
  induction 1; intros H'; constructor.
  - apply H'; simpl; auto.
  - apply IHForall2. intros; apply H'; simpl; auto.
Qed.

Lemma Forall2_map_r : forall A B C (P : A -> C -> Prop) (f : B -> C) l m,
  Forall2 P l (map f m) <-> Forall2 (fun a b => P a (f b)) l m.
Proof.
  intros A B C P f l m. split.
  - revert l. induction m as [|b m IH]; intros l H; inversion H; subst; constructor; auto.
  - induction 1; simpl; constructor; auto.
Qed.

Lemma Forall2_of_nth : forall A B (P : A -> B -> Prop) l m, length l = length m ->
  (forall i a b, nth_error l i = Some a -> nth_error m i = Some b -> P a b) -> Forall2 P l m.
Proof.
  induction l as [|a l IH]; intros [|b m] L H; simpl in L; try discriminate; constructor.
  - apply (H 0%nat); reflexivity.
  - apply IH; [lia|]. intros i. apply (H (S i)).
Qed.

Section ExogSolve.
  Variables (nchoices nperiods : nat) (core : list core_state) (csf : cs_fun)
    (grid : list (list nat)) (ss : state_space) (procs : processes) (inp : inputs)
    (transits : list (list nat)) (transit : list (list bool)) (child : list (list (list (nat * nat)))).
  Hypothesis ND : NoDup core.
  Hypothesis CL : closed_under_choices nperiods core csf.
  Hypothesis CF : collision_free core csf grid.
  Hypothesis CR : create_state_space nperiods core csf grid = Ok ss.
  Hypothesis WI : wf_inputs nchoices csf inp.
  Let levels := levels_of procs.
  Hypothesis LAY : exogenous_layout grid levels.
  Hypothesis PN : procs <> [].
  Hypothesis PL : Forall (fun p => p <> []) procs.
  Hypothesis GN : grid <> [].
  Hypothesis TR : result_all (map (transit_keys grid (ss_dpc ss) levels) (seq 0 (length (ss_dpc ss)))) = Ok transits.
  Hypothesis TCS : transit_choice_sets transits (map (fun p => cx_choice_set (fst p)) (ss_dpc ss)) = Ok transit.
  Hypothesis CH : Forall2 (fun p ch => child_indices_of nperiods (ss_indexer ss) (ss_files ss)
               (fst (fst p)) (snd p) = Ok ch) (combine (ss_dpc ss) transit) child.

  Let F : ss_facts nperiods core csf grid ss := create_state_space_facts _ _ _ _ _ CR.
  Let LEN : forall ctx s, length (csf ctx s) = nchoices := proj1 (proj2 WI).
  Let sx := with_transit ss transit child.

  Lemma sx_located : forall k r s d, located sx k r s d <-> located ss k r s d.
  Proof. intros. unfold located. simpl. tauto. Qed.
  Lemma sx_value_at : forall (ev : list (list R)) s d v, value_at sx ev s d v <-> value_at ss ev s d v.
  Proof. intros. unfold value_at, located. simpl. tauto. Qed.

  Lemma child_lookup_x : forall k r s d rep, located ss k r s d ->
    nth_error transit k = Some rep -> (S (cs_period s) < nperiods)%nat ->
    exists ch row, nth_error child k = Some ch /\ nth_error ch r = Some row /\
      Forall2 (fun c x => member core (core_key_to_core_indices core csf) (fst x) (snd x) (law_of_motion c s))
        (positions rep) row.
  Proof.
    intros k r s d rep L Hr HP.
    destruct (located_facts _ _ _ _ _ _ _ _ _ CF F L) as
      [ctx' [cx [ck [inds [i [D' [Hk [Ecx [Gi [Hi Hs]]]]]]]]]].
    destruct (dpc_facts_all _ _ _ _ CF (sf_dpc _ _ _ _ _ F)) as [N E Fi]. simpl in *.
    destruct (Forall2_nth_l _ _ _ _ _ _ _ CH (nth_error_combine' _ _ _ _ _ _ _ Hk Hr)) as [ch [Hch Ech]].
    exists ch. simpl in Ech. unfold child_indices_of in Ech.
    assert (T : Nat.ltb (cx_period cx) (nperiods - 1) = true).
    { apply Nat.ltb_lt. subst cx. unfold cx_period; simpl. lia. }
    rewrite T in Ech. rewrite (sf_groups _ _ _ _ _ F) in Gi.
    destruct (Fi cx ck inds (nth_error_In _ _ Hk) Gi) as [ctx2 [_ Hf]].
    rewrite Hf in Ech. simpl in Ech. unfold collect_child_indices in Ech.
    apply result_all_map_Ok in Ech.
    destruct (group_members core csf ck inds Gi) as [_ [_ Lr]].
    assert (Hs2 : nth_error (rows core inds) r = Some s)
      by (rewrite nth_error_rows by exact Lr; rewrite Hi; exact Hs).
    destruct (Forall2_nth_l _ _ _ _ _ _ _ Ech Hs2) as [row [Hrow Erow]].
    apply map_states_Ok in Erow. exists row. split; [exact Hch|]. split; [exact Hrow|].
    rewrite (sf_indexer _ _ _ _ _ F) in Erow. clear - Erow ND.
    remember (map (fun c => law_of_motion c s) (positions rep)) as l eqn:El.
    revert El. generalize (positions rep) as ps.
    induction Erow as [|s' x l row H _ IH]; intros [|c ps] El; simpl in El; try discriminate; constructor.
    - injection El as -> _. destruct x as [a b]. apply indexer_spec in H; auto.
    - injection El as _ El. auto.
  Qed.

  Lemma rep_exists : forall k r s d, located ss k r s d -> exists rep, nth_error transit k = Some rep.
  Proof.
    intros k r s d [cx [ck [Hk _]]].
    destruct (rep_spec nchoices nperiods core csf grid ss levels transits transit ND CF CR LEN LAY GN TR TCS
                _ _ _ Hk) as [rep [H _]]. eauto.
  Qed.

  (** Unweighted continuation values. *)
  Lemma unweighted_spec : forall ev k r s d ctx rep, ev_shape ss ev -> located ss k r s d ->
    dense_combination grid d ctx -> nth_error transit k = Some rep -> (S (cs_period s) < nperiods)%nat ->
    exists M row, get_continuation_values 0 sx ev (cs_period s) k = Ok M /\
      nth_error M r = Some row /\
      Forall2 (fun c v => value_at ss ev (law_of_motion c s) d v) (positions rep) row.
  Proof.
    intros ev k r s d ctx rep SH L Dc Hr HP.
    destruct (located_facts _ _ _ _ _ _ _ _ _ CF F L) as
      [ctx' [cx [ck [inds [i [D' [Hk [Ecx [Gi [Hi Hs]]]]]]]]]].
    assert (ctx' = ctx) by (eapply dense_combination_fun; eauto). subst ctx'.
    assert (Hinds : dense_key_to_core_indices ss k = Some inds).
    { unfold dense_key_to_core_indices, dense_key_to_core_key. rewrite nth_error_map, Hk. exact Gi. }
    assert (Edn : cx_dense cx = d) by (subst cx; reflexivity).
    destruct (child_lookup_x _ _ _ _ _ L Hr HP) as [ch [crow [Hch _]]].
    assert (Rows : forall r0, In r0 (seq 0 (length inds)) -> exists b,
      result_all (map (fun j => match nth_error ch r0 with
        | None => IndexError
        | Some row => match nth_error row j with
                      | None => IndexError
                      | Some x => continuation_value sx ev (cs_period s) (cx_dense cx) x
                      end end) (seq 0 (count_true rep))) = Ok b /\
      forall s0, located ss k r0 s0 d ->
        Forall2 (fun c v => value_at ss ev (law_of_motion c s0) d v) (positions rep) b).
    { intros r0 Hr0. apply in_seq in Hr0.
      destruct (nth_error inds r0) as [i0|] eqn:Ei0; [|apply nth_error_None in Ei0; lia].
      assert (Hi0 : exists s0, nth_error core i0 = Some s0).
      { destruct (group_members core csf ck inds) as [_ [_ Lr]].
        - rewrite <- (sf_groups _ _ _ _ _ F). exact Gi.
        - destruct (nth_error core i0) eqn:X; [eauto|]. apply nth_error_None in X.
          specialize (Lr i0 (nth_error_In _ _ Ei0)). lia. }
      destruct Hi0 as [s0 Hs0].
      assert (L0 : located ss k r0 s0 d).
      { exists cx, ck. split; [exact Hk|]. split; [exact Edn|]. exists inds, i0.
        rewrite (sf_core _ _ _ _ _ F). auto. }
      destruct (located_facts _ _ _ _ _ _ _ _ _ CF F L0) as
        [ctx0 [cx0 [ck0 [inds0 [i00 [D0 [Hk0 [Ecx0 _]]]]]]]].
      assert (Ep0 : cs_period s0 = cs_period s) by congruence.
      destruct (child_lookup_x _ _ _ _ _ L0 Hr ltac:(lia)) as [ch' [row [Hch' [Hrow Mrow]]]].
      rewrite Hch in Hch'. injection Hch' as <-.
      assert (Val : forall j c, nth_error (positions rep) j = Some c -> exists x v,
         nth_error row j = Some x /\ continuation_value sx ev (cs_period s) (cx_dense cx) x = Ok v /\
         value_at ss ev (law_of_motion c s0) d v).
      { intros j c Hj. destruct (Forall2_nth_l _ _ _ _ _ _ _ Mrow Hj) as [x [Hx Mx]].
        assert (Hc : nth_error rep c = Some true) by (eapply positions_nth; eauto).
        destruct (rep_available nchoices nperiods core csf grid ss levels transits transit ND CF CR LEN LAY GN TR TCS
                    _ _ _ _ _ _ _ _ Hk Hr L0 Hc) as [ctx2 Hc2].
        assert (Hin : In (law_of_motion c s0) core).
        { apply (CL ctx2); [eapply nth_error_In; eauto|lia|]. exact Hc2. }
        destruct (value_at_exists _ _ _ _ _ _ ev _ _ _ CF F SH Hin Dc) as [v Hv].
        exists x, v. split; [exact Hx|]. split; [|exact Hv].
        change (continuation_value ss ev (cs_period s) (cx_dense cx) x = Ok v). rewrite Edn.
        eapply continuation_value_spec; eauto. rewrite law_period. congruence. }
      destruct (result_all_Ok_exists _ _ (fun j => match nth_error ch r0 with
        | None => IndexError
        | Some row => match nth_error row j with
                      | None => IndexError
                      | Some x => continuation_value sx ev (cs_period s) (cx_dense cx) x
                      end end) (seq 0 (count_true rep))) as [b Hb].
      { intros j Hj. apply in_seq in Hj. rewrite Hrow.
        destruct (nth_error (positions rep) j) as [c|] eqn:Ec.
        2:{ apply nth_error_None in Ec. rewrite length_positions in Ec. lia. }
        destruct (Val j c Ec) as [x [v [Hx [Ev _]]]]. rewrite Hx. eauto. }
      exists b. split; [exact Hb|]. intros s1 L1.
      destruct (located_functional _ _ _ _ _ _ _ _ _ _ _ F L0 L1) as [<- _].
      apply Forall2_of_nth.
      - rewrite length_positions. apply result_all_map_Ok, Forall2_length_eq in Hb. rewrite seq_length in Hb. exact Hb.
      - intros j c v Hj Hv. destruct (Val j c Hj) as [x [v' [Hx [Ev Va]]]].
        assert (Hjs : nth_error (seq 0 (count_true rep)) j = Some j).
        { apply nth_error_seq0. apply nth_error_lt in Hj. rewrite length_positions in Hj. exact Hj. }
        destruct (nth_error_result_all _ _ _ _ _ _ _ Hb Hjs) as [v2 [Hv2 Ev2]].
        rewrite Hrow, Hx, Ev in Ev2. rewrite Hv in Hv2. congruence. }
    unfold get_continuation_values. simpl. rewrite Hk.
    change (dense_key_to_core_indices sx k) with (dense_key_to_core_indices ss k).
    rewrite Hinds, Hr, Hch, (sf_nperiods _ _ _ _ _ F).
    destruct (Nat.eqb (cs_period s) (nperiods - 1)) eqn:EP; [apply Nat.eqb_eq in EP; lia|].
    set (g := fun r0 => result_all (map (fun j => match nth_error ch r0 with
        | None => IndexError
        | Some row => match nth_error row j with
                      | None => IndexError
                      | Some x => continuation_value sx ev (cs_period s) (cx_dense cx) x
                      end end) (seq 0 (count_true rep)))).
    destruct (result_all_Ok_exists _ _ g (seq 0 (length inds))) as [M HM].
    { intros r0 H0. destruct (Rows r0 H0) as [b [Hb _]]. exists b. exact Hb. }
    assert (Hrs : nth_error (seq 0 (length inds)) r = Some r)
      by (apply nth_error_seq0; eapply nth_error_lt; eauto).
    destruct (nth_error_result_all _ _ _ _ _ _ _ HM Hrs) as [row [Hrow Erow]].
    exists M, row. split; [exact HM|]. split; [exact Hrow|].
    destruct (Rows r (nth_error_In _ _ Hrs)) as [b [Hb Vb]]. unfold g in Erow. rewrite Hb in Erow.
    injection Erow as <-. apply Vb. exact L.
  Qed.

  (** The row of the transition frame. *)
  Lemma transition_row_spec : forall k d ck vec static e x, key_at (ss_dpc ss) k d ck ->
    nth_error grid d = Some vec -> vec = static ++ e -> combination levels e ->
    exists ks, nth_error transits k = Some ks /\
      Forall2 (fun e' k' => exists d', nth_error grid d' = Some (static ++ e') /\
                                       key_at (ss_dpc ss) k' d' ck) (combinations levels) ks /\
      transition_row grid (ss_dpc ss) procs k x =
        Ok (combine ks (map (joint procs x) (combinations levels))).
  Proof.
    intros k d ck vec static e x K G E C.
    destruct (transits_spec nperiods core csf grid ss levels transits ND CF CR LAY TR k d ck vec static e K G E C)
      as [ks [T1 [T2 T3]]].
    exists ks. split; [exact T1|]. split; [exact T3|]. unfold transition_row. fold levels. rewrite T2.
    cbn [result_bind].
    assert (NK : NoDup ks) by (eapply NoDup_transit; eauto).
    rewrite drop_duplicates_NoDup_id by exact NK.
    assert (X : forall es ks, (forall e, In e es -> combination levels e) ->
      Forall2 (fun e' k' => exists d', nth_error grid d' = Some (static ++ e') /\
                                       key_at (ss_dpc ss) k' d' ck) es ks ->
      result_all (map (fun k' =>
        result_bind (dense_covariates_of_key grid (ss_dpc ss) k') (fun vec =>
        result_bind (transition_probability procs x (last_n (length procs) vec)) (fun q =>
        Ok (k', q)))) ks) = Ok (combine ks (map (joint procs x) es))).
    { clear - PN. intros es ks HC H. induction H as [|e' k' es ks [d' [G' [cx' [Hk' Hd']]]] H IH]; [reflexivity|].
      cbn [map result_all combine]. unfold dense_covariates_of_key at 1. rewrite Hk', Hd', G'. cbn [result_bind].
      assert (C' : combination levels e') by (apply HC; left; reflexivity).
      rewrite (last_n_app _ static e').
      2:{ rewrite (combination_length _ _ C'). unfold levels, levels_of. apply map_length. }
      rewrite transition_probability_spec by (assumption || exact C'). cbn [result_bind].
      rewrite IH by (intros; apply HC; right; assumption). reflexivity. }
    apply X; [|exact T3]. intros e' He'. apply In_combinations. exact He'.
  Qed.

  (** Expected continuation value of choice [c]. *)
  Definition expectation (ev : list (list R)) (x : nat -> R) (static : list nat) (s' : core_state) (w : R) : Prop :=
    exists vals, Forall2 (fun e v => value_in ss ev (static ++ e) s' v) (combinations levels) vals /\
      w = rsum (map (fun p => joint procs x (fst p) * snd p) (combine (combinations levels) vals)).

  Lemma weighted_row_spec : forall ev k r s d vec static e x, ev_shape ss ev ->
    located ss k r s (Some d) -> nth_error grid d = Some vec -> vec = static ++ e ->
    combination levels e -> (S (cs_period s) < nperiods)%nat ->
    exists trans row, transition_row grid (ss_dpc ss) procs k x = Ok trans /\
      weighted_row (get_continuation_values 0 sx ev (cs_period s)) transit (csf (Some vec) s) trans r = Ok row /\
      Forall2 (fun c w => expectation ev x static (law_of_motion c s) w) (positions (csf (Some vec) s)) row.
  Proof.
    intros ev k r s d vec static e x SH L G E C HP.
    assert (Dc : dense_combination grid (Some d) (Some vec)) by (exists vec; auto).
    destruct (located_facts _ _ _ _ _ _ _ _ _ CF F L) as
      [ctx' [cx [ck [inds [i [D' [Hk [Ecx [Gi [Hi Hs]]]]]]]]]].
    assert (ctx' = Some vec) by (eapply dense_combination_fun; eauto). subst ctx'.
    assert (K : key_at (ss_dpc ss) k d ck) by (exists cx; split; [exact Hk|subst cx; reflexivity]).
    assert (Ecs : cx_choice_set cx = csf (Some vec) s) by (subst cx; reflexivity).
    destruct (transition_row_spec k d ck vec static e x K G E C) as [ks [T1 [T3 T4]]].
    eexists. rewrite T4. clear T4.
    set (cs := csf (Some vec) s) in *.
    set (conts := get_continuation_values 0 sx ev (cs_period s)).
    set (g := fun kq : nat * R => match nth_error transit (fst kq) with
       | None => KeyError
       | Some rep =>
           result_bind (conts (fst kq)) (fun M =>
           match nth_error M r with
           | None => IndexError
           | Some r => result_bind (masked_row (representation_cols rep cs) r)
                         (fun r' => Ok (map (Rmult (snd kq)) r'))
           end)
       end).
    (* the row for one exogenous combination *)
    assert (One : forall e' k' q, (exists d', nth_error grid d' = Some (static ++ e') /\
                                   key_at (ss_dpc ss) k' d' ck) -> In k' ks ->
       exists A, g (k', q) = Ok (map (Rmult q) A) /\
         Forall2 (fun c v => value_in ss ev (static ++ e') (law_of_motion c s) v) (positions cs) A).
    { intros e' k' q [d' [G' [cx' [Hk' Hd']]]] I.
      assert (L' : located ss k' r s (Some d')).
      { exists cx', ck. split; [exact Hk'|]. split; [exact Hd'|].
        exists inds, i. rewrite (sf_core _ _ _ _ _ F). auto. }
      assert (Dc' : dense_combination grid (Some d') (Some (static ++ e'))) by (exists (static ++ e'); auto).
      destruct (rep_exists _ _ _ _ L') as [rep Hrep].
      destruct (unweighted_spec ev k' r s (Some d') _ rep SH L' Dc' Hrep HP) as [M [row [EM [Hrow Vrow]]]].
      assert (SB : subset cs rep).
      { rewrite <- Ecs. eapply (subset_rep nchoices nperiods core csf grid ss levels transits transit); eauto. }
      exists (compress (representation_cols rep cs) row). split.
      - unfold g. cbn [fst snd]. rewrite Hrep. unfold conts. rewrite EM. cbn [result_bind]. rewrite Hrow.
        unfold masked_row. rewrite length_representation by exact SB.
        apply Forall2_length_eq in Vrow as Lrow. rewrite length_positions in Lrow. rewrite <- Lrow, Nat.eqb_refl.
        reflexivity.
      - rewrite <- (select_positions rep cs SB).
        apply (Forall2_compress _ _ _ (representation_cols rep cs)) in Vrow.
        eapply Forall2_impl_In; [exact Vrow|]. intros c v _ _ Hv. exists d'.
        rewrite (sf_grid _ _ _ _ _ F). split; [exact G'|exact Hv]. }
    (* all exogenous combinations *)
    assert (All : forall es ks', Forall2 (fun e' k' => exists d', nth_error grid d' = Some (static ++ e') /\
                                       key_at (ss_dpc ss) k' d' ck) es ks' -> (forall k', In k' ks' -> In k' ks) ->
      exists As, result_all (map g (combine ks' (map (joint procs x) es))) =
                   Ok (map (fun p => map (Rmult (joint procs x (fst p))) (snd p)) (combine es As)) /\
        Forall2 (fun e' A => Forall2 (fun c v => value_in ss ev (static ++ e') (law_of_motion c s) v)
                               (positions cs) A) es As).
    { induction 1 as [|e' k' es ks' H0 H IH]; intros Sub.
      - exists []. split; [reflexivity|constructor].
      - destruct (One e' k' (joint procs x e') H0 (Sub k' (or_introl eq_refl))) as [A [E1 V1]].
        destruct IH as [As [E2 V2]]; [intros; apply Sub; right; auto|].
        exists (A :: As). cbn [map combine result_all]. rewrite E1. cbn [result_bind]. rewrite E2. cbn [result_bind].
        split; [reflexivity|]. constructor; assumption. }
    destruct (All _ _ T3 (fun k' H => H)) as [As [EA VA]].
    assert (LA : length As = length (combinations levels)) by (apply Forall2_length_eq in VA; auto).
    assert (LR : forall e' A, In (e', A) (combine (combinations levels) As) -> length A = count_true cs).
    { intros e' A I. pose proof (Forall2_combine_In _ _ _ _ _ _ _ VA I) as V. cbv beta in V.
      apply Forall2_length_eq in V. rewrite length_positions in V. auto. }
    destruct (sum_rows_spec (map (fun p => map (Rmult (joint procs x (fst p))) (snd p))
                (combine (combinations levels) As)) (count_true cs)) as [out [ES [LO HO]]].
    { apply In_combinations in C. destruct (combinations levels) as [|e0 es] eqn:EC; [destruct C|].
      destruct As as [|A0 As0]; [discriminate|]. discriminate. }
    { intros r0 Hr0. apply in_map_iff in Hr0. destruct Hr0 as [[e' A] [<- I]]. rewrite map_length.
      eapply LR; eauto. }
    exists out. split; [reflexivity|]. split.
    - unfold weighted_row. fold conts. fold g. rewrite EA. cbn [result_bind]. exact ES.
    - apply Forall2_of_nth; [rewrite length_positions; auto|]. intros j c w Hj Hw.
      assert (Hjl : (j < count_true cs)%nat) by (apply nth_error_lt in Hj; rewrite length_positions in Hj; exact Hj).
      rewrite HO in Hw by exact Hjl. injection Hw as <-.
      exists (map (fun A => nth j A 0) As). split.
      + apply Forall2_map_r. eapply Forall2_impl_In; [exact VA|]. intros e' A _ IA V. cbv beta in V.
        destruct (Forall2_nth_l _ _ _ _ _ _ _ V Hj) as [v [Hv Vv]].
        rewrite (nth_error_nth _ _ _ Hv). exact Vv.
      + f_equal. rewrite map_map. 
        assert (X : forall es As', (forall e' A, In (e', A) (combine es As') -> length A = count_true cs) ->
          map (fun p => nth j (map (Rmult (joint procs x (fst p))) (snd p)) 0) (combine es As') =
          map (fun p => joint procs x (fst p) * snd p) (combine es (map (fun A => nth j A 0) As'))).
        { clear - Hjl. induction es as [|e' es IH]; intros [|A As'] H; simpl; try reflexivity. f_equal.
          - rewrite (nth_indep _ 0 (joint procs x e' * 0)).
            + apply map_nth.
            + rewrite map_length, (H e' A) by (left; reflexivity). exact Hjl.
          - apply IH. intros; eapply H; right; eauto. }
        apply X. exact LR.
  Qed.

  (** All rows of a key. *)
  Lemma weighted_values_spec : forall ev p k cx ck inds, ev_shape ss ev -> (S p < nperiods)%nat ->
    nth_error (ss_dpc ss) k = Some (cx, ck) -> cx_period cx = p ->
    dense_key_to_core_indices ss k = Some inds ->
    exists M, get_weighted_continuation_values sx procs inp ev p k = Ok M /\ length M = length inds /\
      forall r s d vec, located ss k r s (Some d) -> nth_error grid d = Some vec ->
        exists row, nth_error M r = Some row /\
          Forall2 (fun c w => expectation ev (in_cov inp (Some vec) s)
                     (static_part (length procs) vec) (law_of_motion c s) w) (positions (csf (Some vec) s)) row.
  Proof.
    intros ev p k cx ck inds SH HP Hk Pk Hinds.
    assert (Gi : nth_error (core_key_to_core_indices core csf) ck = Some inds).
    { unfold dense_key_to_core_indices, dense_key_to_core_key in Hinds. rewrite nth_error_map, Hk in Hinds.
      simpl in Hinds. rewrite (sf_groups _ _ _ _ _ F) in Hinds. exact Hinds. }
    destruct (dpc_facts_all _ _ _ _ CF (sf_dpc _ _ _ _ _ F)) as [N En Fi]. simpl in *.
    destruct (Fi cx ck inds (nth_error_In _ _ Hk) Gi) as [ctx [Dc Hf]].
    destruct (key_exists nperiods core csf grid ss levels CF CR LAY GN _ _ _ Hk)
      as [d [vec [static [e [Ed [G [E [C [A _]]]]]]]]].
    rewrite Ed in Dc. destruct Dc as [vec' [G' ->]]. rewrite G in G'. injection G' as <-.
    destruct (group_members core csf ck inds Gi) as [_ [Ne Lr]].
    unfold get_weighted_continuation_values. simpl. rewrite (sf_nperiods _ _ _ _ _ F).
    destruct (Nat.eqb p (nperiods - 1)) eqn:EP; [apply Nat.eqb_eq in EP; lia|].
    unfold dense_key_to_complex. simpl. rewrite nth_error_map, Hk. simpl. rewrite Hf. simpl.
    rewrite (sf_grid _ _ _ _ _ F).
    set (g := fun q : nat * core_state =>
       result_bind (transition_row grid (ss_dpc ss) procs k (in_cov inp (Some vec) (snd q)))
         (fun trans => weighted_row (get_continuation_values 0 sx ev p) transit (cx_choice_set cx) trans (fst q))).
    assert (Loc : forall r s, nth_error (rows core inds) r = Some s -> located ss k r s (Some d) /\
               cs_period s = p /\ csf (Some vec) s = cx_choice_set cx).
    { intros r s Hs. rewrite nth_error_rows in Hs by exact Lr.
      destruct (nth_error inds r) as [i|] eqn:Ei; [|discriminate].
      assert (L : located ss k r s (Some d)).
      { exists cx, ck. split; [exact Hk|]. split; [exact Ed|]. exists inds, i.
        rewrite (sf_groups _ _ _ _ _ F), (sf_core _ _ _ _ _ F). auto. }
      split; [exact L|].
      destruct (located_facts _ _ _ _ _ _ _ _ _ CF F L) as
        [ctx' [cx' [ck' [inds' [i' [D' [Hk' [Ecx' _]]]]]]]].
      rewrite Hk in Hk'. injection Hk' as <- <-.
      assert (ctx' = Some vec) by (eapply dense_combination_fun; eauto; exists vec; auto). subst ctx'.
      subst cx. split; [exact Pk|reflexivity]. }
    assert (Row : forall r s, nth_error (rows core inds) r = Some s -> exists row,
      g (r, s) = Ok row /\ Forall2 (fun c w => expectation ev (in_cov inp (Some vec) s) static (law_of_motion c s) w)
        (positions (csf (Some vec) s)) row).
    { intros r s Hs. destruct (Loc r s Hs) as [L [Ps Cs]].
      destruct (weighted_row_spec ev k r s d vec static e (in_cov inp (Some vec) s) SH L G E C ltac:(lia))
        as [trans [row [T [W V]]]].
      exists row. split; [|exact V]. unfold g. cbn [fst snd]. rewrite T. cbn [result_bind].
      rewrite <- Cs, <- Ps. exact W. }
    destruct (result_all_Ok_exists _ _ g (enumerate (rows core inds))) as [M HM].
    { intros [r s] I. apply In_enumerate in I. destruct (Row r s I) as [row [H _]]. eauto. }
    exists M. split; [exact HM|]. split.
    { apply result_all_map_Ok, Forall2_length_eq in HM. rewrite length_enumerate, length_rows in HM by exact Lr. auto. }
    intros r s d' vec' L G'.
    assert (Hs : nth_error (rows core inds) r = Some s).
    { destruct L as [cx0 [ck0 [H0 [_ [inds0 [i [Gi0 [Hi Hs]]]]]]]]. rewrite Hk in H0. injection H0 as <- <-.
      rewrite (sf_groups _ _ _ _ _ F), Gi in Gi0. injection Gi0 as <-.
      rewrite (sf_core _ _ _ _ _ F) in Hs. rewrite nth_error_rows by exact Lr. rewrite Hi. exact Hs. }
    assert (d' = d).
    { destruct L as [cx0 [ck0 [H0 [D0 _]]]]. rewrite Hk in H0. injection H0 as <- <-. congruence. }
    subst d'. rewrite G in G'. injection G' as <-.
    assert (He : nth_error (enumerate (rows core inds)) r = Some (r, s))
      by (rewrite nth_error_enumerate, Hs; reflexivity).
    destruct (nth_error_result_all _ _ _ _ _ _ _ HM He) as [row [Hrow Erow]].
    exists row. split; [exact Hrow|]. destruct (Row r s Hs) as [row' [Er V]]. rewrite Er in Erow. injection Erow as <-.
    assert (St : static_part (length procs) vec = static).
    { rewrite E. apply drop_last_app. rewrite (combination_length _ _ C). apply map_length. }
    rewrite St. exact V.
  Qed.
End ExogSolve.
