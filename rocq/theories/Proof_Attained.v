(** Proofs: what simulated individuals get on average. *)
From Coq Require Import List Arith Bool Reals Lra Lia.
From Verif Require Import Base Proof_Base Model_CoreStateSpace Spec_CoreStateSpace Proof_CoreStateSpace Model_StateSpace Spec_StateSpace
  Proof_StateSpace Model_Solve Spec_Solve Proof_Solve Proof_Value Proof_SolveProps Model_Parallel Spec_Parallel Proof_Parallel Model_Simulate Spec_Simulate
  Proof_Simulate Proof_Panel Proof_PanelModel Proof_SimulateProps Spec_Paths Proof_Paths Proof_Likelihood Proof_Units Spec_Attained.
Import ListNotations.
Local Open Scope nat_scope.

(** ** Sequences *)
Lemma sequences_lengths : forall D n q, In q (sequences D n) -> length q = n.
Proof.
  induction n as [|n IH]; intros q H; cbn [sequences] in H.
  - destruct H as [<-|[]]. reflexivity.
  - apply in_flat_map in H. destruct H as [i [_ H]]. apply in_map_iff in H. destruct H as [q' [<- H]]. cbn. f_equal. apply IH. exact H.
Qed.
Lemma sequences_bound : forall D n q t, In q (sequences D n) -> t < n -> nth t q 0 < D.
Proof.
  induction n as [|n IH]; intros q t H L; [lia|]. cbn [sequences] in H. apply in_flat_map in H. destruct H as [i [Hi H]].
  apply in_map_iff in H. destruct H as [q' [<- H]]. apply in_seq in Hi. destruct t as [|t]; cbn; [lia|]. apply IH; [exact H|lia].
Qed.
Lemma sequences_some : forall D n, 0 < D -> sequences D n <> [].
Proof.
  induction n as [|n IH]; intros H E; [discriminate|]. specialize (IH H). cbn [sequences] in E. destruct D as [|D]; [lia|].
  cbn [seq flat_map] in E. apply app_eq_nil in E. destruct E as [E _]. apply map_eq_nil in E. contradiction.
Qed.
Lemma length_flat_map_const : forall A B (f : A -> list B) c l, (forall a, In a l -> length (f a) = c) -> length (flat_map f l) = length l * c.
Proof. induction l as [|a l IH]; intros H; cbn; [reflexivity|]. rewrite app_length, (H a) by (left; reflexivity). rewrite IH; [lia|]. intros b Hb. apply H. right. exact Hb. Qed.

Local Open Scope R_scope.
Lemma rsum_flat_map' : forall A B (f : A -> list B) (g : B -> R) l, rsum (map g (flat_map f l)) = rsum (map (fun a => rsum (map g (f a))) l).
Proof. induction l as [|a l IH]; cbn [flat_map map]; [reflexivity|]. rewrite map_app, rsum_app'. cbn [rsum fold_right]. rewrite IH. reflexivity. Qed.

(** The mean over all sequences is the mean over the first element of the mean over the rest. *)
Lemma mean_sequences : forall D m (g : list nat -> R), (0 < D)%nat ->
  mean (map g (sequences D (S m))) = mean (map (fun i => mean (map (fun q => g (i :: q)) (sequences D m))) (seq 0 D)).
Proof.
  intros D m g HD. cbn [sequences]. set (L := sequences D m).
  assert (N : L <> []) by (apply sequences_some; exact HD).
  assert (NL : INR (length L) <> 0) by (apply not_0_INR; intros E; apply length_zero_iff_nil in E; contradiction).
  assert (ND : INR D <> 0) by (apply not_0_INR; lia).
  unfold mean at 1 2. rewrite rsum_flat_map', !map_length.
  rewrite (length_flat_map_const _ _ _ (length L)) by (intros a _; apply map_length).
  rewrite seq_length, mult_INR.
  rewrite (rsum_map_ext _ _ (fun i => INR (length L) * mean (map (fun q => g (i :: q)) L))).
  - rewrite rsum_map_scal. field. split; assumption.
  - intros i _. rewrite map_map. unfold mean. rewrite map_length. field. exact NL.
Qed.

Lemma mean_le : forall A (f g : A -> R) l, (forall a, In a l -> f a <= g a) -> mean (map f l) <= mean (map g l).
Proof.
  intros A f g l H. unfold mean. rewrite !map_length. apply Rmult_le_compat_r.
  - destruct l; [cbn; rewrite Rinv_0; lra|]. apply Rlt_le, Rinv_0_lt_compat. apply lt_0_INR. cbn. lia.
  - clear -H. induction l as [|a l IH]; cbn; [lra|]. apply Rplus_le_compat; [apply H; left; reflexivity|apply IH; intros b Hb; apply H; right; exact Hb].
Qed.

(** ** Walks *)
Section Walk.
  Context {S : Type}.
  Variable F : nat -> S -> nat -> R.
  Variable NX : nat -> S -> nat -> S.
  Variable delta : R.
  Fixpoint walk (t : nat) (s : S) (q : list nat) : R :=
    match q with [] => 0 | i :: q' => F t s i + delta * walk (Datatypes.S t) (NX t s i) q' end.

  Lemma walk_sum : forall n q (st : nat -> S), length q = n ->
    (forall t, (Datatypes.S t < n)%nat -> st (Datatypes.S t) = NX t (st t) (nth t q 0%nat)) ->
    forall m t, (t + m = n)%nat ->
    rsum (map (fun u => delta ^ (u - t) * F u (st u) (nth u q 0%nat)) (seq t m)) = walk t (st t) (skipn t q).
  Proof.
    intros n q st L H. induction m as [|m IH]; intros t E.
    - rewrite skipn_all2 by lia. reflexivity.
    - cbn [seq map rsum fold_right]. rewrite Nat.sub_diag.
      assert (X : skipn t q = nth t q 0%nat :: skipn (Datatypes.S t) q).
      { assert (Lt : (t < length q)%nat) by lia. clear -Lt. revert t Lt. induction q as [|a q IHq]; intros t Lt; cbn in Lt; [lia|].
        destruct t as [|t]; [reflexivity|]. cbn [skipn nth]. apply IHq. lia. }
      rewrite X. cbn [walk]. cbn [pow]. rewrite Rmult_1_l. f_equal.
      destruct m as [|m].
      + rewrite skipn_all2 by lia. cbn. ring.
      + rewrite <- (H t) by lia. rewrite <- (IH (Datatypes.S t)) by lia.
        rewrite <- rsum_map_scal. apply rsum_map_ext. intros u Hu. apply in_seq in Hu.
        replace (u - t)%nat with (Datatypes.S (u - Datatypes.S t)) by lia. cbn [pow]. ring.
  Qed.
End Walk.
Arguments walk {S}.

Section Model.
  Variables (sp : core_spec) (neg : neg_set) (k : nat) (grid : list (list nat)) (ss : state_space) (inp : inputs)
    (ev0 ev : list (list R)) (si : sim_spec) (order : list nat -> list nat) (next_key : nat -> index -> nat -> nat -> nat)
    (ids : list nat) (base base_wage : list (list R)) (df : frame individual) (panel : frame outcome)
    (B : nat -> nat -> list R) (D : nat) (x : individual).
  Let n := sp_nperiods sp.
  Hypothesis HD : 0 < p_delta (in_params inp).
  Hypothesis SH0 : ev_shape ss ev0.
  Hypothesis HS : solve_with_backward_induction ss inp ev0 = Ok ev.
  Hypothesis SU : simulation_setup sp neg k grid ss inp ev si order n ids base base_wage df.
  Hypothesis ES : every_sequence sp neg k grid inp B D n ids base df x.
  Hypothesis HP : simulate_n_step (environment_of ss inp ev) si order next_key 0 n base base_wage df = Ok panel.
  Let core := create_core_state_space sp.
  Let ctx := context grid x.
  Let delta := p_delta (in_params inp).
  Let cs (s : core_state) := choice_set_of sp (process sp (S k) neg) ctx s.
  Let pb := problem_of sp neg k inp ctx.
  Let SM : standard_model sp neg k grid ss inp := su_model _ _ _ _ _ _ _ _ _ _ _ _ _ _ SU.
  Let at_state (s : core_state) := mkInd s (i_dense x).
  Let vals (t : nat) (s : core_state) (i : nat) :=
    map (decision_value sp neg k grid inp (si_beta si) t (at_state s) (B t i)) (positions (cs s)).
  Let ch (t : nat) (s : core_state) (i : nat) : nat :=
    match record_choice (in_choices inp) (cs s) (vals t s i) with Some c => c | None => O end.
  Let F (t : nat) (s : core_state) (i : nat) : R := flow_of inp (cs s) ctx s (B t i) (ch t s i).
  Let NX (t : nat) (s : core_state) (i : nat) : core_state := law_of_motion (ch t s i) s.
  Let total := walk F NX delta.

  Lemma context_at : forall s, context grid (at_state s) = ctx.
  Proof. intros s. unfold context, ctx, at_state, context. cbn. reflexivity. Qed.
  Lemma choices_at : forall s, choices_of sp neg k grid (at_state s) = cs s.
  Proof. intros s. unfold choices_of. rewrite context_at. reflexivity. Qed.
  Lemma start_in : In (i_core x) core /\ cs_period (i_core x) = O /\ match grid with [] => True | _ => In (i_dense x) grid end.
  Proof.
    pose proof (su_some _ _ _ _ _ _ _ _ _ _ _ _ _ _ SU) as N. pose proof (su_index _ _ _ _ _ _ _ _ _ _ _ _ _ _ SU) as C.
    assert (X : exists iy, In iy df).
    { unfold cross_section in C. destruct df as [|iy df']; [destruct ids; [contradiction|discriminate]|]. exists iy. left. reflexivity. }
    destruct X as [[i y] I].
    pose proof (su_states _ _ _ _ _ _ _ _ _ _ _ _ _ _ SU i y I) as H. rewrite (es_start _ _ _ _ _ _ _ _ _ _ _ _ ES i y I) in H. exact H.
  Qed.
  Lemma some_choice : forall s, In s core -> (0 < count_true (cs s))%nat.
  Proof.
    intros s Hs. destruct start_in as [_ [_ G]].
    destruct (su_choice _ _ _ _ _ _ _ _ _ _ _ _ _ _ SU s x Hs G) as [c Hc]. unfold available in Hc. fold ctx in Hc. fold (cs s) in Hc.
    apply In_positions in Hc. rewrite <- length_positions. destruct (positions (cs s)); [destruct Hc|cbn; lia].
  Qed.
  Lemma cs_length : forall s, length (cs s) = sp_nchoices sp.
  Proof. intros s. destruct (standard_wf_inputs _ _ _ _ _ _ SM) as [_ [W _]]. apply W. Qed.
  Lemma recorded : forall t s i, In s core -> record_choice (in_choices inp) (cs s) (vals t s i) = Some (ch t s i) /\ available (cs s) (ch t s i).
  Proof.
    intros t s i Hs. destruct (standard_wf_inputs _ _ _ _ _ _ SM) as [W1 [W2 _]].
    assert (NDc : NoDup (in_choices inp)) by (rewrite W1; apply seq_NoDup).
    assert (Lcs : length (cs s) = length (in_choices inp)) by (rewrite W1, seq_length; apply W2).
    assert (Lv : length (vals t s i) = count_true (cs s)) by (unfold vals; rewrite map_length; apply length_positions).
    destruct (record_some _ _ _ NDc Lcs Lv (some_choice s Hs)) as [c Hc].
    assert (E : ch t s i = c) by (unfold ch; rewrite Hc; reflexivity). rewrite E. split; [exact Hc|].
    exact (record_available _ _ _ NDc Lcs Lv c Hc).
  Qed.
  Lemma next_in : forall t s i, In s core -> cs_period s = t -> (S t < n)%nat -> In (NX t s i) core /\ cs_period (NX t s i) = S t.
  Proof.
    intros t s i Hs Ht L. split.
    - unfold NX. apply (sm_closed _ _ _ _ _ _ SM ctx s); [exact Hs|rewrite Ht; exact L|]. apply (recorded t s i Hs).
    - unfold NX. rewrite law_period, Ht. reflexivity.
  Qed.

  (** Flow utilities of the problem of the solution. *)
  Lemma map_combine_same : forall A C E G (f : A -> C) (g : A -> E) (h : C * E -> G) l,
    map h (combine (map f l) (map g l)) = map (fun a => h (f a, g a)) l.
  Proof. induction l as [|a l IH]; cbn; [reflexivity|]. f_equal. exact IH. Qed.
  Lemma flows : forall s, In s core ->
    pb_flows pb s = map (fun i => map (flow_of inp (cs s) ctx s (B (cs_period s) i)) (positions (cs s))) (seq 0 D).
  Proof.
    intros s Hs. unfold pb, problem_of. cbn [pb_flows model_problem]. fold (cs s).
    pose proof (es_solution _ _ _ _ _ _ _ _ _ _ _ _ ES s Hs) as E. cbv zeta in E. fold ctx in E. fold (cs s) in E. rewrite E.
    unfold transform_draws. rewrite !map_map. apply map_ext. intros i.
    apply nth_error_ext_eq. intros j. rewrite !nth_error_map.
    set (e := transform_draw _ _ _).
    destruct (nth_error (positions (cs s)) j) as [c|] eqn:Hj.
    - assert (He : nth_error e j = Some (shock_of (in_params inp) (cs s) (B (cs_period s) i) c)).
      { apply (transform_draw_nth (sp_nchoices sp)); [apply (sm_chol _ _ _ _ _ _ SM)|apply cs_length|apply (es_length _ _ _ _ _ _ _ _ _ _ _ _ ES)|exact Hj]. }
      assert (Hc : nth_error (combine (positions (cs s)) e) j = Some (c, shock_of (in_params inp) (cs s) (B (cs_period s) i) c)).
      { rewrite nth_error_combine, Hj, He. reflexivity. }
      rewrite Hc. reflexivity.
    - assert (Hc : nth_error (combine (positions (cs s)) e) j = None).
      { apply nth_error_None. rewrite combine_length. apply nth_error_None in Hj. lia. }
      rewrite Hc. reflexivity.
  Qed.
  Lemma alternatives_at : forall s i, In s core ->
    alternatives pb delta (n - S (cs_period s)) s (map (flow_of inp (cs s) ctx s (B (cs_period s) i)) (positions (cs s))) =
    map (decision_value sp neg k grid inp 1 (cs_period s) (at_state s) (B (cs_period s) i)) (positions (cs s)).
  Proof.
    intros s i Hs. unfold alternatives. unfold pb at 2. unfold problem_of. cbn [pb_moves model_problem]. fold (cs s).
    rewrite map_combine_same. apply map_ext. intros c. cbn [fst snd]. unfold decision_value. rewrite choices_at, context_at. cbn [i_core at_state].
    fold pb. fold n. fold delta. f_equal. ring.
  Qed.

  (** One step. *)
  Lemma step_le : forall t s i, In s core -> cs_period s = t ->
    F t s i + delta * value pb delta (n - S t) (NX t s i) <=
    max0 (map (decision_value sp neg k grid inp 1 t (at_state s) (B t i)) (positions (cs s))).
  Proof.
    intros t s i Hs Ht. apply max0_ub. apply in_map_iff. exists (ch t s i). split.
    - unfold decision_value. rewrite choices_at, context_at. cbn [i_core at_state]. fold pb. fold n. fold delta. unfold F, NX. ring.
    - apply In_positions. apply (recorded t s i Hs).
  Qed.
  Lemma step_eq : forall t s i, si_beta si = 1 -> in_place (cs s) -> In s core -> cs_period s = t ->
    (exists v, In v (vals t s i) /\ 0 <= v) ->
    F t s i + delta * value pb delta (n - S t) (NX t s i) =
    max0 (map (decision_value sp neg k grid inp 1 t (at_state s) (B t i)) (positions (cs s))).
  Proof.
    intros t s i Hb IP Hs Ht [v [Hv Hv0]]. apply Rle_antisym; [apply step_le; assumption|].
    destruct (standard_wf_inputs _ _ _ _ _ _ SM) as [W1 [W2 _]].
    assert (NDc : NoDup (in_choices inp)) by (rewrite W1; apply seq_NoDup).
    assert (Lcs : length (cs s) = length (in_choices inp)) by (rewrite W1, seq_length; apply W2).
    assert (Lv : length (vals t s i) = count_true (cs s)) by (unfold vals; rewrite map_length; apply length_positions).
    destruct (recorded t s i Hs) as [HR _].
    destruct (record_best _ _ _ NDc Lcs Lv IP _ HR) as [j [w [Hj [Hw Hmax]]]].
    unfold vals in Hw. rewrite nth_error_map, Hj in Hw. injection Hw as <-.
    assert (E : decision_value sp neg k grid inp (si_beta si) t (at_state s) (B t i) (ch t s i) = F t s i + delta * value pb delta (n - S t) (NX t s i)).
    { unfold decision_value. rewrite choices_at, context_at, Hb. cbn [i_core at_state]. fold pb. fold n. fold delta. unfold F, NX. ring. }
    rewrite E in Hmax. rewrite <- Hb. apply max0_lub.
    - apply Rle_trans with v; [exact Hv0|apply Hmax; exact Hv].
    - intros y Hy. apply Hmax. exact Hy.
  Qed.

  Lemma value_step : forall m s, In s core -> (cs_period s + S m = n)%nat ->
    value pb delta (S m) s =
    mean (map (fun i => max0 (map (decision_value sp neg k grid inp 1 (cs_period s) (at_state s) (B (cs_period s) i)) (positions (cs s)))) (seq 0 D)).
  Proof.
    intros m s Hs E. cbn [value]. rewrite (flows s Hs), map_map. f_equal. apply map_ext. intros i. f_equal.
    rewrite <- (alternatives_at s i Hs). unfold alternatives. replace (n - S (cs_period s))%nat with m by lia. reflexivity.
  Qed.
  Lemma mean_walks_step : forall m t s,
    mean (map (total t s) (sequences D (S m))) =
    mean (map (fun i => F t s i + delta * mean (map (total (S t) (NX t s i)) (sequences D m))) (seq 0 D)).
  Proof.
    intros m t s. rewrite mean_sequences by apply (es_some _ _ _ _ _ _ _ _ _ _ _ _ ES). f_equal. apply map_ext. intros i.
    unfold total. cbn [walk]. set (L := sequences D m).
    assert (N : L <> []) by (apply sequences_some; apply (es_some _ _ _ _ _ _ _ _ _ _ _ _ ES)).
    rewrite <- (map_map (walk F NX delta (S t) (NX t s i)) (fun w => F t s i + delta * w)).
    rewrite (map_ext _ (fun w => delta * w + F t s i)) by (intros w; ring).
    rewrite mean_affine by (intros E; apply map_eq_nil in E; contradiction). ring.
  Qed.
  Lemma mean_walks_le : forall m t s, In s core -> cs_period s = t -> (t + m = n)%nat ->
    mean (map (total t s) (sequences D m)) <= value pb delta m s.
  Proof.
    induction m as [|m IH]; intros t s Hs Ht E; [cbn; unfold mean; cbn; lra|].
    rewrite mean_walks_step, (value_step m s Hs) by lia. rewrite Ht. apply mean_le. intros i Hi.
    apply Rle_trans with (F t s i + delta * value pb delta (n - S t) (NX t s i)); [|apply step_le; assumption].
    apply Rplus_le_compat_l, Rmult_le_compat_l; [unfold delta; lra|]. replace (n - S t)%nat with m by lia.
    destruct m as [|m]; [cbn; unfold mean; cbn; lra|].
    destruct (next_in t s i Hs Ht ltac:(lia)) as [A1 A2]. apply IH; [exact A1|exact A2|lia].
  Qed.
  Lemma mean_walks_eq : si_beta si = 1 -> (forall s, In s core -> in_place (cs s)) -> some_choice_pays sp neg k inp ctx ->
    forall m t s, In s core -> cs_period s = t -> (t + m = n)%nat ->
    mean (map (total t s) (sequences D m)) = value pb delta m s.
  Proof.
    intros Hb IP PAY. induction m as [|m IH]; intros t s Hs Ht E; [cbn; unfold mean; cbn; lra|].
    rewrite mean_walks_step, (value_step m s Hs) by lia. rewrite Ht. f_equal. apply map_ext_in. intros i Hi.
    rewrite <- (step_eq t s i Hb (IP s Hs) Hs Ht).
    - f_equal. f_equal. replace (n - S t)%nat with m by lia.
      destruct m as [|m]; [cbn; unfold mean; cbn; lra|].
      destruct (next_in t s i Hs Ht ltac:(lia)) as [A1 A2]. apply IH; [exact A1|exact A2|lia].
    - destruct (PAY s (map (flow_of inp (cs s) ctx s (B (cs_period s) i)) (positions (cs s))) Hs) as [v [Hv Hv0]].
      + fold pb. rewrite (flows s Hs). apply in_map_iff. exists i. split; [reflexivity|exact Hi].
      + exists v. split; [|exact Hv0]. fold pb delta n in Hv. rewrite (alternatives_at s i Hs), Ht, <- Hb in Hv. exact Hv.
  Qed.

  (** ** Individuals of the panel *)
  Lemma lookup_row : forall id t o, In ((id, t), o) panel ->
    find (fun r => Nat.eqb (fst (fst r)) id && Nat.eqb (snd (fst r)) t) panel = Some ((id, t), o).
  Proof.
    intros id t o I.
    destruct (panel_model sp neg k grid ss inp ev SM (su_ev _ _ _ _ _ _ _ _ _ _ _ _ _ _ SU) si order next_key n ids base base_wage df SU)
      as [panel' [HP' [HI _]]]. rewrite HP in HP'. injection HP' as <-.
    assert (ND : NoDup (map fst panel)).
    { rewrite HI. apply sorted_lt_NoDup. apply panel_index_sorted. eapply su_increasing. exact SU. }
    match goal with |- find ?f panel = _ => destruct (find f panel) as [[[id' t'] o']|] eqn:E end.
    - apply find_some in E. destruct E as [I' E]. cbn in E. apply andb_true_iff in E. destruct E as [E1 E2].
      apply Nat.eqb_eq in E1. apply Nat.eqb_eq in E2. subst. f_equal. f_equal. exact (NoDup_fst_functional _ _ _ _ _ _ ND I' I).
    - pose proof (find_none _ _ E _ I) as X. cbn in X. rewrite !Nat.eqb_refl in X. discriminate.
  Qed.
  Lemma row_exists : forall id t, In id ids -> (t < n)%nat -> exists o, In ((id, t), o) panel.
  Proof.
    intros id t Hid Ht.
    destruct (panel_model sp neg k grid ss inp ev SM (su_ev _ _ _ _ _ _ _ _ _ _ _ _ _ _ SU) si order next_key n ids base base_wage df SU)
      as [panel' [HP' [HI _]]]. rewrite HP in HP'. injection HP' as <-.
    assert (I : In (id, t) (map fst panel)) by (rewrite HI; apply In_panel_index; split; assumption).
    apply in_map_iff in I. destruct I as [[i o] [E I]]. cbn in E. subst i. exists o. exact I.
  Qed.
  Lemma individual_walk : forall p id q, nth_error ids p = Some id -> nth_error (sequences D n) p = Some q ->
    lifetime_utility sp neg k grid inp panel n id = total 0 (i_core x) q.
  Proof.
    intros p id q Hp Hq.
    destruct (panel_model sp neg k grid ss inp ev SM (su_ev _ _ _ _ _ _ _ _ _ _ _ _ _ _ SU) si order next_key n ids base base_wage df SU)
      as [panel' [HP' [HI [H0 [HL HR]]]]]. rewrite HP in HP'. injection HP' as <-.
    assert (Hid : In id ids) by (eapply nth_error_In; exact Hp).
    set (st := fun t => match find (fun r => Nat.eqb (fst (fst r)) id && Nat.eqb (snd (fst r)) t) panel with
                        | Some r => i_core (o_ind (snd r)) | None => i_core x end).
    assert (Q : In q (sequences D n)) by (eapply nth_error_In; exact Hq).
    assert (ROW : forall t, (t < n)%nat -> exists o, In ((id, t), o) panel /\ o_ind o = at_state (st t) /\ In (st t) core /\ cs_period (st t) = t /\
              o_shocks o = B t (nth t q 0%nat)).
    { intros t. induction t as [|t IH]; intros Ht; destruct (row_exists id _ Hid Ht) as [o Ho]; exists o; (split; [exact Ho|]).
      - pose proof (es_start _ _ _ _ _ _ _ _ _ _ _ _ ES _ _ (H0 id o Ho)) as E. destruct start_in as [A1 [A2 _]].
        assert (S0 : st 0%nat = i_core x) by (unfold st; rewrite (lookup_row _ _ _ Ho); cbn; rewrite E; reflexivity).
        rewrite S0. split; [unfold at_state; rewrite E; destruct x; reflexivity|]. split; [exact A1|]. split; [exact A2|].
        pose proof (panel_shocks _ _ _ _ _ _ _ _ _ _ _ _ _ _ _ _ SU HP p id _ o Hp Ho) as X.
        pose proof (es_draws _ _ _ _ _ _ _ _ _ _ _ _ ES p q _ Hq Ht) as Y. unfold own_draws in Y. congruence.
      - destruct (IH ltac:(lia)) as [o' [Ho' [E' [_ [P' _]]]]].
        pose proof (HL id t o' o Ho' Ho) as E. rewrite E' in E. cbn [i_core i_dense at_state] in E.
        destruct (HR _ _ _ Ho) as (p' & s' & m' & _ & _ & _ & RR). pose proof (rr_state _ _ _ _ _ _ _ _ _ _ _ _ RR) as [A1 [A2 _]].
        assert (ST : st (S t) = i_core (o_ind o)) by (unfold st; rewrite (lookup_row _ _ _ Ho); reflexivity).
        rewrite ST. split; [unfold at_state; rewrite E; reflexivity|]. split; [exact A1|]. split; [exact A2|].
        pose proof (panel_shocks _ _ _ _ _ _ _ _ _ _ _ _ _ _ _ _ SU HP p id _ o Hp Ho) as X.
        pose proof (es_draws _ _ _ _ _ _ _ _ _ _ _ _ ES p q _ Hq Ht) as Y. unfold own_draws in Y. congruence. }
    assert (CH : forall t o, (t < n)%nat -> In ((id, t), o) panel -> o_choice o = ch t (st t) (nth t q 0%nat)).
    { intros t o Ht Ho. destruct (ROW t Ht) as [o' [Ho' [E [A1 [A2 A3]]]]].
      assert (o' = o) by (pose proof (lookup_row _ _ _ Ho); pose proof (lookup_row _ _ _ Ho'); congruence). subst o'.
      destruct (HR _ _ _ Ho) as (p' & s' & m' & _ & _ & _ & RR).
      pose proof (rr_shocks _ _ _ _ _ _ _ _ _ _ _ _ RR) as ES'. rewrite A3 in ES'. subst s'.
      pose proof (right_row_values _ _ _ _ _ _ _ _ _ _ _ _ _ SM SH0 HS RR) as V. rewrite E, choices_at in V.
      pose proof (rr_length _ _ _ _ _ _ _ _ _ _ _ _ RR) as LV. rewrite E, choices_at in LV.
      pose proof (rr_choice _ _ _ _ _ _ _ _ _ _ _ _ RR) as C. rewrite E, choices_at in C.
      assert (EV : o_values o = vals t (st t) (nth t q 0%nat)).
      { apply nth_error_ext_eq. intros j. unfold vals. rewrite nth_error_map.
        destruct (nth_error (positions (cs (st t))) j) as [c|] eqn:Hj; [rewrite (V j c Hj); reflexivity|].
        apply nth_error_None. apply nth_error_None in Hj. rewrite LV, <- length_positions. exact Hj. }
      rewrite EV in C. destruct (recorded t (st t) (nth t q 0%nat) A1) as [C' _]. congruence. }
    unfold total. replace q with (skipn 0 q) at 1 by reflexivity.
    assert (S0 : st 0%nat = i_core x).
    { unfold st. match goal with |- context [find ?f panel] => destruct (find f panel) as [[[i t] o]|] eqn:E end; [|reflexivity]. apply find_some in E. destruct E as [I E]. cbn in E.
      apply andb_true_iff in E. destruct E as [E1 E2]. apply Nat.eqb_eq in E1. apply Nat.eqb_eq in E2. subst i t.
      cbn. rewrite (es_start _ _ _ _ _ _ _ _ _ _ _ _ ES _ _ (H0 id o I)). reflexivity. }
    rewrite <- S0. rewrite <- (walk_sum F NX delta n q st (sequences_lengths _ _ _ Q)) with (m := n).
    - unfold lifetime_utility. fold delta. apply rsum_map_ext. intros t Ht. apply in_seq in Ht. rewrite Nat.sub_0_r. f_equal.
      destruct (ROW t ltac:(lia)) as [o [Ho [E [A1 [A2 A3]]]]]. rewrite (lookup_row _ _ _ Ho). cbn [snd].
      unfold utility. rewrite (CH t o ltac:(lia) Ho), E, A3, choices_at, context_at. reflexivity.
    - intros t Ht. destruct (ROW t ltac:(lia)) as [o [Ho [E [A1 [A2 A3]]]]]. destruct (ROW (S t) ltac:(lia)) as [o' [Ho' [E' _]]].
      pose proof (HL id t o o' Ho Ho') as L. rewrite E, E', (CH t o ltac:(lia) Ho) in L. cbn [i_core i_dense at_state] in L. injection L as L. exact L.
    - reflexivity.
  Qed.
  Lemma lifetimes : map (lifetime_utility sp neg k grid inp panel n) ids = map (total 0 (i_core x)) (sequences D n).
  Proof.
    apply nth_error_ext_eq. intros p. rewrite !nth_error_map.
    destruct (nth_error ids p) as [id|] eqn:Hp.
    - destruct (nth_error (sequences D n) p) as [q|] eqn:Hq.
      + cbn [option_map]. f_equal. apply (individual_walk p); assumption.
      + exfalso. apply nth_error_None in Hq. rewrite <- (es_ids _ _ _ _ _ _ _ _ _ _ _ _ ES) in Hq. apply nth_error_None in Hq. congruence.
    - apply nth_error_None in Hp. rewrite (es_ids _ _ _ _ _ _ _ _ _ _ _ _ ES) in Hp. apply nth_error_None in Hp. rewrite Hp. reflexivity.
  Qed.

  Variables (d : option nat) (v : R).
  Hypothesis Dc : dense_combination grid d (context grid x).
  Hypothesis Hv : value_at ss ev (i_core x) d v.
  Lemma stored : v = value pb delta n (i_core x).
  Proof.
    destruct start_in as [A1 [A2 _]].
    rewrite (solved_value _ _ _ _ _ _ _ _ _ _ _ _ SM (Rgt_not_eq _ _ HD) SH0 HS A1 Dc Hv). rewrite A2, Nat.sub_0_r. reflexivity.
  Qed.
  Lemma average_le : mean (map (lifetime_utility sp neg k grid inp panel n) ids) <= v.
  Proof. destruct start_in as [A1 [A2 _]]. rewrite lifetimes, stored. apply mean_walks_le; [exact A1|exact A2|reflexivity]. Qed.
  Lemma average_eq : si_beta si = 1 -> (forall s, In s core -> in_place (cs s)) -> some_choice_pays sp neg k inp ctx ->
    mean (map (lifetime_utility sp neg k grid inp panel n) ids) = v.
  Proof. intros H1 H2 H3. destruct start_in as [A1 [A2 _]]. rewrite lifetimes, stored. apply (mean_walks_eq H1 H2 H3); [exact A1|exact A2|reflexivity]. Qed.
End Model.
