(** Proofs about simulated paths. *)
From Coq Require Import List Arith Bool Reals Lia Lra Permutation Sorted.
From Verif Require Import Base Proof_Base Model_CoreStateSpace Spec_CoreStateSpace Model_StateSpace
  Spec_StateSpace Proof_CoreStateSpace Proof_StateSpace Model_Solve Spec_Solve Proof_Solve
  Proof_Shocks Proof_SolveProps
  Model_Parallel Spec_Parallel Proof_Parallel Model_Simulate Spec_Simulate Proof_Simulate Proof_Panel
  Proof_PanelModel Spec_Paths.
Import ListNotations.
Open Scope list_scope.
Open Scope nat_scope.

Lemma simulate_row_det : forall si nk nk' cx w n c i i' r o o',
  simulate_row si nk cx w n c i r = Ok o -> simulate_row si nk' cx w n c i' r = Ok o' ->
  same_outcome o o'.
Proof.
  intros si nk nk' cx w n c i i' r o o' H H'. unfold simulate_row in *.
  destruct (nth_error w (r_index r)); [|discriminate]. destruct (nth_error n (r_index r)); [|discriminate].
  destruct (nth_error c (r_index r)); [|discriminate]. cbv zeta in *.
  destruct (argmax _) as [p|]; [|discriminate]. destruct (record_choice _ _ _) as [ch|]; [|discriminate].
  injection H as <-. injection H' as <-. repeat split.
Qed.

Lemma In_panel_index : forall ids n id t, In (id, t) (panel_index ids n) <-> In id ids /\ t < n.
Proof.
  intros ids n id t. unfold panel_index. rewrite in_flat_map. split.
  - intros [x [Hx H]]. apply in_map_iff in H. destruct H as [u [E Hu]]. injection E as <- <-.
    apply in_seq in Hu. split; [exact Hx|lia].
  - intros [H1 H2]. exists id. split; [exact H1|]. apply in_map_iff. exists t. split; [reflexivity|]. apply in_seq. lia.
Qed.

Section Paths.
  Variables (sp : core_spec) (neg : neg_set) (kp : nat) (grid : list (list nat))
    (ss : state_space) (inp : inputs) (ev : list (list R)) (si : sim_spec).
  Let env := environment_of ss inp ev.

  Lemma setup_found : forall order n ids base base_wage df,
    simulation_setup sp neg kp grid ss inp ev si order n ids base base_wage df ->
    forall t x, in_model (create_core_state_space sp) grid t x ->
    exists k i cx wm npm cm w npr c, found env (sp_nchoices sp) t x k i cx wm npm cm w npr c.
  Proof.
    intros order n ids base base_wage df SU t x IM.
    destruct (found_spec sp neg kp grid ss inp ev (su_model _ _ _ _ _ _ _ _ _ _ _ _ _ _ SU)
                (su_ev _ _ _ _ _ _ _ _ _ _ _ _ _ _ SU) t x IM) as (k&i&wm&npm&cm&w&npr&c&Fo&_).
    - destruct IM as [H1 [_ H3]]. destruct (su_choice _ _ _ _ _ _ _ _ _ _ _ _ _ _ SU (i_core x) x H1 H3) as [ch Hc].
      unfold available in Hc. apply In_positions in Hc. rewrite <- length_positions.
      destruct (positions _); [destruct Hc|simpl; lia].
    - do 9 eexists. exact Fo.
  Qed.

  Lemma path_det : forall order order' next_key next_key' n n' ids ids' base base' bw bw' df df' panel panel'
      p p' id id' x,
    simulation_setup sp neg kp grid ss inp ev si order n ids base bw df ->
    simulation_setup sp neg kp grid ss inp ev si order' n' ids' base' bw' df' ->
    simulate_n_step env si order next_key 0 n base bw df = Ok panel ->
    simulate_n_step env si order' next_key' 0 n' base' bw' df' = Ok panel' ->
    nth_error ids p = Some id -> nth_error ids' p' = Some id' ->
    In ((id, 0), x) df -> In ((id', 0), x) df' ->
    forall t o o', (forall u, u <= t ->
      own_draws (length ids) base p u = own_draws (length ids') base' p' u /\
      own_draws (length ids) bw p u = own_draws (length ids') bw' p' u) ->
    In ((id, t), o) panel -> In ((id', t), o') panel' -> same_outcome o o'.
  Proof.
    intros order order' next_key next_key' n n' ids ids' base base' bw bw' df df' panel panel'
      p p' id id' x SU SU' E E' Hp Hp' Hx Hx'.
    destruct (panel_rows sp neg kp grid ss inp ev (su_model _ _ _ _ _ _ _ _ _ _ _ _ _ _ SU)
                (su_ev _ _ _ _ _ _ _ _ _ _ _ _ _ _ SU) si order next_key n ids base bw df SU)
      as [pn [F1 [F2 [F3 [F4 F5]]]]]. fold env in F1, F5. rewrite E in F1. injection F1 as <-.
    destruct (panel_rows sp neg kp grid ss inp ev (su_model _ _ _ _ _ _ _ _ _ _ _ _ _ _ SU')
                (su_ev _ _ _ _ _ _ _ _ _ _ _ _ _ _ SU') si order' next_key' n' ids' base' bw' df' SU')
      as [pn [G1 [G2 [G3 [G4 G5]]]]]. fold env in G1, G5. rewrite E' in G1. injection G1 as <-.
    assert (ND : NoDup ids) by (apply increasing_NoDup; eapply su_increasing; exact SU).
    assert (ND' : NoDup ids') by (apply increasing_NoDup; eapply su_increasing; exact SU').
    assert (UD : forall ids df q y z, NoDup ids -> cross_section ids 0 df -> In ((q, 0), y) df -> In ((q, 0), z) df -> y = z :> individual).
    { intros l d q y z N C Hy Hz. assert (N' : NoDup (map fst d)).
      { rewrite C. apply FinFun.Injective_map_NoDup; [|exact N]. intros a b Q. congruence. }
      exact (NoDup_fst_functional _ _ _ _ _ _ N' Hy Hz). }
    assert (Hrow : forall t o o', o_ind o = o_ind o' ->
        own_draws (length ids) base p t = own_draws (length ids') base' p' t ->
        own_draws (length ids) bw p t = own_draws (length ids') bw' p' t ->
        In ((id, t), o) panel -> In ((id', t), o') panel' -> same_outcome o o').
    { intros t o o' Ei D1 D2 Ho Ho'. destruct (F5 _ _ _ Ho) as [q [s [m [Q1 [Q2 [Q3 [RR R]]]]]]].
      destruct (G5 _ _ _ Ho') as [q' [s' [m' [Q1' [Q2' [Q3' [RR' R']]]]]]].
      assert (q = p) by (eapply NoDup_nth_error; [exact ND|eapply nth_error_lt; eauto|congruence]).
      assert (q' = p') by (eapply NoDup_nth_error; [exact ND'|eapply nth_error_lt; eauto|congruence]).
      subst q q'. unfold own_draws in *. assert (s' = s) by congruence. assert (m' = m) by congruence. subst s' m'.
      destruct (setup_found _ _ _ _ _ _ SU t (o_ind o) (rr_state _ _ _ _ _ _ _ _ _ _ _ _ RR))
        as (k&i&cx&wm&npm&cm&w&npr&c&Fo).
      specialize (R _ _ _ _ _ _ _ _ _ Fo). rewrite <- Ei in R'. specialize (R' _ _ _ _ _ _ _ _ _ Fo).
      eapply simulate_row_det; eauto. }
    intros t. induction t as [|t IH]; intros o o' D Ho Ho'.
    - destruct (D 0 (le_n 0)) as [D1 D2]. apply (Hrow 0); auto.
      rewrite (UD ids df id (o_ind o) x ND); [|eapply su_index; exact SU|apply F3; exact Ho|exact Hx].
      symmetry. apply (UD ids' df' id' _ _ ND'); [eapply su_index; exact SU'|apply G3; exact Ho'|exact Hx'].
    - destruct (D (S t) (le_n _)) as [D1 D2].
      assert (P : exists q, In ((id, t), q) panel).
      { assert (I : In (id, t) (map fst panel)).
        { rewrite F2. apply In_panel_index.
          assert (X : In (id, S t) (panel_index ids n)) by (rewrite <- F2; exact (in_map fst _ _ Ho)).
          apply In_panel_index in X. split; [tauto|lia]. }
        apply in_map_iff in I. destruct I as [[i q] [Q Hq]]. simpl in Q. subst i. eauto. }
      assert (P' : exists q, In ((id', t), q) panel').
      { assert (I : In (id', t) (map fst panel')).
        { rewrite G2. apply In_panel_index.
          assert (X : In (id', S t) (panel_index ids' n')) by (rewrite <- G2; exact (in_map fst _ _ Ho')).
          apply In_panel_index in X. split; [tauto|lia]. }
        apply in_map_iff in I. destruct I as [[i q] [Q Hq]]. simpl in Q. subst i. eauto. }
      destruct P as [q Hq]. destruct P' as [q' Hq'].
      destruct (IH q q') as [A1 [A2 _]]; auto.
      apply (Hrow (S t)); auto. rewrite (F4 _ _ _ _ Hq Ho), (G4 _ _ _ _ Hq' Ho'), A1, A2. reflexivity.
  Qed.
End Paths.

Lemma nth_error_firstn_lt : forall A n (l : list A) i, i < n -> nth_error (firstn n l) i = nth_error l i.
Proof.
  induction n as [|n IH]; intros [|a l] [|i] H; simpl; try lia; auto. apply IH. lia.
Qed.

(** More periods. *)
Lemma longer : forall sp neg kp grid ss inp ev si order order' next_key next_key' n n' ids stream streamw df panel panel',
  simulation_setup sp neg kp grid ss inp ev si order n ids (firstn (length ids * n) stream)
    (firstn (length ids * n) streamw) df ->
  simulation_setup sp neg kp grid ss inp ev si order' n' ids (firstn (length ids * n') stream)
    (firstn (length ids * n') streamw) df ->
  simulate_n_step (environment_of ss inp ev) si order next_key 0 n (firstn (length ids * n) stream)
    (firstn (length ids * n) streamw) df = Ok panel ->
  simulate_n_step (environment_of ss inp ev) si order' next_key' 0 n' (firstn (length ids * n') stream)
    (firstn (length ids * n') streamw) df = Ok panel' ->
  forall id t o o', In ((id, t), o) panel -> In ((id, t), o') panel' -> same_outcome o o'.
Proof.
  intros sp neg kp grid ss inp ev si order order' next_key next_key' n n' ids stream streamw df panel panel' SU SU' E E'
    id t o o' Ho Ho'.
  pose proof (panel_model sp neg kp grid ss inp ev (su_model _ _ _ _ _ _ _ _ _ _ _ _ _ _ SU)
                (su_ev _ _ _ _ _ _ _ _ _ _ _ _ _ _ SU) si order next_key n _ _ _ _ SU) as [pn [F1 [F2 _]]].
  rewrite E in F1. injection F1 as <-.
  pose proof (panel_model sp neg kp grid ss inp ev (su_model _ _ _ _ _ _ _ _ _ _ _ _ _ _ SU')
                (su_ev _ _ _ _ _ _ _ _ _ _ _ _ _ _ SU') si order' next_key' n' _ _ _ _ SU') as [pn [G1 [G2 _]]].
  rewrite E' in G1. injection G1 as <-.
  assert (I : In id ids /\ t < n) by (apply In_panel_index; rewrite <- F2; apply (in_map fst) in Ho; exact Ho).
  assert (I' : In id ids /\ t < n') by (apply In_panel_index; rewrite <- G2; apply (in_map fst) in Ho'; exact Ho').
  destruct I as [I T]. destruct I' as [_ T'].
  apply In_nth_error in I. destruct I as [p Hp].
  assert (Hx : exists x, In ((id, 0), x) df).
  { assert (X : In (id, 0) (map fst df)).
    { rewrite (su_index _ _ _ _ _ _ _ _ _ _ _ _ _ _ SU). apply in_map_iff. exists id. split; [reflexivity|].
      eapply nth_error_In; eauto. }
    apply in_map_iff in X. destruct X as [[i x] [Q Hx]]. simpl in Q. subst i. eauto. }
  destruct Hx as [x Hx]. assert (Lp : p < length ids) by (eapply nth_error_lt; eauto).
  apply (path_det sp neg kp grid ss inp ev si order order' next_key next_key' n n' ids ids _ _ _ _ df df panel panel' p p id id x
           SU SU' E E' Hp Hp Hx Hx t); auto.
  intros u Hu. unfold own_draws.
  assert (H1 : length ids * u + p < length ids * n) by nia.
  assert (H2 : length ids * u + p < length ids * n') by nia.
  rewrite !nth_error_firstn_lt by assumption. split; reflexivity.
Qed.

(** More individuals: the first period. *)
Lemma more_first : forall sp neg kp grid ss inp ev si order order' next_key next_key' n n' ids more stream streamw df df' panel panel',
  simulation_setup sp neg kp grid ss inp ev si order n ids (firstn (length ids * n) stream)
    (firstn (length ids * n) streamw) df ->
  simulation_setup sp neg kp grid ss inp ev si order' n' (ids ++ more) (firstn (length (ids ++ more) * n') stream)
    (firstn (length (ids ++ more) * n') streamw) (df ++ df') ->
  simulate_n_step (environment_of ss inp ev) si order next_key 0 n (firstn (length ids * n) stream)
    (firstn (length ids * n) streamw) df = Ok panel ->
  simulate_n_step (environment_of ss inp ev) si order' next_key' 0 n' (firstn (length (ids ++ more) * n') stream)
    (firstn (length (ids ++ more) * n') streamw) (df ++ df') = Ok panel' ->
  forall id o o', In id ids -> In ((id, 0), o) panel -> In ((id, 0), o') panel' -> same_outcome o o'.
Proof.
  intros sp neg kp grid ss inp ev si order order' next_key next_key' n n' ids more stream streamw df df' panel panel' SU SU' E E'
    id o o' Hid Ho Ho'.
  pose proof (panel_model sp neg kp grid ss inp ev (su_model _ _ _ _ _ _ _ _ _ _ _ _ _ _ SU)
                (su_ev _ _ _ _ _ _ _ _ _ _ _ _ _ _ SU) si order next_key n _ _ _ _ SU) as [pn [F1 [F2 _]]].
  rewrite E in F1. injection F1 as <-.
  pose proof (panel_model sp neg kp grid ss inp ev (su_model _ _ _ _ _ _ _ _ _ _ _ _ _ _ SU')
                (su_ev _ _ _ _ _ _ _ _ _ _ _ _ _ _ SU') si order' next_key' n' _ _ _ _ SU') as [pn [G1 [G2 _]]].
  rewrite E' in G1. injection G1 as <-.
  assert (I : In id ids /\ 0 < n) by (apply In_panel_index; rewrite <- F2; apply (in_map fst) in Ho; exact Ho).
  assert (I' : In id (ids ++ more) /\ 0 < n') by (apply In_panel_index; rewrite <- G2; apply (in_map fst) in Ho'; exact Ho').
  destruct I as [_ T]. destruct I' as [_ T'].
  apply In_nth_error in Hid. destruct Hid as [p Hp].
  assert (Lp : p < length ids) by (eapply nth_error_lt; eauto).
  assert (Hp' : nth_error (ids ++ more) p = Some id) by (rewrite nth_error_app1; assumption).
  assert (Hx : exists x, In ((id, 0), x) df).
  { assert (X : In (id, 0) (map fst df)).
    { rewrite (su_index _ _ _ _ _ _ _ _ _ _ _ _ _ _ SU). apply in_map_iff. exists id. split; [reflexivity|].
      eapply nth_error_In; eauto. }
    apply in_map_iff in X. destruct X as [[i x] [Q Hx]]. simpl in Q. subst i. eauto. }
  destruct Hx as [x Hx].
  assert (Hx' : In ((id, 0), x) (df ++ df')) by (apply in_or_app; left; exact Hx).
  apply (path_det sp neg kp grid ss inp ev si order order' next_key next_key' n n' ids (ids ++ more) _ _ _ _ df (df ++ df')
           panel panel' p p id id x SU SU' E E' Hp Hp' Hx Hx' 0); auto.
  intros u Hu. assert (u = 0) as -> by lia. unfold own_draws. rewrite !Nat.mul_0_r. simpl.
  assert (H0 : p < length (ids ++ more)) by (rewrite app_length; lia).
  assert (H1 : p < length ids * n) by nia. assert (H2 : p < length (ids ++ more) * n') by nia.
  rewrite !nth_error_firstn_lt by assumption. split; reflexivity.
Qed.

(** ** Replaying a panel *)
Lemma panel_index_map : forall ids n,
  panel_index ids n = map (fun pt => (nth (fst pt) ids 0, snd pt)) (panel_index (seq 0 (length ids)) n).
Proof.
  intros ids n. unfold panel_index.
  rewrite flat_map_concat_map, flat_map_concat_map, concat_map, map_map.
  f_equal. transitivity (map (fun p => map (fun t => (nth p ids 0, t)) (seq 0 n)) (seq 0 (length ids))).
  - rewrite <- (map_map (fun p => nth p ids 0) (fun id => map (fun t => (id, t)) (seq 0 n))).
    f_equal. symmetry. apply nth_error_ext_eq. intros i. rewrite nth_error_map.
    destruct (nth_error ids i) as [x|] eqn:H.
    + assert (L : i < length ids) by (eapply nth_error_lt; eauto).
      rewrite (nth_error_nth' (seq 0 (length ids)) 0) by (rewrite seq_length; exact L).
      rewrite seq_nth by exact L. simpl. f_equal. apply nth_error_nth. exact H.
    + apply nth_error_None in H. replace (nth_error (seq 0 (length ids)) i) with (@None nat); [reflexivity|].
      symmetry. apply nth_error_None. rewrite seq_length. exact H.
  - apply map_ext. intros p. rewrite map_map. reflexivity.
Qed.

Lemma by_individual_map : forall N n base,
  by_individual N n base = map (fun pt => nth (N * snd pt + fst pt) base []) (panel_index (seq 0 N) n).
Proof.
  intros N n base. unfold by_individual, panel_index.
  rewrite !flat_map_concat_map, concat_map, map_map. f_equal. apply map_ext. intros p. rewrite map_map. reflexivity.
Qed.

Lemma panel_index_sorted : forall ids n, increasing ids -> StronglySorted index_lt (panel_index ids n).
Proof.
  induction ids as [|id ids IH]; intros n; simpl; [intros; constructor|]. intros [H1 H2].
  assert (S : StronglySorted index_lt (map (fun t => (id, t)) (seq 0 n))).
  { generalize 0. induction n as [|n IHn]; intros a; simpl; [constructor|]. constructor; [apply IHn|].
    rewrite Forall_forall. intros x Hx. apply in_map_iff in Hx. destruct Hx as [t [<- Ht]]. apply in_seq in Ht.
    right. simpl. split; [reflexivity|lia]. }
  assert (A : forall x y, In x (map (fun t => (id, t)) (seq 0 n)) -> In y (panel_index ids n) -> index_lt x y).
  { intros x [i t] Hx Hy. apply in_map_iff in Hx. destruct Hx as [u [<- _]]. apply In_panel_index in Hy.
    left. simpl. apply H1. tauto. }
  specialize (IH n H2). fold (panel_index ids n).
  induction (map (fun t => (id, t)) (seq 0 n)) as [|x l IHl]; simpl; [exact IH|].
  inversion S; subst. constructor.
  - apply IHl; [assumption|]. intros a b Ha Hb. apply A; [right; exact Ha|exact Hb].
  - rewrite Forall_forall in *. intros y Hy. apply in_app_or in Hy. destruct Hy as [Hy|Hy]; [auto|].
    apply A; [left; reflexivity|exact Hy].
Qed.

Lemma length_panel_index : forall ids n, length (panel_index ids n) = length ids * n.
Proof.
  induction ids as [|id ids IH]; intros n; simpl; [reflexivity|].
  rewrite app_length, map_length, seq_length. fold (panel_index ids n). rewrite IH. reflexivity.
Qed.

Lemma by_individual_shape : forall N n c base, draws_shape (N * n) c base ->
  draws_shape (N * n) c (by_individual N n base).
Proof.
  intros N n c base [L R]. rewrite by_individual_map. split.
  - rewrite map_length, length_panel_index, seq_length. reflexivity.
  - intros row H. apply in_map_iff in H. destruct H as [[p t] [<- H]]. apply In_panel_index in H.
    destruct H as [H1 H2]. apply in_seq in H1. apply R. apply nth_In. simpl. nia.
Qed.

Lemma one_step_of_panel : forall sp neg kp grid ss inp ev si order order' next_key n ids base bw df panel,
  simulation_setup sp neg kp grid ss inp ev si order n ids base bw df -> iteration_order order' ->
  simulate_n_step (environment_of ss inp ev) si order next_key 0 n base bw df = Ok panel ->
  forall base' bw', draws_shape (length ids * n) (sp_nchoices sp) base' ->
  draws_shape (length ids * n) (sp_nchoices sp) bw' ->
  one_step_setup sp neg kp grid ss inp ev si order' n base' bw' (states_of panel).
Proof.
  intros sp neg kp grid ss inp ev si order order' next_key n ids base bw df panel SU IO E base' bw' DB DW.
  destruct (panel_rows sp neg kp grid ss inp ev (su_model _ _ _ _ _ _ _ _ _ _ _ _ _ _ SU)
              (su_ev _ _ _ _ _ _ _ _ _ _ _ _ _ _ SU) si order next_key n ids base bw df SU)
    as [pn [F1 [F2 [_ [_ F5]]]]]. rewrite E in F1. injection F1 as <-.
  assert (SI : map fst (states_of panel) = panel_index ids n).
  { unfold states_of. rewrite map_map. simpl. exact F2. }
  assert (SL : length (states_of panel) = length ids * n).
  { rewrite <- (map_length fst), SI. apply length_panel_index. }
  constructor.
  - eapply su_model; exact SU.
  - eapply su_ev; exact SU.
  - eapply su_params; exact SU.
  - eapply su_names; exact SU.
  - eapply su_meas; exact SU.
  - exact IO.
  - unfold ordered_frame. rewrite SI. apply panel_index_sorted. eapply su_increasing; exact SU.
  - rewrite SL. exact DB.
  - rewrite SL. exact DW.
  - intros id t x Hx. split.
      + assert (X : In (id, t) (panel_index ids n)) by (rewrite <- SI; exact (in_map fst _ _ Hx)).
        apply In_panel_index in X. tauto.
      + unfold states_of in Hx. apply in_map_iff in Hx. destruct Hx as [[i o] [Q Ho]]. simpl in Q. injection Q as -> <-.
        destruct (F5 _ _ _ Ho) as [p [s [m [_ [_ [_ [RR _]]]]]]]. apply RR.
  - intros t Ht. destruct ids as [|id ids'] eqn:Ids; [destruct (su_some _ _ _ _ _ _ _ _ _ _ _ _ _ _ SU eq_refl)|].
      assert (H : In (id, t) (map fst (states_of panel))).
      { rewrite SI. apply In_panel_index. split; [left; reflexivity|exact Ht]. }
      apply in_map_iff in H. destruct H as [[i x] [Q Hx]]. simpl in Q. subst i. eauto.
  - eapply su_choice; exact SU.
Qed.

Lemma replay : forall sp neg kp grid ss inp ev si order order' next_key n ids base bw df panel,
  simulation_setup sp neg kp grid ss inp ev si order n ids base bw df -> iteration_order order' ->
  simulate_n_step (environment_of ss inp ev) si order next_key 0 n base bw df = Ok panel ->
  one_step (environment_of ss inp ev) si order' next_key n (by_individual (length ids) n base)
    (by_individual (length ids) n bw) (states_of panel) = Ok panel.
Proof.
  intros sp neg kp grid ss inp ev si order order' next_key n ids base bw df panel SU IO E.
  destruct (panel_rows sp neg kp grid ss inp ev (su_model _ _ _ _ _ _ _ _ _ _ _ _ _ _ SU)
              (su_ev _ _ _ _ _ _ _ _ _ _ _ _ _ _ SU) si order next_key n ids base bw df SU)
    as [pn [F1 [F2 [_ [_ F5]]]]]. rewrite E in F1. injection F1 as <-.
  assert (SI : map fst (states_of panel) = panel_index ids n).
  { unfold states_of. rewrite map_map. simpl. exact F2. }
  assert (SL : length (states_of panel) = length ids * n).
  { rewrite <- (map_length fst), SI. apply length_panel_index. }
  pose proof (su_base _ _ _ _ _ _ _ _ _ _ _ _ _ _ SU) as DB.
  pose proof (su_base_wage _ _ _ _ _ _ _ _ _ _ _ _ _ _ SU) as DW.
  assert (OS : one_step_setup sp neg kp grid ss inp ev si order' n (by_individual (length ids) n base)
    (by_individual (length ids) n bw) (states_of panel)).
  { eapply one_step_of_panel; eauto; apply by_individual_shape; assumption. }
  destruct (one_step_rows sp neg kp grid ss inp ev (su_model _ _ _ _ _ _ _ _ _ _ _ _ _ _ SU)
              (su_ev _ _ _ _ _ _ _ _ _ _ _ _ _ _ SU) si order' next_key n _ _ _ OS) as [pn [G1 [G2 G3]]].
  rewrite G1. f_equal. rewrite SI, <- F2 in G2.
  assert (ND : NoDup ids) by (apply increasing_NoDup; eapply su_increasing; exact SU).
  assert (LP : length pn = length panel) by (rewrite <- (map_length fst pn), G2; apply map_length).
  apply nth_error_ext_eq. intros q.
  destruct (nth_error panel q) as [[[id t] o]|] eqn:Hq.
  - assert (Hq' : nth_error pn q = Some ((id, t), snd (nth q pn ((0, 0), o)))).
    { assert (Lq : q < length pn) by (rewrite LP; eapply nth_error_lt; exact Hq).
      rewrite (nth_error_nth' pn ((0, 0), o) Lq). f_equal. rewrite (surjective_pairing (nth q pn ((0,0),o))) at 1. f_equal.
      assert (X : nth_error (map fst pn) q = nth_error (map fst panel) q) by (rewrite G2; reflexivity).
      rewrite !nth_error_map, Hq, (nth_error_nth' pn ((0, 0), o) Lq) in X. simpl in X. congruence. }
    rewrite Hq'. set (o' := snd (nth q pn ((0, 0), o))) in *. f_equal. f_equal.
    assert (Hs : nth_error (states_of panel) q = Some ((id, t), o_ind o)).
    { unfold states_of. rewrite nth_error_map, Hq. reflexivity. }
    destruct (G3 _ _ _ _ _ Hs Hq') as [s' [m' [B1 [B2 [_ [_ R']]]]]].
    destruct (F5 _ _ _ (nth_error_In _ _ Hq)) as [p [s [m [P1 [P2 [P3 [RR R]]]]]]].
    (* the draws *)
    assert (PI : nth_error (panel_index (seq 0 (length ids)) n) q = Some (p, t)).
    { assert (X : nth_error (panel_index ids n) q = Some (id, t)) by (rewrite <- F2, nth_error_map, Hq; reflexivity).
      rewrite panel_index_map in X. unfold index in *. rewrite nth_error_map in X.
      destruct (@nth_error (nat * nat) (panel_index (seq 0 (length ids)) n) q) as [[p' t']|] eqn:Y; [|discriminate X].
      simpl in X. injection X as X1 X2. subst t'. f_equal. f_equal.
      assert (Lp' : p' < length ids).
      { apply nth_error_In, In_panel_index in Y. destruct Y as [Y _]. apply in_seq in Y. lia. }
      apply (proj1 (NoDup_nth_error ids) ND); [exact Lp'|].
      rewrite P1, (nth_error_nth' ids 0 Lp'), X1. reflexivity. }
    rewrite by_individual_map, nth_error_map in B1, B2. unfold index in *. rewrite PI in B1, B2. simpl in B1, B2. apply (f_equal (fun z => match z with Some y => y | None => [] end)) in B1. apply (f_equal (fun z => match z with Some y => y | None => [] end)) in B2. simpl in B1, B2.
    rewrite (nth_error_nth _ _ _ P2) in B1. rewrite (nth_error_nth _ _ _ P3) in B2. subst s' m'.
    destruct (setup_found _ _ _ _ _ _ _ _ _ _ _ _ _ _ SU t (o_ind o) (rr_state _ _ _ _ _ _ _ _ _ _ _ _ RR))
      as (k&i&cx&wm&npm&cm&w&npr&c&Fo).
    specialize (R _ _ _ _ _ _ _ _ _ Fo). specialize (R' _ _ _ _ _ _ _ _ _ Fo). congruence.
  - apply nth_error_None. apply nth_error_None in Hq. unfold frame, index in *. lia.
Qed.
