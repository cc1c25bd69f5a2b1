(** The check of a solution and the location of observations. *)
From Coq Require Import List Arith Bool Lia Permutation ZArith.
From Verif Require Import Base Proof_Base Model_CoreStateSpace Spec_CoreStateSpace Proof_CoreStateSpace
  Model_StateSpace Spec_StateSpace Proof_StateSpace Model_Solve Spec_Solve Model_Parallel Model_Simulate Spec_Simulate
  Proof_Simulate Proof_PanelModel Model_Params Model_Data Proof_Data Model_Processing Spec_Processing Proof_Processing.
Import ListNotations.
Local Open Scope nat_scope.

Lemma check_true : forall b, check b = Ok tt <-> b = true.
Proof. intros []; cbn; split; intros; congruence. Qed.
Lemma no_duplicates_iff : forall l, no_duplicates l = true <-> NoDup l.
Proof.
  induction l as [|s l IH]; cbn; [split; [constructor|reflexivity]|]. rewrite andb_true_iff, IH.
  destruct (in_dec core_state_eq_dec s l) as [I|I]; cbn; split.
  - intros [X _]. discriminate.
  - intros N. inversion N. contradiction.
  - intros [_ N]. constructor; assumption.
  - intros N. inversion N. auto.
Qed.

Lemma check_solution_iff : forall sp core indices finite,
  (forall s, In s core -> length (cs_lag s) = sp_nlags sp /\ length (cs_exp s) = length (sp_max sp)) ->
  (check_model_solution sp core indices finite = Ok tt <-> sound_solution sp core indices finite).
Proof.
  intros sp core indices finite SH. unfold check_model_solution. rewrite !all_checks_app, all_checks_map.
  rewrite !all_checks_ok. cbn [In].
  split.
  - intros [A [B C]].
    pose proof (A _ (or_introl eq_refl)) as A1. pose proof (A _ (or_intror (or_introl eq_refl))) as A2.
    pose proof (C _ (or_introl eq_refl)) as C1. pose proof (C _ (or_intror (or_introl eq_refl))) as C2.
    pose proof (C _ (or_intror (or_intror (or_introl eq_refl)))) as C3.
    pose proof (C _ (or_intror (or_intror (or_intror (or_introl eq_refl))))) as C4.
    rewrite check_true in A1, A2, C1, C2, C3, C4. rewrite forallb_forall in A1, A2.
    apply andb_true_iff in C2. destruct C2 as [C2 C2'].
    split.
    + intros s I. apply Nat.ltb_lt. apply A1. exact I.
    + intros s I. apply Nat.leb_le. apply A2. exact I.
    + intros s i m e I M E. assert (J : In (i, m) (enumerate (sp_max sp))) by (apply In_enumerate; exact M).
      specialize (B _ J). rewrite check_true, forallb_forall in B. specialize (B s I). cbn [fst snd] in B.
      apply Nat.leb_le in B. rewrite (nth_error_nth _ _ _ E) in B. exact B.
    + intros s I. split; [apply SH; exact I|]. intros x X.
      apply orb_true_iff in C1. destruct C1 as [C1|C1].
      * apply Nat.eqb_eq in C1. destruct (SH s I) as [L _]. rewrite C1 in L. apply length_zero_iff_nil in L.
        rewrite L in X. destruct X.
      * rewrite forallb_forall in C1. specialize (C1 s I). rewrite forallb_forall in C1. specialize (C1 x X).
        destruct x as [c|]; [|discriminate]. exists c. split; [reflexivity|]. apply Nat.ltb_lt. exact C1.
    + apply no_duplicates_iff. exact C3.
    + apply Nat.eqb_eq. exact C4.
    + exact C2'.
  - intros [S1 S2 S3 S4 S5 S6 S7]. split; [|split].
    + intros x [<-|[<-|[]]]; apply check_true; apply forallb_forall; intros s I.
      * apply Nat.ltb_lt. apply S1. exact I.
      * apply Nat.leb_le. apply S2. exact I.
    + intros [i m] J. apply check_true. apply forallb_forall. intros s I. cbn [fst snd]. apply Nat.leb_le.
      apply In_enumerate in J. assert (L : i < length (cs_exp s)).
      { destruct (SH s I) as [_ L]. rewrite L. apply nth_error_Some. congruence. }
      apply (S3 s i m); [exact I|exact J|]. apply nth_error_nth'. exact L.
    + intros x [<-|[<-|[<-|[<-|[]]]]]; apply check_true.
      * apply orb_true_iff. right. apply forallb_forall. intros s I. apply forallb_forall. intros x X.
        destruct (S4 s I) as [_ H]. destruct (H x X) as [c [-> L]]. apply Nat.ltb_lt. exact L.
      * rewrite S7, andb_true_r. apply forallb_forall. intros s I. apply forallb_forall. intros x X.
        destruct (S4 s I) as [_ H]. destruct (H x X) as [c [-> L]]. reflexivity.
      * apply no_duplicates_iff. exact S5.
      * apply Nat.eqb_eq. exact S6.
Qed.

Lemma list_sum_vec_add : forall a b, list_sum (vec_add a b) <= list_sum a + list_sum b.
Proof.
  unfold vec_add. induction a as [|x a IH]; intros [|y b]; cbn [combine map fst snd]; unfold list_sum in *; cbn; try lia.
  specialize (IH b). lia.
Qed.
Lemma list_max_nat_ub : forall l x, In x l -> x <= list_max_nat l.
Proof.
  intros [|y r] x I; [destruct I|]. unfold list_max_nat.
  assert (H : forall r y x, In x (y :: r) -> x <= fold_left Nat.max r y).
  { clear. induction r as [|z r IH]; intros y x [<-|I]; cbn; [lia|destruct I| |].
    - specialize (IH (Nat.max y z) (Nat.max y z) (or_introl eq_refl)). lia.
    - destruct I as [<-|I].
      + specialize (IH (Nat.max y z) (Nat.max y z) (or_introl eq_refl)). lia.
      + apply IH. right. exact I. }
  apply H. exact I.
Qed.
Lemma initial_sum : forall init starts, Forall2 (fun x levels => In x levels) init starts ->
  list_sum init <= list_sum (map list_max_nat starts).
Proof.
  intros init starts F. induction F as [|x levels init starts H F IH]; [auto|].
  unfold list_sum in *. cbn. apply list_max_nat_ub in H. lia.
Qed.

Lemma indexer_size : forall core csf, NoDup core ->
  length (create_indexer core (core_key_to_core_indices core csf)) = length core.
Proof.
  intros core csf ND. destruct (indexer_bijection core csf ND) as [A _].
  pose proof (NoDup_indexer_keys core csf ND) as K.
  assert (E : create_indexer core (core_key_to_core_indices core csf) = indexer_pairs core (core_key_to_core_indices core csf)).
  { rewrite indexer_as_dict. apply dict_of_pairs_NoDup. exact K. }
  rewrite E in A |- *. unfold dict_keys in K.
  set (idx := indexer_pairs core (core_key_to_core_indices core csf)) in *.
  rewrite <- (map_length fst idx). apply Permutation_length. apply NoDup_Permutation; [exact K|exact ND|].
  intros s. rewrite A. split.
  - intros I. destruct (dict_get core_state_eq_dec s idx) as [x|] eqn:G; [exists x; reflexivity|].
    apply dict_get_None in G. contradiction.
  - intros [x G]. apply dict_get_Some_In in G. apply in_map_iff. exists (s, x). auto.
Qed.

Lemma created_accepted : forall sp csf grid ss, wf_spec sp -> sp_nlags sp <= 1 ->
  create_state_space (sp_nperiods sp) (create_core_state_space sp) csf grid = Ok ss ->
  check_model_solution sp (create_core_state_space sp) (length (ss_indexer ss)) true = Ok tt.
Proof.
  intros sp csf grid ss W L C. apply create_state_space_facts in C.
  assert (SH : forall s, In s (create_core_state_space sp) ->
    length (cs_lag s) = sp_nlags sp /\ length (cs_exp s) = length (sp_max sp)).
  { intros s I. apply core_exact in I; [|exact W|exact L]. destruct I as [_ [[Q _] [init [gain [_ [_ [_ [_ [M _]]]]]]]]].
    split; [exact Q|]. clear - M. induction M; cbn; congruence. }
  apply check_solution_iff; [exact SH|]. split.
  - intros s I. apply core_exact in I; [|exact W|exact L]. apply I.
  - intros s I. apply core_exact in I; [|exact W|exact L].
    destruct I as [_ [_ [init [gain [F [_ [G [E _]]]]]]]]. rewrite E.
    pose proof (list_sum_vec_add init gain). pose proof (initial_sum _ _ F). lia.
  - intros s i m e I M E. apply core_exact in I; [|exact W|exact L].
    destruct I as [_ [_ [init [gain [_ [_ [_ [_ [X _]]]]]]]]].
    clear SH. revert i m e M E. induction X as [|a b la lb H X IH]; intros [|i] m e M E; cbn in M, E; try discriminate.
    + congruence.
    + apply (IH i); assumption.
  - intros s I. apply core_exact in I; [|exact W|exact L]. apply I.
  - apply core_nodup.
  - rewrite (sf_indexer _ _ _ _ _ C). rewrite indexer_size by apply core_nodup. reflexivity.
  - reflexivity.
Qed.

Lemma two_lags_rejected : forall sp indices finite, wf_spec sp -> 2 <= sp_nlags sp ->
  create_core_state_space sp <> [] ->
  check_model_solution sp (create_core_state_space sp) indices finite <> Ok tt.
Proof.
  intros sp indices finite W L NE C.
  destruct (create_core_state_space sp) as [|s core] eqn:E; [contradiction|].
  assert (I : In s (create_core_state_space sp)) by (rewrite E; left; reflexivity).
  destruct (multi_lag_incomplete sp s W ltac:(lia) I) as [LL CC].
  unfold check_model_solution in C. rewrite !all_checks_app in C. destruct C as [_ [_ C]].
  rewrite all_checks_ok in C. specialize (C _ (or_introl eq_refl)). rewrite check_true in C.
  apply orb_true_iff in C. destruct C as [C|C]; [apply Nat.eqb_eq in C; lia|].
  rewrite forallb_forall in C. specialize (C s (or_introl eq_refl)).
  apply (multi_lag_none_complete sp s W L); [|exact I]. split; [exact LL|].
  intros x X. rewrite forallb_forall in C. specialize (C x X). destruct x as [c|]; [|discriminate].
  exists c. split; [reflexivity|]. apply Nat.ltb_lt. exact C.
Qed.

(** ** Observations *)
Section Observations.
  Variables (np : nat) (core : list core_state) (csf : cs_fun) (grid : list (list nat)) (ss : state_space).
  Hypothesis ND : NoDup core.
  Hypothesis CF : collision_free core csf grid.
  Hypothesis CR : create_state_space np core csf grid = Ok ss.
  Let F : ss_facts np core csf grid ss := create_state_space_facts _ _ _ _ _ CR.

  Lemma locate_iff : forall s dense,
    (exists x, locate ss s dense = Ok x) <-> In s core /\ dense_known grid dense.
  Proof.
    intros s dense. split.
    - intros [x L]. unfold locate in L. rewrite (sf_indexer _ _ _ _ _ F) in L.
      destruct (indexer_bijection core csf ND) as [A _].
      destruct (dict_get core_state_eq_dec s (create_indexer core (core_key_to_core_indices core csf))) as [[ck ci]|] eqn:E; [|discriminate].
      split; [apply A; exists (ck, ci); exact E|]. rewrite (sf_grid _ _ _ _ _ F) in L. unfold dense_known.
      destruct grid as [|v gr]; [left; reflexivity|right].
      match type of L with match ?t with _ => _ end = _ => destruct t as [d|] eqn:D end; [|discriminate].
      apply dict_of_pairs_get in D. apply in_map_iff in D. destruct D as [[i y] [D Hi]]. cbn in D. injection D as -> ->.
      apply In_enumerate in Hi. eapply nth_error_In; eauto.
    - intros [H1 H3].
      assert (Hd : exists d ctx, dense_combination grid d ctx /\
         match grid with [] => True | _ =>
           dict_get (list_eq_dec Nat.eq_dec) dense
             (dict_of_pairs (list_eq_dec Nat.eq_dec) (map (fun p => (snd p, fst p)) (enumerate grid))) = d end).
      { destruct grid as [|v gr] eqn:G.
        - exists None, None. split; [split; reflexivity|exact I].
        - destruct H3 as [H3|H3]; [discriminate|].
          set (l := map (fun p : nat * list nat => (snd p, fst p)) (enumerate (v :: gr))).
          destruct (dict_get (list_eq_dec Nat.eq_dec) dense (dict_of_pairs (list_eq_dec Nat.eq_dec) l)) as [d|] eqn:E.
          + exists (Some d), (Some dense). split; [|reflexivity].
            apply dict_of_pairs_get in E. unfold l in E. apply in_map_iff in E.
            destruct E as [[i y] [E Hi]]. simpl in E. injection E as -> ->.
            apply In_enumerate in Hi. exists dense. split; [exact Hi|reflexivity].
          + exfalso. apply dict_get_None in E. apply E. unfold dict_of_pairs.
            apply In_keys_update. right. unfold dict_keys, l. rewrite map_map.
            change (In dense (map snd (enumerate (v :: gr)))). rewrite map_snd_enumerate. exact H3. }
      destruct Hd as [d [ctx [Dc Hd]]].
      destruct (located_exists _ _ _ _ _ _ _ _ CF F H1 Dc) as [k [r L]].
      exists (k, r).
      destruct (located_facts _ _ _ _ _ _ _ _ _ CF F L) as
        [ctx' [cx [ck [inds [i [D' [Hk [Ecx [Gi [Hr Hi]]]]]]]]]].
      assert (M : dict_get core_state_eq_dec s (ss_indexer ss) = Some (ck, r)).
      { rewrite (sf_indexer _ _ _ _ _ F). apply indexer_spec; [exact ND|].
        exists inds, i. rewrite <- (sf_groups _ _ _ _ _ F). auto. }
      pose proof (lookup_dense_key _ _ _ _ _ _ _ _ CF F Hk) as LK.
      unfold locate. rewrite M, (sf_grid _ _ _ _ _ F).
      pose proof (fun E0 => nodense_key np core csf ss k cx ck (eq_ind _ (fun g => ss_facts np core csf g ss) F _ E0) Hk) as NK.
      destruct grid as [|v gr] eqn:G.
      + rewrite (NK eq_refl). reflexivity.
      + rewrite Hd. destruct d as [d|]; [|destruct Dc; discriminate].
        assert (X : cx_dense cx = Some d) by (subst cx; reflexivity). rewrite X in LK.
        unfold core_dense_key in LK. rewrite LK. reflexivity.
  Qed.

  Lemma locate_error : forall s dense, (exists x, locate ss s dense = Ok x) \/ locate ss s dense = KeyError.
  Proof.
    intros s dense. unfold locate.
    destruct (dict_get core_state_eq_dec s (ss_indexer ss)) as [[ck ci]|]; [|right; reflexivity].
    destruct (ss_grid ss) as [|v g]; [left; eexists; reflexivity|].
    match goal with |- context [match ?t with _ => _ end] => destruct t as [d|] end; [|right; reflexivity].
    match goal with |- context [match ?t with _ => _ end] => destruct t as [k|] end; [left; eexists; reflexivity|right; reflexivity].
  Qed.
End Observations.

Lemma result_all_keyerror : forall A (l : list (result A)),
  (forall x, In x l -> (exists y, x = Ok y) \/ x = KeyError) ->
  ((exists ys, result_all l = Ok ys) /\ (forall x, In x l -> exists y, x = Ok y)) \/
  (result_all l = KeyError /\ In KeyError l).
Proof.
  intros A l. induction l as [|x l IH]; intros H.
  - left. split; [exists []; reflexivity|intros x []].
  - destruct (H x (or_introl eq_refl)) as [[y Y]|Y]; rewrite Y in *; clear Y.
    + destruct IH as [[[ys E] IH]|[E IH]]; [intros; apply H; right; assumption| |].
      * left. split; [exists (y :: ys); cbn; rewrite E; reflexivity|].
        intros z [<-|Z]; [exists y; reflexivity|apply IH; exact Z].
      * right. cbn. rewrite E. split; [reflexivity|right; exact IH].
    + right. split; [reflexivity|left; reflexivity].
Qed.

Lemma locate_data_iff : forall sp csf grid ss data,
  collision_free (create_core_state_space sp) csf grid ->
  create_state_space (sp_nperiods sp) (create_core_state_space sp) csf grid = Ok ss ->
  ((exists x, locate_data sp csf grid data = Ok x) <->
   forall s dense, In (s, dense) data -> In s (create_core_state_space sp) /\ dense_known grid dense) /\
  ((exists x, locate_data sp csf grid data = Ok x) \/ locate_data sp csf grid data = KeyError).
Proof.
  intros sp csf grid ss data CF CR.
  assert (Q : forall x, In x (map (fun o => locate ss (fst o) (snd o)) data) -> (exists y, x = Ok y) \/ x = KeyError).
  { intros x I. apply in_map_iff in I. destruct I as [[s d] [<- _]]. apply locate_error. }
  pose proof (result_all_keyerror _ _ Q) as R. unfold locate_data. rewrite CR. cbn [result_bind].
  destruct R as [[[ys E] R]|[E R]]; rewrite E; cbn [result_bind].
  - split; [|left; eexists; reflexivity]. split; [|intros; eexists; reflexivity].
    intros _ s d I. apply (locate_iff _ _ _ _ _ (core_nodup sp) CF CR).
    apply R. apply in_map_iff. exists (s, d). auto.
  - split; [|right; reflexivity]. split; [intros [x X]; discriminate|]. intros H. exfalso.
    apply in_map_iff in R. destruct R as [[s d] [X I]]. cbn in X.
    apply H in I. apply (locate_iff _ _ _ _ _ (core_nodup sp) CF CR) in I. destruct I as [x I]. congruence.
Qed.

Lemma In_levels_in_data : forall data i k, In k (levels_in_data data i) <-> observed_level data i k.
Proof.
  intros data i k. unfold levels_in_data, observed_level. rewrite In_isort, In_drop_duplicates, in_flat_map.
  split.
  - intros [[s d] [I H]]. cbn [fst] in H. destruct (Nat.eqb_spec (cs_period s) 0) as [E|]; [|destruct H].
    destruct (nth_error (cs_exp s) i) as [e|] eqn:N; [|destruct H]. destruct H as [<-|[]]. exists s, d. auto.
  - intros [s [d [I [E N]]]]. exists (s, d). split; [exact I|]. cbn [fst]. rewrite E, N. left. reflexivity.
Qed.

Lemma sorted_lt_unique : forall a b, Sorted.StronglySorted lt a -> Sorted.StronglySorted lt b ->
  (forall k : nat, In k a <-> In k b) -> a = b.
Proof.
  induction a as [|x a IH]; intros [|y b] A B H.
  - reflexivity.
  - destruct (proj2 (H y) (or_introl eq_refl)).
  - destruct (proj1 (H x) (or_introl eq_refl)).
  - inversion A as [|? ? A1 A2]. inversion B as [|? ? B1 B2]. subst. rewrite Forall_forall in A2, B2.
    assert (x = y).
    { destruct (proj1 (H x) (or_introl eq_refl)) as [E|E]; [congruence|].
      destruct (proj2 (H y) (or_introl eq_refl)) as [E'|E']; [congruence|].
      specialize (A2 _ E'). specialize (B2 _ E). lia. }
    subst y. f_equal. apply IH; [exact A1|exact B1|]. intros k. split; intros K.
    + destruct (proj1 (H k) (or_intror K)) as [E|E]; [|exact E]. specialize (A2 _ K). lia.
    + destruct (proj2 (H k) (or_intror K)) as [E|E]; [|exact E]. specialize (B2 _ K). lia.
Qed.

Lemma sorted_strict : forall l, Sorted.StronglySorted (fun a b => Nat.leb a b = true) l -> NoDup l -> Sorted.StronglySorted lt l.
Proof.
  induction l as [|x l IH]; intros S D; constructor; inversion S as [|? ? S1 S2]; inversion D as [|? ? D1 D2]; subst.
  - apply IH; assumption.
  - rewrite Forall_forall in S2 |- *. intros y Y. specialize (S2 y Y). apply Nat.leb_le in S2.
    assert (x <> y) by (intros E; rewrite E in *; contradiction). lia.
Qed.
Lemma sorted_levels_in_data : forall data i, Sorted.StronglySorted lt (levels_in_data data i).
Proof.
  intros data i. unfold levels_in_data. apply sorted_strict.
  - apply Sorted_isort; intros *; rewrite !Nat.leb_le; lia.
  - apply NoDup_isort. apply NoDup_drop_duplicates.
Qed.

Lemma warned_iff : forall sp csf grid data w locs i levels,
  locate_data sp csf grid data = Ok (w, locs) ->
  nth_error (sp_starts sp) i = Some levels -> Sorted.StronglySorted lt levels ->
  (In i w <-> ~ (forall k, observed_level data i k <-> In k levels)).
Proof.
  intros sp csf grid data w locs i levels L N SS. unfold locate_data in L.
  destruct (create_state_space _ _ _ _) as [ss| | | | |]; cbn in L; try discriminate.
  destruct (result_all _) as [ys| | | | |]; cbn in L; try discriminate. injection L as <- _.
  rewrite in_map_iff. split.
  - intros [[j l] [E I]] H. cbn in E. subst j. apply filter_In in I. destruct I as [I C].
    apply In_enumerate in I. rewrite N in I. injection I as <-. cbn [fst snd] in C.
    destruct (list_eq_dec Nat.eq_dec (levels_in_data data i) levels) as [E|E]; [discriminate|].
    apply E. apply sorted_lt_unique; [| exact SS|].
    + apply sorted_levels_in_data.
    + intros k. rewrite In_levels_in_data. apply H.
  - intros H. exists (i, levels). split; [reflexivity|]. apply filter_In. split; [apply In_enumerate; exact N|].
    cbn [fst snd]. destruct (list_eq_dec Nat.eq_dec (levels_in_data data i) levels) as [E|E]; [|reflexivity].
    exfalso. apply H. intros k. rewrite <- In_levels_in_data, E. reflexivity.
Qed.

Lemma undeclared_level : forall n lags with_exp choices params sp csf grid ss data experience lagged dense,
  (forall p, In p params -> Spec_Choices.word (p_category p)) ->
  (forall c, In c with_exp -> Spec_Choices.well_named c) -> length with_exp <= length choices -> 0 < n -> lags <= 1 ->
  (forall c k, In c with_exp -> initial_level params c k -> k < 256) ->
  (forall c start m, In c with_exp -> parse_experience n params c = Ok (start, m) -> (0 <= m < 256)%Z) ->
  core_spec_of n lags [] with_exp choices params = Ok sp ->
  collision_free (create_core_state_space sp) csf grid ->
  create_state_space (sp_nperiods sp) (create_core_state_space sp) csf grid = Ok ss ->
  In (mkState 0 experience lagged, dense) data ->
  ~ Forall2 (initial_level params) with_exp experience ->
  locate_data sp csf grid data = KeyError.
Proof.
  intros n lags with_exp choices params sp csf grid ss data experience lagged dense W G LC N LL B1 B2 H CF CR I NF.
  destruct (first_period n lags with_exp choices params sp W G LC N LL B1 B2 H) as [maxima [_ FP]].
  destruct (locate_data_iff sp csf grid ss data CF CR) as [A [[x B]|B]]; [|exact B].
  exfalso. apply NF. destruct (proj1 A (ex_intro _ x B) _ _ I) as [C _]. apply FP in C. apply C.
Qed.
