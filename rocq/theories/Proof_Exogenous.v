(** Proofs about exogenous processes. *)
From Coq Require Import List Arith Bool Reals Lra Lia.
From Verif Require Import Base Proof_Base Model_CoreStateSpace Proof_CoreStateSpace
  Model_StateSpace Spec_StateSpace Proof_StateSpace Model_Solve Spec_Solve Proof_Solve
  Model_Simulate Proof_SimulateProps Model_Exogenous Spec_Exogenous.
Import ListNotations.
Open Scope R_scope.

(** ** combinations *)
Lemma combinations_grid : forall levels, combinations levels = exogenous_grid levels.
Proof. induction levels as [|l r IH]; simpl; [reflexivity|]. unfold exogenous_grid in *. simpl.
  rewrite IH. reflexivity. Qed.

Lemma In_combinations : forall levels e, In e (combinations levels) <-> combination levels e.
Proof.
  induction levels as [|l r IH]; intros e; simpl.
  - split; [intros [<-|[]]; constructor|inversion 1; auto].
  - rewrite in_flat_map. split.
    + intros [v [Hv He]]. apply in_map_iff in He. destruct He as [e' [<- He']].
      apply in_seq in Hv. constructor; [lia|]. apply IH. exact He'.
    + inversion 1; subst. exists y. split; [apply in_seq; lia|]. apply in_map. apply IH. assumption.
Qed.

Lemma NoDup_combinations : forall levels, NoDup (combinations levels).
Proof.
  intros. rewrite combinations_grid. apply NoDup_product. intros l H. apply in_map_iff in H.
  destruct H as [n [<- _]]. apply seq_NoDup.
Qed.

(** ** probabilities (C27) *)
Lemma rsum_app : forall a b, rsum (a ++ b) = rsum a + rsum b.
Proof. induction a as [|x a IH]; intros; simpl; [lra|]. unfold rsum in *. simpl. rewrite IH. lra. Qed.
Lemma rsum_map_scale : forall A (f : A -> R) c l, rsum (map (fun x => c * f x) l) = c * rsum (map f l).
Proof. induction l as [|x l IH]; simpl; [lra|]. rewrite IH. lra. Qed.
Lemma rsum_flat_map : forall A B (f : A -> list B) (g : B -> R) l,
  rsum (map g (flat_map f l)) = rsum (map (fun x => rsum (map g (f x))) l).
Proof.
  induction l as [|x l IH]; simpl; [reflexivity|]. rewrite map_app, rsum_app, IH. reflexivity.
Qed.

Lemma logit_denominator_pos : forall params x, params <> [] ->
  0 < rsum (map (fun b => exp (linear_index x b)) params).
Proof.
  intros [|b r] x H; [congruence|]. simpl. clear H.
  assert (0 <= rsum (map (fun b => exp (linear_index x b)) r)).
  { induction r as [|c r IH]; simpl; [lra|]. pose proof (exp_pos (linear_index x c)). lra. }
  pose proof (exp_pos (linear_index x b)). lra.
Qed.

Lemma logit_pos : forall params x l, params <> [] -> 0 < logit params x l.
Proof.
  intros. unfold logit. apply Rdiv_lt_0_compat; [apply exp_pos|]. apply logit_denominator_pos. assumption.
Qed.

Lemma rsum_nth : forall A (f : A -> R) (d : A) l,
  rsum (map (fun i => f (nth i l d)) (seq 0 (length l))) = rsum (map f l).
Proof.
  induction l as [|x l IH]; simpl; [reflexivity|]. rewrite <- seq_shift, map_map. simpl. rewrite IH. reflexivity.
Qed.

Lemma logit_sum : forall params x, params <> [] ->
  rsum (map (logit params x) (seq 0 (length params))) = 1.
Proof.
  intros params x H. unfold logit.
  set (D := rsum (map (fun b => exp (linear_index x b)) params)).
  rewrite (map_ext _ (fun l => / D * exp (linear_index x (nth l params []))))
    by (intros; unfold Rdiv; lra).
  rewrite (rsum_map_scale _ (fun l => exp (linear_index x (nth l params [])))).
  rewrite (rsum_nth _ (fun b => exp (linear_index x b))). fold D.
  apply Rinv_l. apply Rgt_not_eq. apply logit_denominator_pos. exact H.
Qed.

Lemma joint_pos : forall procs x e, Forall (fun p => p <> []) procs -> 0 < joint procs x e.
Proof.
  induction procs as [|p procs IH]; intros x [|v e] F; unfold joint; simpl; try lra.
  inversion F; subst. apply Rmult_lt_0_compat; [apply logit_pos; assumption|]. apply IH. assumption.
Qed.

Lemma joint_sum : forall procs x, Forall (fun p => p <> []) procs ->
  rsum (map (joint procs x) (combinations (levels_of procs))) = 1.
Proof.
  induction procs as [|p procs IH]; intros x F; simpl.
  - unfold joint. simpl. lra.
  - inversion F; subst. rewrite rsum_flat_map.
    rewrite (map_ext _ (logit p x)).
    + apply logit_sum. assumption.
    + intros v. rewrite map_map.
      rewrite (map_ext _ (fun e => logit p x v * joint procs x e)) by reflexivity.
      rewrite rsum_map_scale. unfold levels_of in IH. rewrite IH by assumption. lra.
Qed.

Lemma fold_left_mult : forall l a, fold_left Rmult l a = a * fold_right Rmult 1 l.
Proof. induction l as [|x l IH]; intros a; simpl; [lra|]. rewrite IH. lra. Qed.

Lemma process_probability_entry : forall params x l, (l < length params)%nat ->
  nth_error (softmax (map (pandas_dot x) params)) l = Some (logit params x l).
Proof.
  intros params x l H. unfold softmax. rewrite nth_error_map, nth_error_map.
  destruct (nth_error params l) as [b|] eqn:E; [|apply nth_error_None in E; lia]. simpl.
  f_equal. unfold logit. rewrite (nth_error_nth _ _ _ E), pandas_dot_linear. f_equal.
  unfold rsum. f_equal. rewrite map_map. apply map_ext. intros. rewrite pandas_dot_linear. reflexivity.
Qed.

Lemma transition_probability_spec : forall procs x e, procs <> [] ->
  combination (levels_of procs) e -> transition_probability procs x e = Ok (joint procs x e).
Proof.
  intros procs x e NE H. unfold transition_probability.
  assert (G : forall ps n e, combination (levels_of ps) e ->
    (forall i, nth_error (process_probabilities procs x) (n + i) = nth_error (process_probabilities ps x) i) ->
    result_all (map (fun p =>
       match nth_error (process_probabilities procs x) (fst p) with
       | None => IndexError
       | Some probs => match nth_error probs (snd p) with Some q => Ok q | None => IndexError end
       end) (enumerate_from n e)) = Ok (map (fun p => logit (fst p) x (snd p)) (combine ps e))).
  { clear. induction ps as [|p ps IH]; intros n e H Hn; inversion H; subst; simpl; [reflexivity|].
    specialize (Hn 0%nat) as H0. rewrite Nat.add_0_r in H0. rewrite H0. simpl.
    rewrite process_probability_entry by assumption. simpl.
    rewrite (IH (S n)); [reflexivity|assumption|]. intros i.
    specialize (Hn (S i)). simpl in Hn. rewrite <- Hn. f_equal. lia. }
  unfold enumerate. rewrite (G procs 0%nat e H) by reflexivity. simpl.
  destruct procs as [|p procs]; [congruence|]. inversion H; subst. simpl.
  rewrite fold_left_mult. reflexivity.
Qed.

(** ** transit keys (C29) *)
Lemma dense_index_lookup : forall grid d vec, NoDup grid ->
  (dict_get dense_eq_dec vec (dense_covariates_to_dense_index grid) = Some d <->
   nth_error grid d = Some vec).
Proof.
  intros grid d vec N. unfold dense_covariates_to_dense_index.
  assert (NL : NoDup (dict_keys (map (fun p => (snd p, fst p)) (enumerate grid)))).
  { unfold dict_keys. rewrite map_map. simpl. rewrite map_snd_enumerate. exact N. }
  rewrite dict_of_pairs_NoDup by exact NL. split.
  - intros H. apply dict_get_Some_In in H. apply in_map_iff in H. destruct H as [[i v] [E H]].
    simpl in E. injection E as -> ->. apply In_enumerate in H. exact H.
  - intros H. apply dict_get_In_NoDup; [exact NL|]. apply in_map_iff. exists (d, vec).
    split; [reflexivity|]. apply In_enumerate. exact H.
Qed.

Lemma drop_last_app : forall A (a b : list A) n, length b = n -> drop_last n (a ++ b) = a.
Proof.
  intros A a b n <-. unfold drop_last. rewrite app_length.
  replace (length a + length b - length b)%nat with (length a) by lia.
  rewrite firstn_app, firstn_all, Nat.sub_diag. simpl. apply app_nil_r.
Qed.
Lemma last_n_app : forall A (a b : list A) n, length b = n -> last_n n (a ++ b) = b.
Proof.
  intros A a b n <-. unfold last_n. rewrite app_length.
  replace (length a + length b - length b)%nat with (length a) by lia.
  rewrite skipn_app, skipn_all, Nat.sub_diag. reflexivity.
Qed.

Lemma combination_length : forall levels e, combination levels e -> length e = length levels.
Proof. intros levels e H. apply Forall2_length_eq in H. auto. Qed.

(** A key with dense index [d] and core key [ck]. *)
Definition key_at (dpc : list (complex * nat)) (k d ck : nat) : Prop :=
  exists cx, nth_error dpc k = Some (cx, ck) /\ cx_dense cx = Some d.

Section Keys.
  Variables (nperiods : nat) (core : list core_state) (csf : cs_fun) (grid : list (list nat))
    (ss : state_space) (levels : list nat).
  Hypothesis ND : NoDup core.
  Hypothesis CF : collision_free core csf grid.
  Hypothesis F : ss_facts nperiods core csf grid ss.
  Hypothesis LAY : exogenous_layout grid levels.

  Lemma key_of_dense : forall k d ck vec, key_at (ss_dpc ss) k d ck ->
    forall d' vec', nth_error grid d = Some vec -> nth_error grid d' = Some vec' ->
    exists k', key_at (ss_dpc ss) k' d' ck.
  Proof.
    intros k d ck vec [cx [Hk Hd]] d' vec' G G'.
    destruct (dpc_facts_all _ _ _ _ CF (sf_dpc _ _ _ _ _ F)) as [N En Fi]. simpl in *.
    pose proof (proj1 (En cx ck) (nth_error_In _ _ Hk)) as [ctx [inds [Dc [Gi A]]]].
    destruct (group_members core csf ck inds Gi) as [_ [Ne Lr]].
    destruct inds as [|i inds]; [congruence|].
    destruct (nth_error core i) as [s|] eqn:Es.
    2:{ apply nth_error_None in Es. specialize (Lr i (or_introl eq_refl)). lia. }
    assert (Dc' : dense_combination grid (Some d') (Some vec')) by (exists vec'; auto).
    destruct (located_exists _ _ _ _ _ s _ _ CF F (nth_error_In _ _ Es) Dc') as [k' [r' L]].
    destruct L as [cx' [ck' [Hk' [Hd' M]]]]. exists k', cx'. split; [|exact Hd'].
    rewrite Hk'. f_equal. f_equal.
    rewrite (sf_core _ _ _ _ _ F), (sf_groups _ _ _ _ _ F) in M.
    assert (M0 : member core (core_key_to_core_indices core csf) ck 0 s)
      by (exists (i :: inds), i; auto).
    destruct (member_unique _ _ _ _ _ _ _ ND M M0). assumption.
  Qed.

  Lemma key_at_unique : forall k k' d ck, key_at (ss_dpc ss) k d ck -> key_at (ss_dpc ss) k' d ck -> k = k'.
  Proof.
    intros k k' d ck [cx [H1 D1]] [cx' [H2 D2]].
    pose proof (lookup_dense_key _ _ _ _ _ _ _ _ CF F H1) as L1.
    pose proof (lookup_dense_key _ _ _ _ _ _ _ _ CF F H2) as L2.
    rewrite D1 in L1. rewrite D2 in L2. congruence.
  Qed.

  Lemma transit_keys_spec : forall k d ck vec static e, key_at (ss_dpc ss) k d ck ->
    nth_error grid d = Some vec -> vec = static ++ e -> combination levels e ->
    exists ks, transit_keys grid (ss_dpc ss) levels k = Ok ks /\
      Forall2 (fun e' k' => exists d', nth_error grid d' = Some (static ++ e') /\
                                       key_at (ss_dpc ss) k' d' ck) (combinations levels) ks.
  Proof.
    intros k d ck vec static e K G E C. destruct LAY as [NG LG]. pose proof K as [cx [Hk Hd]].
    unfold transit_keys, dense_covariates_of_key. rewrite Hk, Hd, G. cbn [result_bind].
    rewrite E, (drop_last_app _ static e) by (apply combination_length; exact C).
    rewrite <- combinations_grid.
    destruct (result_all_Ok_exists _ _ (fun e0 =>
       match dict_get dense_eq_dec (static ++ e0) (dense_covariates_to_dense_index grid) with
       | Some d => Ok d | None => KeyError end) (combinations levels)) as [ds Hds].
    { intros e' He'. apply In_combinations in He'.
      destruct (LG vec (nth_error_In _ _ G)) as [st2 [e2 [E2 [C2 X]]]].
      assert (st2 = static).
      { rewrite E in E2. rewrite <- (drop_last_app _ static e _ (combination_length _ _ C)).
        rewrite E2. symmetry. apply drop_last_app. apply combination_length; exact C2. }
      subst st2. specialize (X e' He'). apply In_nth_error in X. destruct X as [d' Hd'].
      rewrite (proj2 (dense_index_lookup grid d' _ NG) Hd'). eauto. }
    rewrite Hds. cbn [result_bind]. apply result_all_map_Ok in Hds.
    assert (Q : forall es ds, Forall2 (fun e0 d0 => match dict_get dense_eq_dec (static ++ e0)
        (dense_covariates_to_dense_index grid) with Some d => Ok d | None => KeyError end = Ok d0) es ds ->
      exists ks, result_all (map (fun d => match dict_get pair_nat_eq_dec (ck, d)
         (core_key_and_dense_index_to_dense_key (ss_dpc ss)) with Some k' => Ok k' | None => KeyError end) ds)
         = Ok ks /\ Forall2 (fun e' k' => exists d', nth_error grid d' = Some (static ++ e') /\
                                       key_at (ss_dpc ss) k' d' ck) es ks).
    { induction 1 as [|e0 d0 es ds0 H0 _ IH]; cbn [map result_all]; [exists []; split; [reflexivity|constructor]|].
      destruct (dict_get dense_eq_dec (static ++ e0) (dense_covariates_to_dense_index grid)) as [d1|] eqn:Ed;
        [|discriminate]. injection H0 as ->.
      apply (dense_index_lookup grid d0 _ NG) in Ed.
      destruct (key_of_dense _ _ _ _ K _ _ G Ed) as [k' K'].
      pose proof K' as [cx' [Hk' Hd']].
      pose proof (lookup_dense_key _ _ _ _ _ _ _ _ CF F Hk') as L. rewrite Hd' in L. change (core_dense_key ck (Some d0)) with (ck, d0) in L.
      rewrite L. simpl. destruct IH as [ks [-> Fk]]. simpl. exists (k' :: ks). split; [reflexivity|].
      constructor; [exists d0; auto|exact Fk]. }
    apply Q. exact Hds.
  Qed.

  Lemma NoDup_transit : forall static ck ks,
    Forall2 (fun e' k' => exists d', nth_error grid d' = Some (static ++ e') /\
                                     key_at (ss_dpc ss) k' d' ck) (combinations levels) ks -> NoDup ks.
  Proof.
    intros static ck ks H. pose proof (NoDup_combinations levels) as N. revert N.
    induction H as [|e k es ks [d [G K]] H IH]; intros N; constructor; inversion N; subst; auto.
    intro I. apply In_nth_error in I. destruct I as [n Hn].
    assert (X : exists e', nth_error es n = Some e' /\ exists d', nth_error grid d' = Some (static ++ e') /\
                                     key_at (ss_dpc ss) k d' ck).
    { clear - H Hn. revert n Hn. induction H; intros [|n] Hn; simpl in *; try discriminate; eauto.
      injection Hn as ->. eauto. }
    destruct X as [e' [He' [d' [G' K']]]].
    destruct K as [cx [E1 D1]], K' as [cx' [E2 D2]]. rewrite E1 in E2. injection E2 as <-.
    rewrite D1 in D2. injection D2 as <-. rewrite G in G'. injection G' as G'.
    apply app_inv_head in G'. subst e'. apply H2. eapply nth_error_In; eauto.
  Qed.
End Keys.

(** ** representative choice sets *)
Lemma maximal_choice_set_spec : forall sets n, sets <> [] -> (forall y, In y sets -> length y = n) ->
  exists rep, maximal_choice_set sets = Ok rep /\ length rep = n /\
    forall j, nth_error rep j = Some true <-> exists y, In y sets /\ nth_error y j = Some true.
Proof.
  intros [|x r] n NE L; [congruence|]. unfold maximal_choice_set.
  assert (E : forallb (fun y => Nat.eqb (length y) (length x)) r = true).
  { apply forallb_forall. intros y Hy. apply Nat.eqb_eq. rewrite (L x), (L y); simpl; auto. }
  rewrite E. eexists. split; [reflexivity|]. split.
  - rewrite map_length, seq_length. apply L. left. reflexivity.
  - intros j. rewrite nth_error_map. split.
    + intros H. destruct (nth_error (seq 0 (length x)) j) as [i|] eqn:Ei; [|discriminate].
      apply nth_error_nth with (d := 0%nat) in Ei as Ei2. apply nth_error_lt in Ei. rewrite seq_length in Ei.
      rewrite seq_nth in Ei2 by exact Ei. simpl in Ei2. subst i.
      change (Some (existsb (fun y => nth j y false) (x :: r)) = Some true) in H.
      assert (H' : existsb (fun y => nth j y false) (x :: r) = true) by congruence. apply existsb_exists in H'. clear H. rename H' into H. destruct H as [y [Hy Hj]]. exists y. split; [exact Hy|].
      destruct (nth_error y j) as [b|] eqn:Eb.
      * rewrite (nth_error_nth _ _ _ Eb) in Hj. congruence.
      * apply nth_error_None in Eb. rewrite nth_overflow in Hj by exact Eb. discriminate.
    + intros [y [Hy Hj]]. pose proof (nth_error_lt _ _ _ _ Hj) as Hl.
      rewrite (L y Hy), <- (L x (or_introl eq_refl)) in Hl.
      rewrite (nth_error_seq0 _ _ Hl).
      change (Some (existsb (fun y => nth j y false) (x :: r)) = Some true). f_equal.
      apply existsb_exists. exists y. split; [exact Hy|]. apply nth_error_nth. exact Hj.
Qed.

(** Selection of the columns of the available choices among those of the representative
    choice set. *)
Definition subset (cs rep : list bool) : Prop :=
  length cs = length rep /\ forall c, nth_error cs c = Some true -> nth_error rep c = Some true.

Lemma subset_cons : forall a b cs rep, subset (a :: cs) (b :: rep) ->
  (a = true -> b = true) /\ subset cs rep.
Proof.
  intros a b cs rep [L H]. split.
  - intros ->. specialize (H 0%nat eq_refl). simpl in H. congruence.
  - split; [simpl in L; lia|]. intros c Hc. exact (H (S c) Hc).
Qed.

Lemma compress_compress : forall A rep cs (l : list A), subset cs rep -> length l = length cs ->
  compress (compress rep cs) (compress rep l) = compress cs l.
Proof.
  induction rep as [|b rep IH]; intros [|a cs] l H L;
    try (destruct H as [HL _]; simpl in HL; discriminate); [reflexivity|].
  destruct l as [|x l]; [discriminate|]. apply subset_cons in H. destruct H as [Hab H].
  simpl in L. simpl. destruct b; simpl.
  - destruct a; rewrite IH by (auto; lia); reflexivity.
  - destruct a; [discriminate (Hab eq_refl)|]. apply IH; auto.
Qed.

Lemma length_representation : forall rep cs, subset cs rep ->
  length (representation_cols rep cs) = count_true rep.
Proof. intros rep cs [L _]. apply length_compress. auto. Qed.

Lemma select_positions : forall rep cs, subset cs rep ->
  compress (representation_cols rep cs) (positions rep) = positions cs.
Proof.
  intros rep cs H. pose proof H as [L _].
  rewrite <- (compress_seq rep (length cs)) by auto. rewrite <- (compress_seq cs (length cs)) by auto.
  apply compress_compress; [exact H|]. apply seq_length.
Qed.

Lemma Forall2_compress : forall A B (P : A -> B -> Prop) m a b, Forall2 P a b ->
  Forall2 P (compress m a) (compress m b).
Proof.
  intros A B P m a b H. revert m. induction H; intros [|[] m]; simpl; auto.
Qed.

(** ** the state space *)
Definition with_transit (ss : state_space) (transit : list (list bool))
  (child : list (list (list (nat * nat)))) : state_space :=
  mkSS (ss_nperiods ss) (ss_core ss) (ss_keys ss) (ss_groups ss) (ss_indexer ss) (ss_grid ss)
       (ss_dpc ss) (ss_files ss) transit child.

Lemma result_bind_Ok : forall A B (m : result A) (f : A -> result B) b,
  result_bind m f = Ok b -> exists a, m = Ok a /\ f a = Ok b.
Proof. intros A B [a| | | | |] f b H; simpl in H; try discriminate. eauto. Qed.

Lemma create_exog_facts : forall nperiods core csf grid levels sx,
  NoDup core -> closed_under_choices nperiods core csf -> collision_free core csf grid ->
  create_state_space_exog nperiods core csf grid levels = Ok sx ->
  exists ss transits, create_state_space nperiods core csf grid = Ok ss /\
    sx = with_transit ss (ss_transit sx) (ss_child sx) /\
    result_all (map (transit_keys grid (ss_dpc ss) levels) (seq 0 (length (ss_dpc ss)))) = Ok transits /\
    transit_choice_sets transits (map (fun p => cx_choice_set (fst p)) (ss_dpc ss)) = Ok (ss_transit sx) /\
    Forall2 (fun p ch => child_indices_of nperiods (ss_indexer ss) (ss_files ss)
               (fst (fst p)) (snd p) = Ok ch) (combine (ss_dpc ss) (ss_transit sx)) (ss_child sx).
Proof.
  intros nperiods core csf grid levels sx ND CL CF H. unfold create_state_space_exog in H.
  apply result_bind_Ok in H. destruct H as [[dpc files] [E H]]. cbn [fst snd] in H.
  apply result_bind_Ok in H. destruct H as [transits [Et H]].
  apply result_bind_Ok in H. destruct H as [transit [Er H]].
  apply result_bind_Ok in H. destruct H as [child [Ec H]]. injection H as <-.
  destruct (create_state_space_succeeds nperiods core csf grid ND CL CF) as [ss Hss].
  { apply homogeneous_iff. eauto. }
  pose proof (create_state_space_facts _ _ _ _ _ Hss) as [F1 F2 F3 F4 F5 F6 F7 F8].
  rewrite E in F6. injection F6 as E1 E2. subst dpc files.
  exists ss, transits. split; [exact Hss|]. split.
  - unfold with_transit. simpl. rewrite F1, F2, F3, F4, F5. f_equal.
    unfold create_state_space in Hss. rewrite E in Hss. cbn [result_bind fst snd] in Hss.
    apply result_bind_Ok in Hss. destruct Hss as [? [_ Hss]]. injection Hss as <-. reflexivity.
  - simpl. split; [exact Et|]. split; [exact Er|]. rewrite F5. apply result_all_map_Ok. exact Ec.
Qed.

Lemma nth_error_combine' : forall A B (l : list A) (m : list B) i a b,
  nth_error l i = Some a -> nth_error m i = Some b -> nth_error (combine l m) i = Some (a, b).
Proof. intros. rewrite nth_error_combine, H, H0. reflexivity. Qed.

Section Exog.
  Variables (nchoices nperiods : nat) (core : list core_state) (csf : cs_fun)
    (grid : list (list nat)) (ss : state_space) (levels : list nat)
    (transits : list (list nat)) (transit : list (list bool)) (child : list (list (list (nat * nat)))).
  Hypothesis ND : NoDup core.
  Hypothesis CL : closed_under_choices nperiods core csf.
  Hypothesis CF : collision_free core csf grid.
  Hypothesis CR : create_state_space nperiods core csf grid = Ok ss.
  Hypothesis LEN : forall ctx s, length (csf ctx s) = nchoices.
  Hypothesis LAY : exogenous_layout grid levels.
  Hypothesis LV : levels <> [].
  Hypothesis GN : grid <> [].

  Let F : ss_facts nperiods core csf grid ss := create_state_space_facts _ _ _ _ _ CR.

  Lemma key_exists : forall k cx ck, nth_error (ss_dpc ss) k = Some (cx, ck) ->
    exists d vec static e, cx_dense cx = Some d /\ nth_error grid d = Some vec /\
      vec = static ++ e /\ combination levels e /\
      (forall i s, In i (nth ck (core_key_to_core_indices core csf) []) -> nth_error core i = Some s ->
         csf (Some vec) s = cx_choice_set cx) /\
      (exists s, In s core /\ csf (Some vec) s = cx_choice_set cx).
  Proof.
    intros k cx ck Hk.
    destruct (dpc_facts_all _ _ _ _ CF (sf_dpc _ _ _ _ _ F)) as [N En Fi]. simpl in *.
    pose proof (proj1 (En cx ck) (nth_error_In _ _ Hk)) as [ctx [inds [Dc [Gi A]]]].
    destruct (cx_dense cx) as [d|] eqn:Ed; simpl in Dc.
    2:{ destruct Dc as [Dc _]. contradiction. }
    destruct Dc as [vec [G ->]]. destruct LAY as [NG LG].
    destruct (LG vec (nth_error_In _ _ G)) as [static [e [E [C _]]]].
    exists d, vec, static, e. repeat split; auto.
    - intros i s Hi Hs. rewrite (nth_error_nth _ _ _ Gi) in Hi. apply (A i s Hi Hs).
    - destruct (group_members core csf ck inds Gi) as [_ [Ne Lr]].
      destruct inds as [|i inds]; [congruence|].
      destruct (nth_error core i) as [s|] eqn:Es.
      2:{ apply nth_error_None in Es. specialize (Lr i (or_introl eq_refl)). lia. }
      exists s. split; [eapply nth_error_In; eauto|]. apply (A i s (or_introl eq_refl) Es).
  Qed.

  Lemma transits_exist : exists ts,
    result_all (map (transit_keys grid (ss_dpc ss) levels) (seq 0 (length (ss_dpc ss)))) = Ok ts.
  Proof.
    apply result_all_Ok_exists. intros k Hk. apply in_seq in Hk.
    destruct (nth_error (ss_dpc ss) k) as [[cx ck]|] eqn:Ek; [|apply nth_error_None in Ek; lia].
    destruct (key_exists _ _ _ Ek) as [d [vec [static [e [Ed [G [E [C _]]]]]]]].
    destruct (transit_keys_spec nperiods core csf grid ss levels ND CF F LAY k d ck vec static e) as [ks [H _]];
      auto. { exists cx; auto. }
    eauto.
  Qed.

  Hypothesis TR : result_all (map (transit_keys grid (ss_dpc ss) levels) (seq 0 (length (ss_dpc ss)))) = Ok transits.

  Lemma transits_spec : forall k d ck vec static e, key_at (ss_dpc ss) k d ck ->
    nth_error grid d = Some vec -> vec = static ++ e -> combination levels e ->
    exists ks, nth_error transits k = Some ks /\
      transit_keys grid (ss_dpc ss) levels k = Ok ks /\
      Forall2 (fun e' k' => exists d', nth_error grid d' = Some (static ++ e') /\
                                       key_at (ss_dpc ss) k' d' ck) (combinations levels) ks.
  Proof.
    intros k d ck vec static e K G E C.
    destruct (transit_keys_spec nperiods core csf grid ss levels ND CF F LAY _ _ _ _ _ _ K G E C)
      as [ks [H1 H2]].
    destruct K as [cx [Hk _]].
    assert (Hs : nth_error (seq 0 (length (ss_dpc ss))) k = Some k)
      by (apply nth_error_seq0; eapply nth_error_lt; eauto).
    destruct (nth_error_result_all _ _ _ _ _ _ _ TR Hs) as [ks' [N1 N2]].
    rewrite H1 in N2. injection N2 as <-. exists ks. auto.
  Qed.

  Lemma length_transits : length transits = length (ss_dpc ss).
  Proof. apply result_all_map_Ok, Forall2_length_eq in TR. rewrite seq_length in TR. auto. Qed.

  (** Keys from which key [k] is reached. *)
  Lemma reached_from : forall k cs,
    In cs (map snd (filter (fun p => existsb (Nat.eqb k) (fst p))
      (combine transits (map (fun p => cx_choice_set (fst p)) (ss_dpc ss))))) <->
    exists k' ks cx' ck', nth_error transits k' = Some ks /\ In k ks /\
      nth_error (ss_dpc ss) k' = Some (cx', ck') /\ cx_choice_set cx' = cs.
  Proof.
    intros k cs. rewrite in_map_iff. split.
    - intros [[ks c] [E H]]. simpl in E. subst c. apply filter_In in H. destruct H as [H X]. simpl in X.
      apply existsb_exists in X. destruct X as [k0 [Hk0 X]]. apply Nat.eqb_eq in X. subst k0.
      apply In_nth_error in H. destruct H as [k' H]. rewrite nth_error_combine, nth_error_map in H.
      destruct (nth_error transits k') as [ks'|] eqn:E1; [|discriminate].
      destruct (nth_error (ss_dpc ss) k') as [[cx' ck']|] eqn:E2; [|discriminate].
      simpl in H. injection H as <- <-. exists k', ks', cx', ck'. auto.
    - intros [k' [ks [cx' [ck' [H1 [H2 [H3 H4]]]]]]]. exists (ks, cs). split; [reflexivity|].
      apply filter_In. split.
      + apply nth_error_In with k'. rewrite nth_error_combine, nth_error_map, H1, H3. simpl. congruence.
      + simpl. apply existsb_exists. exists k. split; [exact H2|]. apply Nat.eqb_refl.
  Qed.

  Lemma self_reachable : forall k cx ck, nth_error (ss_dpc ss) k = Some (cx, ck) ->
    exists ks, nth_error transits k = Some ks /\ In k ks.
  Proof.
    intros k cx ck Hk.
    destruct (key_exists _ _ _ Hk) as [d [vec [static [e [Ed [G [E [C _]]]]]]]].
    destruct (transits_spec k d ck vec static e) as [ks [H1 [_ H2]]]; auto. { exists cx; auto. }
    exists ks. split; [exact H1|]. apply In_combinations in C.
    destruct (Forall2_In_l _ _ _ _ _ _ H2 C) as [k' [[d' [G' K']] I]].
    rewrite <- E in G'. assert (d' = d).
    { destruct LAY as [NG _]. eapply NoDup_nth_error; eauto.
      - eapply nth_error_lt; eauto.
      - congruence. }
    subst d'. assert (k' = k).
    { eapply key_at_unique; eauto. exists cx; auto. }
    subst k'. apply in_combine_r in I. exact I.
  Qed.

  Lemma choice_set_length : forall k cx ck, nth_error (ss_dpc ss) k = Some (cx, ck) ->
    length (cx_choice_set cx) = nchoices.
  Proof.
    intros k cx ck Hk. destruct (key_exists _ _ _ Hk) as [d [vec [st [e [_ [_ [_ [_ [_ [s [_ <-]]]]]]]]]]].
    apply LEN.
  Qed.

  Lemma reps_exist : exists tr,
    transit_choice_sets transits (map (fun p => cx_choice_set (fst p)) (ss_dpc ss)) = Ok tr.
  Proof.
    unfold transit_choice_sets. apply result_all_Ok_exists. intros k Hk. apply in_seq in Hk.
    rewrite length_transits in Hk.
    destruct (nth_error (ss_dpc ss) k) as [[cx ck]|] eqn:Ek; [|apply nth_error_None in Ek; lia].
    destruct (self_reachable _ _ _ Ek) as [ks [H1 H2]].
    edestruct maximal_choice_set_spec as [rep [H _]]; [| |exists rep; exact H].
    - intro X. assert (I : In (cx_choice_set cx) []); [|destruct I]. rewrite <- X. apply reached_from.
      exists k, ks, cx, ck. auto.
    - intros y Hy. apply reached_from in Hy. destruct Hy as [k' [ks' [cx' [ck' [_ [_ [Hk' <-]]]]]]].
      eapply choice_set_length; eauto.
  Qed.

  Hypothesis TCS : transit_choice_sets transits (map (fun p => cx_choice_set (fst p)) (ss_dpc ss)) = Ok transit.

  Lemma rep_spec : forall k cx ck, nth_error (ss_dpc ss) k = Some (cx, ck) ->
    exists rep, nth_error transit k = Some rep /\ length rep = nchoices /\
      forall c, nth_error rep c = Some true <->
        exists k' ks cx' ck', nth_error transits k' = Some ks /\ In k ks /\
          nth_error (ss_dpc ss) k' = Some (cx', ck') /\ nth_error (cx_choice_set cx') c = Some true.
  Proof.
    intros k cx ck Hk. unfold transit_choice_sets in TCS.
    assert (Hs : nth_error (seq 0 (length transits)) k = Some k).
    { apply nth_error_seq0. rewrite length_transits. eapply nth_error_lt; eauto. }
    destruct (nth_error_result_all _ _ _ _ _ _ _ TCS Hs) as [rep [H1 H2]].
    exists rep. split; [exact H1|].
    destruct (self_reachable _ _ _ Hk) as [ks [R1 R2]].
    edestruct maximal_choice_set_spec as [rep' [M1 [M2 M3]]]; [| |rewrite M1 in H2; injection H2 as <-].
    - intro X. assert (I : In (cx_choice_set cx) []); [|destruct I]. rewrite <- X. apply reached_from.
      exists k, ks, cx, ck. auto.
    - intros y Hy. apply reached_from in Hy. destruct Hy as [k' [ks' [cx' [ck' [_ [_ [Hk' <-]]]]]]].
      eapply choice_set_length; eauto.
    - split; [exact M2|]. intros c. rewrite M3. split.
      + intros [y [Hy Hc]]. apply reached_from in Hy.
        destruct Hy as [k' [ks' [cx' [ck' [A1 [A2 [A3 A4]]]]]]]. exists k', ks', cx', ck'. subst y. auto.
      + intros [k' [ks' [cx' [ck' [A1 [A2 [A3 A4]]]]]]]. exists (cx_choice_set cx'). split; [|exact A4].
        apply reached_from. exists k', ks', cx', ck'. auto.
  Qed.

  (** Transits keep the core key. *)
  Lemma transit_core_key : forall k k' ks cx ck cx' ck', nth_error transits k = Some ks -> In k' ks ->
    nth_error (ss_dpc ss) k = Some (cx, ck) -> nth_error (ss_dpc ss) k' = Some (cx', ck') -> ck' = ck.
  Proof.
    intros k k' ks cx ck cx' ck' T I Hk Hk'.
    destruct (key_exists _ _ _ Hk) as [d [vec [static [e [Ed [G [E [C _]]]]]]]].
    destruct (transits_spec k d ck vec static e) as [ks' [H1 [_ H2]]]; auto. { exists cx; auto. }
    rewrite T in H1. injection H1 as <-. apply In_nth_error in I. destruct I as [n Hn].
    assert (X : exists d', key_at (ss_dpc ss) k' d' ck).
    { clear - H2 Hn. revert n Hn. induction H2 as [|? ? ? ? [d' [_ K]]]; intros [|n] Hn; simpl in *; try discriminate; eauto.
      injection Hn as ->. eauto. }
    destruct X as [d' [cx2 [X _]]]. congruence.
  Qed.

  (** The states of a group can take every choice of the representative choice set in some
      dense combination. *)
  Lemma rep_available : forall k cx ck rep r s d c, nth_error (ss_dpc ss) k = Some (cx, ck) ->
    nth_error transit k = Some rep -> located ss k r s d -> nth_error rep c = Some true ->
    exists ctx, nth_error (csf ctx s) c = Some true.
  Proof.
    intros k cx ck rep r s d c Hk Hr L Hc.
    destruct (rep_spec _ _ _ Hk) as [rep' [R1 [R2 R3]]]. rewrite Hr in R1. injection R1 as <-.
    apply R3 in Hc. destruct Hc as [k' [ks [cx' [ck' [T [I [Hk' Hc]]]]]]].
    pose proof (transit_core_key _ _ _ _ _ _ _ T I Hk' Hk) as <-.
    destruct L as [cx0 [ck0 [Hk0 [_ M]]]]. rewrite Hk in Hk0. injection Hk0 as <- <-.
    destruct (key_exists _ _ _ Hk') as [d' [vec [static [e [Ed [G [E [C [A _]]]]]]]]].
    destruct M as [inds [i [Gi [Hi Hs]]]]. rewrite (sf_groups _ _ _ _ _ F) in Gi.
    rewrite (sf_core _ _ _ _ _ F) in Hs.
    exists (Some vec). rewrite (A i s); [exact Hc| |exact Hs].
    rewrite (nth_error_nth _ _ _ Gi). eapply nth_error_In; eauto.
  Qed.

  Lemma subset_rep : forall k k' ks cx ck rep, nth_error (ss_dpc ss) k = Some (cx, ck) ->
    nth_error transits k = Some ks -> In k' ks -> nth_error transit k' = Some rep ->
    subset (cx_choice_set cx) rep.
  Proof.
    intros k k' ks cx ck rep Hk T I Hr.
    assert (X : exists cx' ck', nth_error (ss_dpc ss) k' = Some (cx', ck')).
    { destruct (nth_error (ss_dpc ss) k') as [[cx' ck']|] eqn:E; [eauto|].
      apply nth_error_None in E. apply nth_error_lt in Hr.
      unfold transit_choice_sets in TCS. apply result_all_map_Ok, Forall2_length_eq in TCS.
      rewrite seq_length, length_transits in TCS. lia. }
    destruct X as [cx' [ck' Hk']].
    destruct (rep_spec _ _ _ Hk') as [rep' [R1 [R2 R3]]]. rewrite Hr in R1. injection R1 as <-.
    split; [rewrite R2; eapply choice_set_length; eauto|].
    intros c Hc. apply R3. exists k, ks, cx, ck. auto.
  Qed.

  (** Children exist for the representative choice sets. *)
  Lemma children_exist : exists ch,
    result_all (map (fun p => child_indices_of nperiods (ss_indexer ss) (ss_files ss)
       (fst (fst p)) (snd p)) (combine (ss_dpc ss) transit)) = Ok ch.
  Proof.
    destruct (dpc_facts_all _ _ _ _ CF (sf_dpc _ _ _ _ _ F)) as [N En Fi]. simpl in *.
    apply result_all_Ok_exists. intros [[cx ck] rep] Hin. simpl.
    apply In_nth_error in Hin. destruct Hin as [k Hin]. rewrite nth_error_combine in Hin.
    destruct (nth_error (ss_dpc ss) k) as [[cx0 ck0]|] eqn:Hk; [|discriminate].
    destruct (nth_error transit k) as [rep0|] eqn:Hr; [|discriminate].
    assert (cx0 = cx /\ ck0 = ck /\ rep0 = rep) as [-> [-> ->]] by (split; [|split]; congruence). clear Hin.
    unfold child_indices_of.
    destruct (Nat.ltb (cx_period cx) (nperiods - 1)) eqn:T; [|eauto].
    apply Nat.ltb_lt in T. pose proof (proj1 (En cx ck) (nth_error_In _ _ Hk)) as [ctx [inds [Dc [Gi A]]]].
    destruct (Fi cx ck inds (nth_error_In _ _ Hk) Gi) as [ctx' [_ Hf]]. rewrite Hf. simpl.
    unfold collect_child_indices. apply result_all_Ok_exists. intros s Hs.
    destruct (group_members core csf ck inds Gi) as [_ [_ Lr]].
    apply In_nth_error in Hs. destruct Hs as [r Hrr]. rewrite nth_error_rows in Hrr by exact Lr.
    destruct (nth_error inds r) as [i|] eqn:Ei; [|discriminate].
    destruct (A i s (nth_error_In _ _ Ei) Hrr) as [P C].
    assert (L : located ss k r s (cx_dense cx)).
    { exists cx, ck. split; [exact Hk|]. split; [reflexivity|]. exists inds, i.
      rewrite (sf_groups _ _ _ _ _ F), (sf_core _ _ _ _ _ F). auto. }
    rewrite (sf_indexer _ _ _ _ _ F).
    assert (Y : forall c, In c (positions rep) -> exists x, dict_get core_state_eq_dec
       (law_of_motion c s) (create_indexer core (core_key_to_core_indices core csf)) = Some x).
    { intros c Hc. apply In_positions in Hc.
      destruct (rep_available _ _ _ _ _ _ _ _ Hk Hr L Hc) as [ctx2 Hc2].
      assert (Hin2 : In (law_of_motion c s) core)
        by (apply (CL ctx2); [eapply nth_error_In; eauto|lia|exact Hc2]).
      destruct (member_exists core csf _ Hin2) as [k' [r' M]]. exists (k', r').
      apply indexer_spec; auto. }
    revert Y. generalize (positions rep). induction l as [|c l IH]; intros Y;
      cbn [map map_states]; [eauto|].
    destruct (Y c (or_introl eq_refl)) as [x Hx]. rewrite Hx.
    destruct IH as [b Hb]; [intros; apply Y; simpl; auto|]. rewrite Hb. simpl. eauto.
  Qed.
End Exog.
