(** Proofs about the indexing structures of the state space. *)
From Coq Require Import List Arith Bool Lia Sorted Permutation.
From Verif Require Import Base Proof_Base Model_CoreStateSpace Spec_CoreStateSpace
  Proof_CoreStateSpace Model_StateSpace Spec_StateSpace.
Import ListNotations.

(** ** groups *)
Lemma In_core_keys : forall core csf k,
  In k (core_key_to_complex core csf) <-> exists s, In s core /\ core_key_of csf s = k.
Proof.
  intros. unfold core_key_to_complex. rewrite In_isort, In_drop_duplicates, in_map_iff.
  split; intros [s [H1 H2]]; eauto.
Qed.

Lemma NoDup_core_keys : forall core csf, NoDup (core_key_to_complex core csf).
Proof. intros. apply NoDup_isort, NoDup_drop_duplicates. Qed.

Lemma In_group : forall core csf k i,
  In i (group_indices core csf k) <->
  exists s, nth_error core i = Some s /\ core_key_of csf s = k.
Proof.
  intros. unfold group_indices. rewrite in_map_iff. split.
  - intros [[j s] [<- H]]. apply filter_In in H. destruct H as [H E]. cbn [fst snd] in *.
    apply In_enumerate in H. destruct (ckey_eq_dec (core_key_of csf s) k); [|discriminate].
    eauto.
  - intros [s [H1 H2]]. exists (i, s). split; [reflexivity|]. apply filter_In. split.
    + apply In_enumerate. exact H1.
    + cbn [fst snd]. destruct (ckey_eq_dec (core_key_of csf s) k); congruence.
Qed.

Lemma NoDup_map_fst_filter : forall A B (f : A * B -> bool) l,
  NoDup (map fst l) -> NoDup (map fst (filter f l)).
Proof.
  induction l as [|[a b] l IH]; simpl; intros H; [constructor|].
  inversion H; subst. destruct (f (a, b)); simpl; auto.
  constructor; auto. intro E. apply H2. apply in_map_iff in E.
  destruct E as [[a' b'] [E1 E2]]. apply filter_In in E2. simpl in E1; subst.
  apply in_map_iff. exists (a, b'). tauto.
Qed.

Lemma NoDup_map_fst_enumerate : forall A (l : list A), NoDup (map fst (enumerate l)).
Proof.
  intros. unfold enumerate. rewrite map_fst_enumerate_from. apply seq_NoDup.
Qed.

Lemma NoDup_group : forall core csf k, NoDup (group_indices core csf k).
Proof.
  intros. unfold group_indices. apply NoDup_map_fst_filter, NoDup_map_fst_enumerate.
Qed.

Lemma nth_error_groups : forall core csf n,
  nth_error (core_key_to_core_indices core csf) n =
  option_map (group_indices core csf) (nth_error (core_key_to_complex core csf) n).
Proof. intros. unfold core_key_to_core_indices. apply nth_error_map. Qed.

Lemma length_groups : forall core csf,
  length (core_key_to_core_indices core csf) = length (core_key_to_complex core csf).
Proof. intros. apply map_length. Qed.

(** membership of a row in a group *)
Lemma row_in_group : forall core csf i s n inds,
  nth_error core i = Some s ->
  nth_error (core_key_to_core_indices core csf) n = Some inds ->
  (In i inds <-> nth_error (core_key_to_complex core csf) n = Some (core_key_of csf s)).
Proof.
  intros core csf i s n inds Hs Hn. rewrite nth_error_groups in Hn.
  destruct (nth_error (core_key_to_complex core csf) n) as [k|] eqn:E; [|discriminate].
  simpl in Hn. injection Hn as <-. rewrite In_group. split.
  - intros [s' [H1 H2]]. rewrite Hs in H1. injection H1 as <-. congruence.
  - intros H. injection H as ->. eauto.
Qed.

Lemma group_exists_unique : forall core csf i s,
  nth_error core i = Some s ->
  exists! n, exists inds, nth_error (core_key_to_core_indices core csf) n = Some inds /\
                          In i inds.
Proof.
  intros core csf i s H.
  assert (Hk : In (core_key_of csf s) (core_key_to_complex core csf)).
  { apply In_core_keys. exists s. split; [eapply nth_error_In; eauto|reflexivity]. }
  apply In_nth_error in Hk. destruct Hk as [n Hn]. exists n. split.
  - exists (group_indices core csf (core_key_of csf s)). split.
    + rewrite nth_error_groups, Hn. reflexivity.
    + apply In_group. eauto.
  - intros n' [inds [H1 H2]].
    apply (proj1 (row_in_group core csf i s n' inds H H1)) in H2.
    apply (NoDup_nth_error (core_key_to_complex core csf)); [apply NoDup_core_keys| |congruence].
    eapply nth_error_lt; eauto.
Qed.

Lemma group_members : forall core csf n inds,
  nth_error (core_key_to_core_indices core csf) n = Some inds ->
  NoDup inds /\ inds <> [] /\ (forall i, In i inds -> i < length core).
Proof.
  intros core csf n inds H. rewrite nth_error_groups in H.
  destruct (nth_error (core_key_to_complex core csf) n) as [k|] eqn:E; [|discriminate].
  injection H as <-. split; [apply NoDup_group|]. split.
  - apply nth_error_In, In_core_keys in E. destruct E as [s [H1 H2]].
    apply In_nth_error in H1. destruct H1 as [i Hi]. intro C.
    assert (In i (group_indices core csf k)) by (apply In_group; eauto).
    rewrite C in H. destruct H.
  - intros i Hi. apply In_group in Hi. destruct Hi as [s [Hi _]]. eapply nth_error_lt; eauto.
Qed.

Lemma same_group_iff : forall core csf i j s1 s2 n inds,
  nth_error core i = Some s1 -> nth_error core j = Some s2 ->
  nth_error (core_key_to_core_indices core csf) n = Some inds -> In i inds ->
  (In j inds <-> cs_period s1 = cs_period s2 /\ csf None s1 = csf None s2).
Proof.
  intros core csf i j s1 s2 n inds H1 H2 Hn Hi.
  pose proof (proj1 (row_in_group core csf i s1 n inds H1 Hn) Hi) as K.
  rewrite (row_in_group core csf j s2 n inds H2 Hn), K. unfold core_key_of. split.
  - intros E. injection E as E1 E2. auto.
  - intros [E1 E2]. rewrite E1, E2. reflexivity.
Qed.

(** ** rows *)
Lemma nth_error_rows : forall A (l : list A) inds r,
  (forall i, In i inds -> i < length l) ->
  nth_error (rows l inds) r =
  match nth_error inds r with Some i => nth_error l i | None => None end.
Proof.
  intros A l inds. unfold rows. induction inds as [|i inds IH]; intros r H; simpl.
  - destruct r; reflexivity.
  - destruct (nth_error l i) as [s|] eqn:E.
    + destruct r; simpl; [symmetry; exact E|]. apply IH. intros; apply H; simpl; auto.
    + exfalso. apply nth_error_None in E. specialize (H i (or_introl eq_refl)). lia.
Qed.

Lemma length_rows : forall A (l : list A) inds,
  (forall i, In i inds -> i < length l) -> length (rows l inds) = length inds.
Proof.
  intros A l inds. unfold rows. induction inds as [|i inds IH]; intros H; simpl; [reflexivity|].
  rewrite app_length, IH by (intros; apply H; simpl; auto).
  destruct (nth_error l i) eqn:E; [reflexivity|].
  exfalso. apply nth_error_None in E. specialize (H i (or_introl eq_refl)). lia.
Qed.

(** ** indexer *)
Definition indexer_pairs (core : list core_state) (groups : list (list nat))
  : list (core_state * (nat * nat)) :=
  flat_map (fun p => map (fun q => (snd q, (fst p, fst q))) (enumerate (rows core (snd p))))
           (enumerate groups).

Lemma fold_left_map : forall A B C (f : C -> B -> C) (g : A -> B) l c,
  fold_left f (map g l) c = fold_left (fun c a => f c (g a)) l c.
Proof. induction l as [|a l IH]; simpl; intros; auto. Qed.

Lemma fold_left_flat_map : forall A B C (f : C -> B -> C) (g : A -> list B) l c,
  fold_left f (flat_map g l) c = fold_left (fun c a => fold_left f (g a) c) l c.
Proof. induction l as [|a l IH]; simpl; intros; [reflexivity|]. rewrite fold_left_app. auto. Qed.

Lemma indexer_as_dict : forall core groups,
  create_indexer core groups = dict_of_pairs core_state_eq_dec (indexer_pairs core groups).
Proof.
  intros. unfold create_indexer, dict_of_pairs, dict_update, indexer_pairs.
  rewrite fold_left_flat_map. generalize (@nil (core_state * (nat * nat))).
  generalize (enumerate groups). induction l as [|p l IH]; intros d; simpl; [reflexivity|].
  rewrite IH. f_equal. rewrite fold_left_map. reflexivity.
Qed.

Definition valid_groups (core : list core_state) (groups : list (list nat)) : Prop :=
  forall inds, In inds groups -> NoDup inds /\ forall i, In i inds -> i < length core.

Lemma In_indexer_pairs : forall core groups s k r, valid_groups core groups ->
  (In (s, (k, r)) (indexer_pairs core groups) <-> member core groups k r s).
Proof.
  intros core groups s k r V. unfold indexer_pairs, member. rewrite in_flat_map. split.
  - intros [[k' inds] [H1 H2]]. apply In_enumerate in H1. rewrite in_map_iff in H2.
    destruct H2 as [[r' s'] [E H2]]. simpl in E. injection E as <- <- <-.
    apply In_enumerate in H2. simpl in H2.
    rewrite nth_error_rows in H2 by (apply (V inds); eapply nth_error_In; eauto).
    destruct (nth_error inds r') as [i|] eqn:Er; [|discriminate]. eauto.
  - intros [inds [i [H1 [H2 H3]]]]. exists (k, inds). split; [apply In_enumerate; exact H1|].
    apply in_map_iff. exists (r, s). split; [reflexivity|]. simpl. apply In_enumerate.
    rewrite nth_error_rows by (apply (V inds); eapply nth_error_In; eauto).
    rewrite H2. exact H3.
Qed.

Lemma core_groups_valid : forall core csf,
  valid_groups core (core_key_to_core_indices core csf).
Proof.
  intros core csf inds H. apply In_nth_error in H. destruct H as [n H].
  destruct (group_members core csf n inds H) as [H1 [_ H3]]. auto.
Qed.

Lemma member_unique : forall core csf k r k' r' s, NoDup core ->
  member core (core_key_to_core_indices core csf) k r s ->
  member core (core_key_to_core_indices core csf) k' r' s -> k = k' /\ r = r'.
Proof.
  intros core csf k r k' r' s ND [inds [i [H1 [H2 H3]]]] [inds' [i' [H1' [H2' H3']]]].
  assert (i = i').
  { apply (proj1 (NoDup_nth_error core) ND); [|congruence]. eapply nth_error_lt; eauto. }
  subst i'.
  destruct (group_exists_unique core csf i s H3) as [n [_ U]].
  assert (k = k').
  { rewrite <- (U k), <- (U k'); [reflexivity| |];
      eexists; (split; [eassumption|eapply nth_error_In; eassumption]). }
  subst k'. split; [reflexivity|]. rewrite H1 in H1'. injection H1' as <-.
  destruct (group_members core csf k inds H1) as [N _].
  apply (proj1 (NoDup_nth_error inds) N); [|congruence]. eapply nth_error_lt; eauto.
Qed.

Lemma member_functional : forall core groups k r s s',
  member core groups k r s -> member core groups k r s' -> s = s'.
Proof.
  intros core groups k r s s' [inds [i [H1 [H2 H3]]]] [inds' [i' [H1' [H2' H3']]]].
  congruence.
Qed.

Lemma member_exists : forall core csf s, In s core ->
  exists k r, member core (core_key_to_core_indices core csf) k r s.
Proof.
  intros core csf s H. apply In_nth_error in H. destruct H as [i Hi].
  destruct (group_exists_unique core csf i s Hi) as [n [[inds [H1 H2]] _]].
  apply In_nth_error in H2. destruct H2 as [r Hr]. exists n, r. exists inds, i. auto.
Qed.

Lemma NoDup_indexer_keys : forall core csf, NoDup core ->
  NoDup (dict_keys (indexer_pairs core (core_key_to_core_indices core csf))).
Proof.
  intros core csf ND. unfold dict_keys, indexer_pairs.
  set (groups := core_key_to_core_indices core csf).
  assert (E : map fst (flat_map (fun p => map (fun q => (snd q, (fst p, fst q)))
                (enumerate (rows core (snd p)))) (enumerate groups))
            = flat_map (fun p => rows core (snd p)) (enumerate groups)).
  { generalize (enumerate groups). induction l as [|p l IH]; simpl; [reflexivity|].
    rewrite map_app, IH, map_map. simpl. f_equal. apply map_snd_enumerate. }
  rewrite E. apply NoDup_flat_map_intro.
  - apply NoDup_enumerate_from.
  - intros [k inds] H. simpl. apply In_enumerate in H.
    destruct (group_members core csf k inds H) as [N [_ L]].
    apply NoDup_nth_error. intros a b Ha Hab. rewrite length_rows in Ha by exact L.
    rewrite !nth_error_rows in Hab by exact L.
    destruct (nth_error inds a) as [i|] eqn:Ei;
      [|apply nth_error_None in Ei; lia].
    assert (Hi : i < length core) by (apply L; eapply nth_error_In; eauto).
    destruct (nth_error inds b) as [j|] eqn:Ej.
    + assert (i = j) by (apply (proj1 (NoDup_nth_error core) ND); auto). subst.
      apply (proj1 (NoDup_nth_error inds) N); [exact Ha|congruence].
    + apply nth_error_None in Hab. lia.
  - intros [k inds] [k' inds'] s H H' Hs Hs'. simpl in *.
    apply In_enumerate in H. apply In_enumerate in H'.
    apply In_nth_error in Hs. apply In_nth_error in Hs'.
    destruct Hs as [r Hr], Hs' as [r' Hr'].
    rewrite nth_error_rows in Hr by (apply (core_groups_valid core csf); eapply nth_error_In; eauto).
    rewrite nth_error_rows in Hr' by (apply (core_groups_valid core csf); eapply nth_error_In; eauto).
    destruct (nth_error inds r) as [i|] eqn:Ei; [|discriminate].
    destruct (nth_error inds' r') as [i'|] eqn:Ei'; [|discriminate].
    assert (k = k' /\ r = r').
    { apply (member_unique core csf k r k' r' s ND); eexists; eexists; eauto. }
    destruct H0 as [<- _]. congruence.
Qed.

Lemma indexer_spec : forall core csf s k r, NoDup core ->
  (dict_get core_state_eq_dec s (create_indexer core (core_key_to_core_indices core csf))
     = Some (k, r)
   <-> member core (core_key_to_core_indices core csf) k r s).
Proof.
  intros core csf s k r ND. rewrite indexer_as_dict.
  rewrite dict_of_pairs_NoDup by (apply NoDup_indexer_keys; exact ND).
  rewrite <- In_indexer_pairs by apply core_groups_valid. split.
  - apply dict_get_Some_In.
  - apply dict_get_In_NoDup. apply NoDup_indexer_keys. exact ND.
Qed.

(** ** loops that may raise *)
Lemma fold_result_nested : forall A B C (f : B -> C -> A -> result A) (l : list C) ds a,
  fold_result (fun d acc => fold_result (f d) l acc) ds a =
  fold_result (fun p acc => f (fst p) (snd p) acc) (list_prod ds l) a.
Proof.
  intros A B C f l.
  assert (G : forall l1 l2 (g : B * C -> A -> result A) a,
    fold_result g (l1 ++ l2) a = result_bind (fold_result g l1 a) (fold_result g l2)).
  { induction l1 as [|x l1 IH]; intros; simpl; [reflexivity|].
    destruct (g x a); simpl; auto. }
  assert (M : forall d l a, fold_result (f d) l a =
    fold_result (fun p acc => f (fst p) (snd p) acc) (map (fun y => (d, y)) l) a).
  { induction l0 as [|x l0 IH]; intros; simpl; [reflexivity|].
    destruct (f d x a); simpl; auto. }
  induction ds as [|d ds IH]; intros a; simpl; [reflexivity|].
  rewrite G, <- M. destruct (fold_result (f d) l a); simpl; auto.
Qed.

Lemma result_all_map_Ok : forall A B (f : A -> result B) l xs,
  result_all (map f l) = Ok xs <-> Forall2 (fun a x => f a = Ok x) l xs.
Proof.
  induction l as [|a l IH]; intros xs; simpl.
  - split; [intros [= <-]; constructor|inversion 1; reflexivity].
  - destruct (f a) as [x| | | | |] eqn:E; simpl;
      try (split; [discriminate|inversion 1; congruence]).
    destruct (result_all (map f l)) as [ys| | | | |] eqn:R; simpl;
      try (split; [discriminate|]; inversion 1; subst;
           match goal with H : Forall2 _ l _ |- _ => apply IH in H; discriminate end).
    split.
    + intros [= <-]. constructor; [exact E|]. apply IH. reflexivity.
    + inversion 1; subst. rewrite E in H2. injection H2 as ->. apply IH in H4. congruence.
Qed.

Lemma fold_result_steps : forall A B X (v : B -> result X) (h : B -> X -> A -> A) l a a',
  fold_result (fun b acc => result_bind (v b) (fun x => Ok (h b x acc))) l a = Ok a' <->
  exists xs, Forall2 (fun b x => v b = Ok x) l xs /\
             a' = fold_left (fun a p => h (fst p) (snd p) a) (combine l xs) a.
Proof.
  induction l as [|b l IH]; intros a a'; simpl.
  - split.
    + intros [= <-]. exists []. split; [constructor|reflexivity].
    + intros [xs [_ ->]]. reflexivity.
  - destruct (v b) as [x| | | | |] eqn:E; simpl;
      try (split; [discriminate|intros [xs [H _]]; inversion H; congruence]).
    rewrite IH. split.
    + intros [xs [H ->]]. exists (x :: xs). split; [constructor; auto|reflexivity].
    + intros [xs [H ->]]. inversion H; subst. rewrite E in H2. injection H2 as ->.
      exists l'. split; [assumption|reflexivity].
Qed.

Lemma fold_result_ext : forall A B (f g : B -> A -> result A) l a,
  (forall b a, In b l -> f b a = g b a) -> fold_result f l a = fold_result g l a.
Proof.
  induction l as [|b l IH]; intros a H; simpl; [reflexivity|].
  rewrite H by (left; reflexivity). destruct (g b a); simpl; auto.
  apply IH. intros; apply H; right; auto.
Qed.

(** ** choice set of a group *)
Lemma drop_duplicates_single : forall A eqd (l : list A) c,
  drop_duplicates eqd l = [c] <-> l <> [] /\ forall x, In x l -> x = c.
Proof.
  intros A eqd l c. split.
  - intros H. split; [intros ->; discriminate|]. intros x Hx.
    apply (In_drop_duplicates _ eqd) in Hx. rewrite H in Hx. destruct Hx as [->|[]]. reflexivity.
  - intros [H1 H2]. pose proof (NoDup_drop_duplicates _ eqd l) as N.
    assert (I : forall x, In x (drop_duplicates eqd l) -> x = c).
    { intros x Hx. apply H2. apply In_drop_duplicates in Hx. exact Hx. }
    destruct (drop_duplicates eqd l) as [|a [|b r]] eqn:E.
    + destruct l as [|y l]; [congruence|].
      assert (In y (drop_duplicates eqd (y :: l))) by (apply In_drop_duplicates; left; auto).
      rewrite E in H. destruct H.
    + rewrite (I a); simpl; auto.
    + exfalso. rewrite (I a), (I b) in N by (simpl; auto).
      inversion N; subst. apply H3. simpl; auto.
Qed.

Lemma group_choice_set_Ok : forall csf vec states cs,
  group_choice_set csf vec states = Ok cs <->
  states <> [] /\ forall s, In s states -> csf (Some vec) s = cs.
Proof.
  intros csf vec states cs. unfold group_choice_set.
  destruct (drop_duplicates (list_eq_dec bool_dec) (map (csf (Some vec)) states))
    as [|a [|b r]] eqn:E.
  - split; [discriminate|]. intros [H1 H2]. exfalso.
    destruct states as [|s st]; [congruence|].
    assert (In (csf (Some vec) s) (drop_duplicates (list_eq_dec bool_dec)
              (map (csf (Some vec)) (s :: st)))) by (apply In_drop_duplicates; left; auto).
    rewrite E in H. destruct H.
  - apply drop_duplicates_single in E. destruct E as [E1 E2]. split.
    + intros [= <-]. split; [intros ->; apply E1; reflexivity|].
      intros s Hs. apply E2. apply in_map. exact Hs.
    + intros [H1 H2]. f_equal. destruct states as [|s st]; [congruence|].
      rewrite <- (H2 s) by (left; reflexivity). symmetry. apply E2. left. reflexivity.
  - split; [discriminate|]. intros [H1 H2]. exfalso.
    assert (C : drop_duplicates (list_eq_dec bool_dec) (map (csf (Some vec)) states) = [cs]).
    { apply drop_duplicates_single. split.
      - destruct states; [congruence|discriminate].
      - intros x Hx. apply in_map_iff in Hx. destruct Hx as [s [<- Hs]]. auto. }
    rewrite E in C. discriminate.
Qed.

(** ** dense keys *)
Definition entry_v (core : list core_state) (csf : cs_fun) (keys : list ckey)
  (groups : list (list nat)) (p : (nat * list nat) * nat)
  : result (complex * list core_state) :=
  match nth_error keys (snd p), nth_error groups (snd p) with
  | Some k, Some indices =>
      result_bind (group_choice_set csf (snd (fst p)) (rows core indices))
        (fun cs => Ok ((fst k, cs, Some (fst (fst p))), rows core indices))
  | _, _ => KeyError
  end.

Definition entry_h (p : (nat * list nat) * nat) (x : complex * list core_state)
  (acc : dpc_acc) : dpc_acc :=
  (dict_set complex_eq_dec (fst x) (snd p) (fst acc),
   dict_set complex_eq_dec (fst x) (snd x, Some (snd (fst p))) (snd acc)).

Lemma step_as_entry : forall core csf keys groups d vec ck acc,
  dense_period_choice_step core csf keys groups d vec ck acc =
  result_bind (entry_v core csf keys groups ((d, vec), ck))
              (fun x => Ok (entry_h ((d, vec), ck) x acc)).
Proof.
  intros. unfold dense_period_choice_step, entry_v, entry_h. simpl.
  destruct (nth_error keys ck); [|reflexivity].
  destruct (nth_error groups ck); [|reflexivity].
  destruct (group_choice_set csf vec (rows core l)); reflexivity.
Qed.

Definition loop_items (grid : list (list nat)) (groups : list (list nat))
  : list ((nat * list nat) * nat) :=
  list_prod (enumerate grid) (seq 0 (length groups)).

Lemma create_dense_loop : forall core csf grid keys groups acc, grid <> [] ->
  create_dense_period_choice core csf grid keys groups = Ok acc <->
  exists xs, Forall2 (fun p x => entry_v core csf keys groups p = Ok x)
                     (loop_items grid groups) xs /\
    acc = fold_left (fun a p => entry_h (fst p) (snd p) a)
                    (combine (loop_items grid groups) xs) ([], []).
Proof.
  intros core csf grid keys groups acc Hg.
  rewrite <- (fold_result_steps _ _ _ (entry_v core csf keys groups) entry_h).
  unfold create_dense_period_choice. destruct grid as [|g grid]; [congruence|].
  rewrite fold_result_nested. unfold loop_items.
  erewrite fold_result_ext; [reflexivity|].
  intros [[d vec] ck] a _. simpl. apply step_as_entry.
Qed.

Lemma fold_entry_h : forall l a,
  fold_left (fun a p => entry_h (fst p) (snd p) a) l a =
  (dict_update complex_eq_dec (fst a) (map (fun p => (fst (snd p), snd (fst p))) l),
   dict_update complex_eq_dec (snd a)
     (map (fun p => (fst (snd p), (snd (snd p), Some (snd (fst (fst p)))))) l)).
Proof.
  unfold dict_update. induction l as [|p l IH]; intros [a1 a2]; simpl; [reflexivity|].
  rewrite IH. reflexivity.
Qed.

Lemma NoDup_list_prod : forall A B (l1 : list A) (l2 : list B),
  NoDup l1 -> NoDup l2 -> NoDup (list_prod l1 l2).
Proof.
  induction l1 as [|a l1 IH]; intros l2 H1 H2; simpl; [constructor|].
  inversion H1; subst. apply NoDup_app_intro; auto.
  - apply FinFun.Injective_map_NoDup; auto. intros x y E. congruence.
  - intros [x y] Hx Hy. apply in_map_iff in Hx. destruct Hx as [b [E _]].
    injection E as <- <-. apply in_prod_iff in Hy. tauto.
Qed.

Lemma NoDup_loop_items : forall grid groups, NoDup (loop_items grid groups).
Proof.
  intros. apply NoDup_list_prod; [apply NoDup_enumerate_from|apply seq_NoDup].
Qed.

Lemma In_loop_items : forall grid groups d vec ck,
  In ((d, vec), ck) (loop_items grid groups) <->
  nth_error grid d = Some vec /\ ck < length groups.
Proof.
  intros. unfold loop_items. rewrite in_prod_iff, In_enumerate, in_seq. intuition lia.
Qed.

Lemma Forall2_combine_In : forall A B (P : A -> B -> Prop) l1 l2 a b,
  Forall2 P l1 l2 -> In (a, b) (combine l1 l2) -> P a b.
Proof.
  intros A B P l1 l2 a b H. induction H; simpl; [tauto|].
  intros [E|E]; [congruence|auto].
Qed.

Lemma Forall2_In_l : forall A B (P : A -> B -> Prop) l1 l2 a,
  Forall2 P l1 l2 -> In a l1 -> exists b, P a b /\ In (a, b) (combine l1 l2).
Proof.
  intros A B P l1 l2 a H. induction H; simpl; [tauto|].
  intros [<-|E]; [eauto|]. destruct (IHForall2 E) as [b [H1 H2]]. eauto.
Qed.

Lemma combine_map_fst : forall A B (P : A -> B -> Prop) l1 l2,
  Forall2 P l1 l2 -> map fst (combine l1 l2) = l1.
Proof. intros A B P l1 l2 H. induction H; simpl; congruence. Qed.

Lemma NoDup_map_inj_in : forall A B (f : A -> B) l,
  NoDup l -> (forall x y, In x l -> In y l -> f x = f y -> x = y) -> NoDup (map f l).
Proof.
  induction l as [|a l IH]; intros N I; simpl; [constructor|].
  inversion N; subst. constructor.
  - intro E. apply in_map_iff in E. destruct E as [b [E1 E2]].
    assert (a = b) by (apply I; simpl; auto). subst. tauto.
  - apply IH; auto. intros; apply I; simpl; auto.
Qed.

Lemma NoDup_combine : forall A B (l1 : list A) (l2 : list B),
  NoDup l1 -> NoDup (combine l1 l2).
Proof.
  induction l1 as [|a l1 IH]; intros [|b l2] N; simpl; try constructor.
  - inversion N; subst. intro E. apply in_combine_l in E. tauto.
  - inversion N; subst. auto.
Qed.

Lemma entry_v_spec : forall core csf d vec ck cx states,
  let keys := core_key_to_complex core csf in
  let groups := core_key_to_core_indices core csf in
  entry_v core csf keys groups ((d, vec), ck) = Ok (cx, states) ->
  cx_dense cx = Some d /\
  exists inds, nth_error groups ck = Some inds /\ states = rows core inds /\
  forall i s, In i inds -> nth_error core i = Some s ->
    nth_error keys ck = Some (cs_period s, csf None s) /\
    cs_period s = cx_period cx /\ csf (Some vec) s = cx_choice_set cx.
Proof.
  intros core csf d vec ck cx states keys groups H. unfold entry_v in H. simpl in H.
  destruct (nth_error keys ck) as [k|] eqn:Ek; [|discriminate].
  destruct (nth_error groups ck) as [inds|] eqn:Eg; [|discriminate].
  destruct (group_choice_set csf vec (rows core inds)) as [cs| | | | |] eqn:Ec; try discriminate.
  simpl in H. injection H as <- <-. split; [reflexivity|]. exists inds.
  split; [reflexivity|]. split; [reflexivity|]. intros i s Hi Hs.
  pose proof (proj1 (row_in_group core csf i s ck inds Hs Eg) Hi) as K.
  unfold keys in Ek. rewrite Ek in K. injection K as ->. split; [reflexivity|].
  split; [reflexivity|]. apply group_choice_set_Ok in Ec. destruct Ec as [_ Ec].
  unfold cx_choice_set. simpl. apply Ec.
  apply In_nth_error in Hi. destruct Hi as [r Hr]. apply nth_error_In with r.
  destruct (group_members core csf ck inds Eg) as [_ [_ L]].
  rewrite nth_error_rows by exact L. rewrite Hr. exact Hs.
Qed.

Lemma group_first : forall core csf ck inds,
  nth_error (core_key_to_core_indices core csf) ck = Some inds ->
  exists i s, In i inds /\ nth_error core i = Some s.
Proof.
  intros core csf ck inds H. destruct (group_members core csf ck inds H) as [_ [N L]].
  destruct inds as [|i inds]; [congruence|]. exists i.
  destruct (nth_error core i) as [s|] eqn:E.
  - exists s. simpl. auto.
  - apply nth_error_None in E. specialize (L i (or_introl eq_refl)). lia.
Qed.

Lemma entry_injective : forall core csf grid d vec ck d' vec' ck' cx st st',
  collision_free core csf grid ->
  let keys := core_key_to_complex core csf in
  let groups := core_key_to_core_indices core csf in
  nth_error grid d = Some vec -> nth_error grid d' = Some vec' ->
  entry_v core csf keys groups ((d, vec), ck) = Ok (cx, st) ->
  entry_v core csf keys groups ((d', vec'), ck') = Ok (cx, st') ->
  d = d' /\ vec = vec' /\ ck = ck'.
Proof.
  intros core csf grid d vec ck d' vec' ck' cx st st' CF keys groups Hd Hd' H H'.
  apply entry_v_spec in H. apply entry_v_spec in H'.
  destruct H as [D [inds [G [_ E]]]], H' as [D' [inds' [G' [_ E']]]].
  rewrite D in D'. injection D' as <-. rewrite Hd in Hd'. injection Hd' as <-.
  split; [reflexivity|]. split; [reflexivity|].
  destruct (group_first core csf ck inds G) as [i [s [Hi Hs]]].
  destruct (group_first core csf ck' inds' G') as [i' [s' [Hi' Hs']]].
  destruct (E i s Hi Hs) as [K1 [P1 C1]]. destruct (E' i' s' Hi' Hs') as [K2 [P2 C2]].
  assert (csf None s = csf None s').
  { apply (CF vec); try (eapply nth_error_In; eassumption); congruence. }
  apply (proj1 (NoDup_nth_error (core_key_to_complex core csf)) (NoDup_core_keys core csf)).
  - eapply nth_error_lt; eauto.
  - congruence.
Qed.

Lemma right_entry_dense_inj : forall core csf grid cx cx' ck,
  let groups := core_key_to_core_indices core csf in
  right_entry core csf grid groups cx ck -> right_entry core csf grid groups cx' ck ->
  cx_dense cx = cx_dense cx' -> cx = cx'.
Proof.
  intros core csf grid cx cx' ck groups [ctx [inds [D [G E]]]] [ctx' [inds' [D' [G' E']]]] Hd.
  rewrite G in G'. injection G' as <-.
  destruct (group_first core csf ck inds G) as [i [s [Hi Hs]]].
  destruct (E i s Hi Hs) as [P1 C1]. destruct (E' i s Hi Hs) as [P2 C2].
  assert (ctx = ctx').
  { rewrite <- Hd in D'. unfold dense_combination in *. destruct (cx_dense cx).
    - destruct D as [v [N ->]], D' as [v' [N' ->]]. congruence.
    - destruct D as [_ ->], D' as [_ ->]. reflexivity. }
  subst. destruct cx as [[p c] o], cx' as [[p' c'] o']. unfold cx_dense, cx_period, cx_choice_set in *.
  simpl in *. congruence.
Qed.

Record dpc_facts (core : list core_state) (csf : cs_fun) (grid : list (list nat))
  (acc : dpc_acc) : Prop := {
  df_nodup : NoDup (map fst (fst acc));
  df_entries : forall cx ck, In (cx, ck) (fst acc) <->
      right_entry core csf grid (core_key_to_core_indices core csf) cx ck;
  df_files : forall cx ck inds, In (cx, ck) (fst acc) ->
      nth_error (core_key_to_core_indices core csf) ck = Some inds ->
      exists ctx, dense_combination grid (cx_dense cx) ctx /\
                  dict_get complex_eq_dec cx (snd acc) = Some (rows core inds, ctx)
}.

Lemma dpc_facts_dense : forall core csf grid acc, grid <> [] ->
  collision_free core csf grid ->
  create_dense_period_choice core csf grid (core_key_to_complex core csf)
    (core_key_to_core_indices core csf) = Ok acc ->
  dpc_facts core csf grid acc.
Proof.
  intros core csf grid acc Hg CF H. apply create_dense_loop in H; [|exact Hg].
  destruct H as [xs [F ->]].
  set (keys := core_key_to_complex core csf) in *.
  set (groups := core_key_to_core_indices core csf) in *.
  rewrite fold_entry_h. simpl.
  set (L := combine (loop_items grid groups) xs) in *.
  assert (HL : forall d vec ck cx st, In (((d, vec), ck), (cx, st)) L ->
     entry_v core csf keys groups ((d, vec), ck) = Ok (cx, st) /\
     nth_error grid d = Some vec /\ ck < length groups).
  { intros d vec ck cx st Hin. split.
    - exact (Forall2_combine_In _ _ _ _ _ _ _ F Hin).
    - apply in_combine_l in Hin. apply In_loop_items in Hin. exact Hin. }
  assert (N : NoDup (map (fun p => fst (snd p)) L)).
  { apply NoDup_map_inj_in; [apply NoDup_combine, NoDup_loop_items|].
    intros [[[d vec] ck] [cx st]] [[[d' vec'] ck'] [cx' st']] I1 I2 E. simpl in E. subst cx'.
    destruct (HL _ _ _ _ _ I1) as [V1 [G1 _]]. destruct (HL _ _ _ _ _ I2) as [V2 [G2 _]].
    destruct (entry_injective core csf grid d vec ck d' vec' ck' cx st st' CF G1 G2 V1 V2)
      as [<- [<- <-]]. fold keys groups in V2. rewrite V1 in V2. congruence. }
  assert (N1 : NoDup (dict_keys (map (fun p => (fst (snd p), snd (fst p))) L))).
  { unfold dict_keys. rewrite map_map. exact N. }
  assert (N2 : NoDup (dict_keys (map (fun p : ((nat * list nat) * nat) * (complex * list core_state)
       => (fst (snd p), (snd (snd p), Some (snd (fst (fst p)))))) L))).
  { unfold dict_keys. rewrite map_map. exact N. }
  change (dict_update complex_eq_dec [] ?l) with (dict_of_pairs complex_eq_dec l).
  split; simpl.
  - change (dict_update complex_eq_dec [] ?l) with (dict_of_pairs complex_eq_dec l).
    rewrite dict_of_pairs_NoDup by exact N1. exact N1.
  - intros cx ck. change (dict_update complex_eq_dec [] ?l) with (dict_of_pairs complex_eq_dec l).
    rewrite dict_of_pairs_NoDup by exact N1. rewrite in_map_iff. split.
    + intros [[[[d vec] ck'] [cx' st]] [E I]]. simpl in E. injection E as <- <-.
      destruct (HL _ _ _ _ _ I) as [V [G _]]. apply entry_v_spec in V.
      destruct V as [D [inds [Gi [_ A]]]]. exists (Some vec), inds. split.
      * rewrite D. simpl. eauto.
      * split; [exact Gi|]. intros i s Hi Hs. destruct (A i s Hi Hs) as [_ A']. exact A'.
    + intros R. pose proof R as [ctx [inds [D [Gi A]]]].
      unfold dense_combination in D. destruct (cx_dense cx) as [d|] eqn:Ed.
      2: { destruct D. congruence. }
      destruct D as [vec [Gd ->]].
      assert (I : In ((d, vec), ck) (loop_items grid groups)).
      { apply In_loop_items. split; [exact Gd|]. eapply nth_error_lt; eauto. }
      destruct (Forall2_In_l _ _ _ _ _ _ F I) as [[cx' st] [V I']].
      exists (((d, vec), ck), (cx', st)). split; [|exact I']. simpl. f_equal.
      apply entry_v_spec in V. destruct V as [D' [inds' [Gi' [_ A']]]].
      apply (right_entry_dense_inj core csf grid cx' cx ck).
      * exists (Some vec), inds'. rewrite D'. simpl. split; [eauto|]. split; [exact Gi'|].
        intros i s Hi Hs. destruct (A' i s Hi Hs) as [_ X]. exact X.
      * exact R.
      * congruence.
  - intros cx ck inds I Gi. change (dict_update complex_eq_dec [] ?l) with (dict_of_pairs complex_eq_dec l) in *.
    rewrite dict_of_pairs_NoDup in I by exact N1. rewrite dict_of_pairs_NoDup by exact N2.
    apply in_map_iff in I. destruct I as [[[[d vec] ck'] [cx' st]] [E I]]. simpl in E.
    injection E as <- <-. destruct (HL _ _ _ _ _ I) as [V [G _]]. apply entry_v_spec in V.
    destruct V as [D [inds' [Gi' [-> _]]]]. unfold groups in Gi. rewrite Gi in Gi'. injection Gi' as <-.
    exists (Some vec). split; [rewrite D; simpl; eauto|].
    apply dict_get_In_NoDup; [exact N2|]. apply in_map_iff.
    exists (((d, vec), ck'), (cx', rows core inds)). split; [reflexivity|exact I].
Qed.

Lemma dpc_facts_nodense : forall core csf acc,
  create_dense_period_choice core csf [] (core_key_to_complex core csf)
    (core_key_to_core_indices core csf) = Ok acc ->
  dpc_facts core csf [] acc.
Proof.
  intros core csf acc H. unfold create_dense_period_choice in H. injection H as <-.
  set (keys := core_key_to_complex core csf).
  set (cxs := map (fun p => ((fst (snd p), snd (snd p), None) : complex, fst p)) (enumerate keys)).
  assert (N1 : NoDup (dict_keys cxs)).
  { unfold dict_keys, cxs. rewrite map_map. simpl.
    rewrite <- (map_map snd (fun k : ckey => (fst k, snd k, None) : complex)).
    rewrite map_snd_enumerate. apply FinFun.Injective_map_NoDup; [|apply NoDup_core_keys].
    intros [a b] [a' b'] E. simpl in E. congruence. }
  set (fl := flat_map (fun p : complex * nat =>
      match nth_error (core_key_to_core_indices core csf) (snd p) with
      | Some g => [(fst p, (rows core g, @None (list nat)))] | None => [] end) cxs).
  assert (Ef : dict_keys fl = dict_keys cxs).
  { unfold fl, dict_keys.
    assert (X : forall p, In p cxs ->
      exists g, nth_error (core_key_to_core_indices core csf) (snd p) = Some g).
    { intros p Hp. unfold cxs in Hp. apply in_map_iff in Hp. destruct Hp as [[i k] [<- Hp]].
      simpl. apply In_enumerate in Hp. rewrite nth_error_groups. fold keys. rewrite Hp.
      simpl. eauto. }
    revert X. generalize cxs. induction cxs0 as [|p l IH]; intros X; simpl; [reflexivity|].
    destruct (X p (or_introl eq_refl)) as [g Hg]. rewrite Hg. simpl.
    f_equal. apply IH. intros; apply X; simpl; auto. }
  rewrite (dict_of_pairs_NoDup _ cxs N1).
  assert (N2 : NoDup (dict_keys fl)) by (rewrite Ef; exact N1).
  rewrite (dict_of_pairs_NoDup _ fl N2).
  split; simpl.
  - exact N1.
  - intros cx ck. unfold cxs. rewrite in_map_iff. split.
    + intros [[i k] [E I]]. simpl in E. injection E as <- <-. apply In_enumerate in I.
      unfold right_entry. exists None, (group_indices core csf k).
      split; [simpl; auto|]. split; [rewrite nth_error_groups; fold keys; rewrite I; reflexivity|].
      intros j s Hj Hs. apply In_group in Hj. destruct Hj as [s' [Hs' Hk]].
      rewrite Hs in Hs'. injection Hs' as <-. subst k. simpl. auto.
    + intros [ctx [inds [D [G A]]]]. unfold dense_combination in D.
      destruct cx as [[p c] [d|]]; simpl in D.
      { destruct D as [vec [D _]]. destruct d; discriminate. }
      destruct D as [_ ->]. destruct (group_first core csf ck inds G) as [i [s [Hi Hs]]].
      destruct (A i s Hi Hs) as [P C]. unfold cx_period, cx_choice_set in *. simpl in *. subst.
      exists (ck, core_key_of csf s). split; [reflexivity|]. apply In_enumerate.
      apply (proj1 (row_in_group core csf i s ck inds Hs G) Hi).
  - intros cx ck inds I G. exists None.
    assert (Dn : cx_dense cx = None).
    { unfold cxs in I. apply in_map_iff in I. destruct I as [q [E _]]. injection E as <- _. reflexivity. }
    split; [rewrite Dn; simpl; auto|]. apply dict_get_In_NoDup; [exact N2|].
    unfold fl. apply in_flat_map. exists (cx, ck). split; [exact I|]. simpl. rewrite G. left. reflexivity.
Qed.

Lemma dpc_facts_all : forall core csf grid acc, collision_free core csf grid ->
  create_dense_period_choice core csf grid (core_key_to_complex core csf)
    (core_key_to_core_indices core csf) = Ok acc ->
  dpc_facts core csf grid acc.
Proof.
  intros core csf grid acc CF H. destruct grid as [|g grid].
  - apply dpc_facts_nodense. exact H.
  - apply dpc_facts_dense; auto. discriminate.
Qed.

Lemma homogeneous_iff : forall core csf grid, 
  (exists acc, create_dense_period_choice core csf grid (core_key_to_complex core csf)
    (core_key_to_core_indices core csf) = Ok acc) <-> homogeneous core csf grid.
Proof.
  intros core csf grid. destruct grid as [|g grid].
  - split.
    + intros _ vec s1 s2 [].
    + intros _. eexists. reflexivity.
  - set (G := g :: grid). assert (HG : G <> []) by discriminate.
    set (keys := core_key_to_complex core csf). set (groups := core_key_to_core_indices core csf).
    split.
    + intros [acc H]. apply create_dense_loop in H; [|exact HG]. destruct H as [xs [F _]].
      intros vec s1 s2 Hv H1 H2 P C.
      apply In_nth_error in Hv. destruct Hv as [d Hd].
      destruct (member_exists core csf s1 H1) as [ck [r1 [inds [i1 [Gi [Hr1 Hi1]]]]]].
      apply In_nth_error in H2. destruct H2 as [i2 Hi2].
      assert (I2 : In i2 inds).
      { apply (same_group_iff core csf i1 i2 s1 s2 ck inds); auto. eapply nth_error_In; eauto. }
      assert (I : In ((d, vec), ck) (loop_items G groups)).
      { apply In_loop_items. split; [exact Hd|]. eapply nth_error_lt; eauto. }
      destruct (Forall2_In_l _ _ _ _ _ _ F I) as [[cx st] [V _]].
      apply entry_v_spec in V. destruct V as [_ [inds' [Gi' [_ A]]]].
      rewrite Gi in Gi'. injection Gi' as <-.
      destruct (A i1 s1 (nth_error_In _ _ Hr1) Hi1) as [_ [_ C1]].
      destruct (A i2 s2 I2 Hi2) as [_ [_ C2]]. congruence.
    + intros HH.
      assert (V : forall p, In p (loop_items G groups) ->
                exists x, entry_v core csf keys groups p = Ok x).
      { intros [[d vec] ck] I. apply In_loop_items in I. destruct I as [Hd Hck].
        destruct (nth_error groups ck) as [inds|] eqn:Gi;
          [|apply nth_error_None in Gi; lia].
        destruct (nth_error keys ck) as [k|] eqn:Ki;
          [|apply nth_error_None in Ki; unfold groups, keys in *; rewrite length_groups in Hck; lia].
        destruct (group_first core csf ck inds Gi) as [i [s [Hi Hs]]].
        exists ((fst k, csf (Some vec) s, Some d), rows core inds).
        unfold entry_v. cbn [fst snd]. rewrite Ki, Gi.
        assert (E : group_choice_set csf vec (rows core inds) = Ok (csf (Some vec) s)).
        { apply group_choice_set_Ok.
          destruct (group_members core csf ck inds Gi) as [_ [Ne L]]. split.
          - intro X. apply (f_equal (@length core_state)) in X. rewrite length_rows in X by exact L.
            destruct inds; [congruence|discriminate].
          - intros s' Hs'. apply In_nth_error in Hs'. destruct Hs' as [r Hr].
            rewrite nth_error_rows in Hr by exact L.
            destruct (nth_error inds r) as [i'|] eqn:Er; [|discriminate].
            assert (S : cs_period s = cs_period s' /\ csf None s = csf None s').
            { apply (same_group_iff core csf i i' s s' ck inds); auto. eapply nth_error_In; eauto. }
            symmetry. apply HH; try (eapply nth_error_In; eassumption); tauto. }
        rewrite E. reflexivity. }
      assert (exists xs, Forall2 (fun p x => entry_v core csf keys groups p = Ok x)
                                 (loop_items G groups) xs).
      { revert V. generalize (loop_items G groups). induction l as [|p l IH]; intros V.
        - exists []. constructor.
        - destruct (V p (or_introl eq_refl)) as [x Hx].
          destruct IH as [xs Hxs]; [intros; apply V; simpl; auto|].
          exists (x :: xs). constructor; auto. }
      destruct H as [xs F]. eexists. apply create_dense_loop; [exact HG|].
      exists xs. split; [exact F|reflexivity].
Qed.

Lemma fold_result_Ok_or_ValueError : forall A B (f : B -> A -> result A) l a,
  (forall b a, In b l -> (exists a', f b a = Ok a') \/ f b a = ValueError) ->
  (exists a', fold_result f l a = Ok a') \/ fold_result f l a = ValueError.
Proof.
  induction l as [|b l IH]; intros a H; simpl; [eauto|].
  destruct (H b a (or_introl eq_refl)) as [[a' E]|E]; rewrite E; simpl; [|auto].
  apply IH. intros; apply H; right; auto.
Qed.

Lemma not_homogeneous_error : forall core csf grid, ~ homogeneous core csf grid ->
  create_dense_period_choice core csf grid (core_key_to_complex core csf)
    (core_key_to_core_indices core csf) = ValueError.
Proof.
  intros core csf grid NH.
  assert (X : (exists acc, create_dense_period_choice core csf grid (core_key_to_complex core csf)
    (core_key_to_core_indices core csf) = Ok acc) \/
    create_dense_period_choice core csf grid (core_key_to_complex core csf)
    (core_key_to_core_indices core csf) = ValueError).
  { unfold create_dense_period_choice. destruct grid as [|g grid]; [left; eexists; reflexivity|].
    apply fold_result_Ok_or_ValueError. intros [d vec] a _. simpl.
    apply fold_result_Ok_or_ValueError. intros ck a' Hck. apply in_seq in Hck.
    unfold dense_period_choice_step.
    destruct (nth_error (core_key_to_core_indices core csf) ck) as [inds|] eqn:G;
      [|apply nth_error_None in G; lia].
    destruct (nth_error (core_key_to_complex core csf) ck) as [key|] eqn:K;
      [|apply nth_error_None in K; rewrite length_groups in Hck; lia].
    unfold group_choice_set.
    destruct (drop_duplicates (list_eq_dec bool_dec) (map (csf (Some vec)) (rows core inds)))
      as [|c [|c' r]]; simpl; eauto. }
  destruct X as [[acc X]|X]; [|exact X]. exfalso. apply NH. apply homogeneous_iff. eauto.
Qed.

(** ** the complete state space *)
Record ss_facts (nperiods : nat) (core : list core_state) (csf : cs_fun)
  (grid : list (list nat)) (ss : state_space) : Prop := {
  sf_nperiods : ss_nperiods ss = nperiods;
  sf_core : ss_core ss = core;
  sf_groups : ss_groups ss = core_key_to_core_indices core csf;
  sf_grid : ss_grid ss = grid;
  sf_indexer : ss_indexer ss = create_indexer core (core_key_to_core_indices core csf);
  sf_dpc : create_dense_period_choice core csf grid (core_key_to_complex core csf)
             (core_key_to_core_indices core csf) = Ok (ss_dpc ss, ss_files ss);
  sf_transit : ss_transit ss = map (fun p => cx_choice_set (fst p)) (ss_dpc ss);
  sf_child : Forall2 (fun p ch => child_indices_of nperiods (ss_indexer ss) (ss_files ss)
                                    (fst p) (cx_choice_set (fst p)) = Ok ch)
                     (ss_dpc ss) (ss_child ss)
}.

Lemma Forall2_combine_map : forall A B C (P : A * B -> C -> Prop) (f : A -> B) l xs,
  Forall2 P (combine l (map f l)) xs <-> Forall2 (fun a x => P (a, f a) x) l xs.
Proof.
  induction l as [|a l IH]; intros xs; simpl.
  - split; inversion 1; constructor.
  - split; inversion 1; subst; constructor; auto; apply IH; auto.
Qed.

Lemma create_state_space_facts : forall nperiods core csf grid ss,
  create_state_space nperiods core csf grid = Ok ss ->
  ss_facts nperiods core csf grid ss.
Proof.
  intros nperiods core csf grid ss H. unfold create_state_space in H.
  destruct (create_dense_period_choice core csf grid (core_key_to_complex core csf)
    (core_key_to_core_indices core csf)) as [[dpc files]| | | | |] eqn:E; try discriminate.
  cbn [result_bind fst snd] in H.
  match type of H with result_bind ?x _ = _ => destruct x as [ch| | | | |] eqn:R end;
    try discriminate.
  simpl in H. injection H as <-.
  split; simpl; auto.
  apply result_all_map_Ok in R.
  apply (Forall2_combine_map _ _ _ (fun p ch => child_indices_of nperiods
    (create_indexer core (core_key_to_core_indices core csf)) files (fst (fst p)) (snd p) = Ok ch)
    (fun p => cx_choice_set (fst p))) in R. exact R.
Qed.

Lemma nth_error_NoDup_fst : forall A B (l : list (A * B)) i j a b b',
  NoDup (map fst l) -> nth_error l i = Some (a, b) -> nth_error l j = Some (a, b') -> i = j.
Proof.
  intros A B l i j a b b' N Hi Hj.
  apply (proj1 (NoDup_nth_error (map fst l)) N).
  - rewrite map_length. eapply nth_error_lt; eauto.
  - rewrite !nth_error_map, Hi, Hj. reflexivity.
Qed.

Lemma dense_combination_fun : forall grid d ctx ctx',
  dense_combination grid d ctx -> dense_combination grid d ctx' -> ctx = ctx'.
Proof.
  intros grid [d|] ctx ctx' H H'; simpl in *.
  - destruct H as [v [N ->]], H' as [v' [N' ->]]. congruence.
  - destruct H as [_ ->], H' as [_ ->]. reflexivity.
Qed.

Lemma located_exists : forall nperiods core csf grid ss s d ctx,
  collision_free core csf grid -> ss_facts nperiods core csf grid ss ->
  In s core -> dense_combination grid d ctx -> exists k r, located ss k r s d.
Proof.
  intros nperiods core csf grid ss s d ctx CF F Hs Hd.
  destruct (dpc_facts_all _ _ _ _ CF (sf_dpc _ _ _ _ _ F)) as [N E _]. simpl in *.
  destruct (member_exists core csf s Hs) as [ck [r M]].
  assert (HH : homogeneous core csf grid).
  { apply homogeneous_iff. eexists. exact (sf_dpc _ _ _ _ _ F). }
  assert (R : right_entry core csf grid (core_key_to_core_indices core csf)
                (cs_period s, csf ctx s, d) ck).
  { destruct M as [inds [i [Gi [Hr Hi]]]]. exists ctx, inds. split; [exact Hd|].
    split; [exact Gi|]. intros j s' Hj Hs'.
    assert (S : cs_period s = cs_period s' /\ csf None s = csf None s').
    { apply (same_group_iff core csf i j s s' ck inds); auto. eapply nth_error_In; eauto. }
    unfold cx_period, cx_choice_set. simpl. split; [symmetry; tauto|].
    destruct d as [d|]; simpl in Hd.
    - destruct Hd as [vec [Hv ->]]. symmetry. apply HH; try tauto.
      + eapply nth_error_In; eauto.
      + eapply nth_error_In; eauto.
    - destruct Hd as [_ ->]. symmetry. tauto. }
  apply E in R. apply In_nth_error in R. destruct R as [k Hk].
  exists k, r. exists (cs_period s, csf ctx s, d), ck. split; [exact Hk|].
  split; [reflexivity|]. rewrite (sf_core _ _ _ _ _ F), (sf_groups _ _ _ _ _ F). exact M.
Qed.

Lemma located_facts : forall nperiods core csf grid ss k r s d,
  collision_free core csf grid -> ss_facts nperiods core csf grid ss ->
  located ss k r s d ->
  exists ctx cx ck inds i, dense_combination grid d ctx /\
    nth_error (ss_dpc ss) k = Some (cx, ck) /\ cx = (cs_period s, csf ctx s, d) /\
    nth_error (ss_groups ss) ck = Some inds /\ nth_error inds r = Some i /\
    nth_error core i = Some s.
Proof.
  intros nperiods core csf grid ss k r s d CF F [cx [ck [Hk [Hd [inds [i [Gi [Hr Hi]]]]]]]].
  destruct (dpc_facts_all _ _ _ _ CF (sf_dpc _ _ _ _ _ F)) as [N E _]. simpl in *.
  pose proof (nth_error_In _ _ Hk) as I. apply E in I. destruct I as [ctx [inds' [Dc [Gi' A]]]].
  rewrite (sf_groups _ _ _ _ _ F) in Gi. rewrite Gi in Gi'. injection Gi' as <-.
  rewrite (sf_core _ _ _ _ _ F) in Hi.
  destruct (A i s (nth_error_In _ _ Hr) Hi) as [P C].
  exists ctx, cx, ck, inds, i. rewrite Hd in Dc. repeat split; auto.
  - destruct cx as [[p c] o]. unfold cx_dense, cx_period, cx_choice_set in *. simpl in *. congruence.
  - rewrite (sf_groups _ _ _ _ _ F). exact Gi.
Qed.

Lemma located_unique : forall nperiods core csf grid ss k r k' r' s d,
  NoDup core -> collision_free core csf grid -> ss_facts nperiods core csf grid ss ->
  located ss k r s d -> located ss k' r' s d -> k = k' /\ r = r'.
Proof.
  intros nperiods core csf grid ss k r k' r' s d ND CF F L L'.
  destruct (located_facts _ _ _ _ _ _ _ _ _ CF F L) as [ctx [cx [ck [inds [i [D [Hk [Ecx _]]]]]]]].
  destruct (located_facts _ _ _ _ _ _ _ _ _ CF F L') as [ctx' [cx' [ck' [inds' [i' [D' [Hk' [Ecx' _]]]]]]]].
  assert (ctx = ctx') by (eapply dense_combination_fun; eauto). subst ctx' cx cx'.
  destruct (dpc_facts_all _ _ _ _ CF (sf_dpc _ _ _ _ _ F)) as [N _ _]. simpl in N.
  assert (k = k') by (eapply nth_error_NoDup_fst; eauto). subst k'. split; [reflexivity|].
  destruct L as [cx [c1 [H1 [_ M]]]], L' as [cx' [c2 [H2 [_ M']]]].
  rewrite H1 in H2. injection H2 as <- <-.
  rewrite (sf_core _ _ _ _ _ F), (sf_groups _ _ _ _ _ F) in M, M'.
  destruct (member_unique core csf _ _ _ _ _ ND M M'). auto.
Qed.

Lemma located_functional : forall nperiods core csf grid ss k r s d s' d',
  ss_facts nperiods core csf grid ss ->
  located ss k r s d -> located ss k r s' d' -> s = s' /\ d = d'.
Proof.
  intros nperiods core csf grid ss k r s d s' d' F [cx [ck [H1 [H2 M]]]] [cx' [ck' [H1' [H2' M']]]].
  rewrite H1 in H1'. injection H1' as <- <-. split; [|congruence].
  eapply member_functional; eauto.
Qed.

(** ** lookup of dense keys *)
Lemma lookup_dense_key : forall nperiods core csf grid ss k cx ck,
  collision_free core csf grid -> ss_facts nperiods core csf grid ss ->
  nth_error (ss_dpc ss) k = Some (cx, ck) ->
  dict_get pair_nat_eq_dec (core_dense_key ck (cx_dense cx))
    (core_key_and_dense_index_to_dense_key (ss_dpc ss)) = Some k.
Proof.
  intros nperiods core csf grid ss k cx ck CF F Hk.
  destruct (dpc_facts_all _ _ _ _ CF (sf_dpc _ _ _ _ _ F)) as [N E _]. simpl in *.
  unfold core_key_and_dense_index_to_dense_key.
  set (L := map (fun p => (core_dense_key (snd (snd p)) (cx_dense (fst (snd p))), fst p))
                (enumerate (ss_dpc ss))).
  assert (NL : NoDup (dict_keys L)).
  { unfold dict_keys, L. rewrite map_map. simpl.
    rewrite <- (map_map snd (fun p : complex * nat => core_dense_key (snd p) (cx_dense (fst p)))).
    rewrite map_snd_enumerate. apply NoDup_map_inj_in.
    - apply NoDup_map_inv with (f := fst). exact N.
    - intros [cx1 c1] [cx2 c2] I1 I2 Eq. simpl in Eq. unfold core_dense_key in Eq.
      injection Eq as -> Ed. apply E in I1. apply E in I2.
      assert (D : cx_dense cx1 = cx_dense cx2).
      { destruct I1 as [ctx1 [? [D1 _]]], I2 as [ctx2 [? [D2 _]]].
        unfold dense_combination in *.
        destruct (cx_dense cx1), (cx_dense cx2); try congruence.
        - destruct D1 as [v [Dv _]], D2 as [-> _]. destruct n; discriminate.
        - destruct D2 as [v [Dv _]], D1 as [-> _]. destruct n; discriminate. }
      rewrite (right_entry_dense_inj core csf grid cx1 cx2 c2 I1 I2 D). reflexivity. }
  rewrite dict_of_pairs_NoDup by exact NL. apply dict_get_In_NoDup; [exact NL|].
  unfold L. apply in_map_iff. exists (k, (cx, ck)). split; [reflexivity|].
  apply In_enumerate. exact Hk.
Qed.

(** ** child indices *)
Lemma map_states_Ok : forall indexer l xs,
  map_states indexer l = Ok xs <->
  Forall2 (fun s x => dict_get core_state_eq_dec s indexer = Some x) l xs.
Proof.
  induction l as [|s l IH]; intros xs; cbn [map_states].
  - split; [intros [= <-]; constructor|inversion 1; reflexivity].
  - destruct (dict_get core_state_eq_dec s indexer) as [x|] eqn:E.
    + destruct (map_states indexer l) as [ys| | | | |] eqn:R; simpl;
        try (split; [discriminate|]; inversion 1; subst;
             match goal with H : Forall2 _ l _ |- _ => apply IH in H; discriminate end).
      split.
      * intros [= <-]. constructor; [exact E|]. apply IH. reflexivity.
      * inversion 1; subst. rewrite E in H2. injection H2 as ->. apply IH in H4. congruence.
    + split; [discriminate|]. inversion 1; congruence.
Qed.

Lemma Forall2_nth_l : forall A B (P : A -> B -> Prop) l1 l2 i a,
  Forall2 P l1 l2 -> nth_error l1 i = Some a -> exists b, nth_error l2 i = Some b /\ P a b.
Proof.
  intros A B P l1 l2 i a H. revert i. induction H; intros [|i] E; simpl in *; try discriminate.
  - injection E as <-. eauto.
  - eauto.
Qed.

Lemma child_lookup : forall nperiods core csf grid ss k r s d ctx j c,
  NoDup core -> collision_free core csf grid -> ss_facts nperiods core csf grid ss ->
  located ss k r s d -> dense_combination grid d ctx ->
  S (cs_period s) < nperiods ->
  nth_error (positions (csf ctx s)) j = Some c ->
  exists ch row x, nth_error (ss_child ss) k = Some ch /\ nth_error ch r = Some row /\
    length row = count_true (csf ctx s) /\ nth_error row j = Some x /\
    member core (core_key_to_core_indices core csf) (fst x) (snd x) (law_of_motion c s).
Proof.
  intros nperiods core csf grid ss k r s d ctx j c ND CF F L Dc HP Hj.
  destruct (located_facts _ _ _ _ _ _ _ _ _ CF F L) as
    [ctx' [cx [ck [inds [i [D' [Hk [Ecx [Gi [Hr Hi]]]]]]]]]].
  assert (ctx' = ctx) by (eapply dense_combination_fun; eauto). subst ctx'.
  destruct (dpc_facts_all _ _ _ _ CF (sf_dpc _ _ _ _ _ F)) as [N E Fi]. simpl in *.
  destruct (Forall2_nth_l _ _ _ _ _ _ _ (sf_child _ _ _ _ _ F) Hk) as [ch [Hch Ech]].
  exists ch. simpl in Ech. unfold child_indices_of in Ech.
  assert (T : Nat.ltb (cx_period cx) (nperiods - 1) = true).
  { apply Nat.ltb_lt. subst cx. unfold cx_period; simpl. lia. }
  rewrite T in Ech.
  rewrite (sf_groups _ _ _ _ _ F) in Gi.
  destruct (Fi cx ck inds (nth_error_In _ _ Hk) Gi) as [ctx2 [_ Hf]].
  rewrite Hf in Ech. simpl in Ech. unfold collect_child_indices in Ech.
  apply result_all_map_Ok in Ech.
  destruct (group_members core csf ck inds Gi) as [_ [_ Lr]].
  assert (Hs : nth_error (rows core inds) r = Some s)
    by (rewrite nth_error_rows by exact Lr; rewrite Hr; exact Hi).
  destruct (Forall2_nth_l _ _ _ _ _ _ _ Ech Hs) as [row [Hrow Erow]].
  apply map_states_Ok in Erow.
  assert (Ecs : cx_choice_set cx = csf ctx s) by (subst cx; reflexivity).
  rewrite Ecs in Erow.
  assert (Hj' : nth_error (map (fun c => law_of_motion c s) (positions (csf ctx s))) j
                = Some (law_of_motion c s)) by (rewrite nth_error_map, Hj; reflexivity).
  destruct (Forall2_nth_l _ _ _ _ _ _ _ Erow Hj') as [x [Hx Ex]].
  exists row, x. repeat split; auto.
  - apply Forall2_length_eq in Erow. rewrite map_length, length_positions in Erow. auto.
  - destruct x as [a b]. simpl. rewrite (sf_indexer _ _ _ _ _ F) in Ex.
    apply indexer_spec in Ex; auto.
Qed.

Lemma length_ss_child : forall nperiods core csf grid ss,
  ss_facts nperiods core csf grid ss -> length (ss_child ss) = length (ss_dpc ss).
Proof.
  intros. destruct H. apply Forall2_length_eq in sf_child0. auto.
Qed.

Lemma result_all_Ok_exists : forall A B (f : A -> result B) l,
  (forall a, In a l -> exists b, f a = Ok b) -> exists xs, result_all (map f l) = Ok xs.
Proof.
  induction l as [|a l IH]; intros H; simpl; [eauto|].
  destruct (H a (or_introl eq_refl)) as [b Hb]. rewrite Hb. simpl.
  destruct IH as [xs Hxs]; [intros; apply H; simpl; auto|]. rewrite Hxs. simpl. eauto.
Qed.

Lemma value_at_exists : forall A nperiods core csf grid ss (ev : list (list A)) s d ctx,
  collision_free core csf grid -> ss_facts nperiods core csf grid ss -> ev_shape ss ev ->
  In s core -> dense_combination grid d ctx -> exists v, value_at ss ev s d v.
Proof.
  intros A nperiods core csf grid ss ev s d ctx CF F [Sl Sh] Hs Hd.
  destruct (located_exists _ _ _ _ _ _ _ _ CF F Hs Hd) as [k [r L]].
  destruct (located_facts _ _ _ _ _ _ _ _ _ CF F L) as
    [ctx' [cx [ck [inds [i [D' [Hk [Ecx [Gi [Hr Hi]]]]]]]]]].
  destruct (nth_error ev k) as [arr|] eqn:Ek.
  2:{ apply nth_error_None in Ek. apply nth_error_lt in Hk. lia. }
  assert (Len : length arr = length inds).
  { apply (Sh k); auto. unfold dense_key_to_core_indices, dense_key_to_core_key.
    rewrite nth_error_map, Hk. simpl. exact Gi. }
  destruct (nth_error arr r) as [v|] eqn:Er.
  2:{ apply nth_error_None in Er. apply nth_error_lt in Hr. lia. }
  exists v, k, r, arr. auto.
Qed.

Lemma continuation_value_spec : forall A nperiods core csf grid ss (ev : list (list A)) d ctx s v x,
  NoDup core -> collision_free core csf grid -> ss_facts nperiods core csf grid ss ->
  member core (core_key_to_core_indices core csf) (fst x) (snd x) s ->
  dense_combination grid d ctx -> forall period, cs_period s = S period ->
  value_at ss ev s d v -> continuation_value ss ev period d x = Ok v.
Proof.
  intros A nperiods core csf grid ss ev d ctx s v x ND CF F M Dc period HP [k [r [arr [L [Ek Er]]]]].
  destruct (located_facts _ _ _ _ _ _ _ _ _ CF F L) as
    [ctx' [cx [ck [inds [i [D' [Hk [Ecx [Gi [Hr Hi]]]]]]]]]].
  assert (M' : member core (core_key_to_core_indices core csf) ck r s).
  { exists inds, i. rewrite <- (sf_groups _ _ _ _ _ F). auto. }
  destruct (member_unique _ _ _ _ _ _ _ ND M M') as [E1 E2].
  unfold continuation_value. rewrite E1.
  assert (Ed : cx_dense cx = d) by (subst cx; reflexivity).
  rewrite <- Ed at 1. rewrite (lookup_dense_key _ _ _ _ _ _ _ _ CF F Hk).
  unfold ev_of_period, dense_key_to_complex. rewrite nth_error_map, Hk. simpl.
  assert (cx_period cx = S period) by (subst cx; exact HP). rewrite H, Nat.eqb_refl, Ek, E2, Er.
  reflexivity.
Qed.

Lemma nth_error_result_all : forall A B (f : A -> result B) l xs i a,
  result_all (map f l) = Ok xs -> nth_error l i = Some a ->
  exists x, nth_error xs i = Some x /\ f a = Ok x.
Proof.
  intros A B f l xs i a H Hi. apply result_all_map_Ok in H.
  exact (Forall2_nth_l _ _ _ _ _ _ _ H Hi).
Qed.

Lemma law_period : forall c s, cs_period (law_of_motion c s) = S (cs_period s).
Proof. reflexivity. Qed.

Lemma positions_nth : forall m j c, nth_error (positions m) j = Some c -> nth_error m c = Some true.
Proof. intros m j c H. apply In_positions. eapply nth_error_In; eauto. Qed.

Lemma continuation_values_spec : forall A (zero : A) nperiods core csf grid ss
    (ev : list (list A)) k r s d ctx,
  NoDup core -> closed_under_choices nperiods core csf -> collision_free core csf grid ->
  create_state_space nperiods core csf grid = Ok ss -> ev_shape ss ev ->
  located ss k r s d -> dense_combination grid d ctx -> cs_period s < nperiods ->
  exists M row, get_continuation_values zero ss ev (cs_period s) k = Ok M /\
    nth_error M r = Some row /\ length row = count_true (csf ctx s) /\
    (S (cs_period s) = nperiods -> forall v, In v row -> v = zero) /\
    (S (cs_period s) < nperiods -> forall j c, nth_error (positions (csf ctx s)) j = Some c ->
       exists v, nth_error row j = Some v /\ value_at ss ev (law_of_motion c s) d v).
Proof.
  intros A zero nperiods core csf grid ss ev k r s d ctx ND CL CF C SH L Dc HP.
  pose proof (create_state_space_facts _ _ _ _ _ C) as F.
  destruct (located_facts _ _ _ _ _ _ _ _ _ CF F L) as
    [ctx' [cx [ck [inds [i [D' [Hk [Ecx [Gi [Hr Hi]]]]]]]]]].
  assert (ctx' = ctx) by (eapply dense_combination_fun; eauto). subst ctx'.
  assert (Hchild : exists ch, nth_error (ss_child ss) k = Some ch).
  { destruct (Forall2_nth_l _ _ _ _ _ _ _ (sf_child _ _ _ _ _ F) Hk) as [ch [H _]]. eauto. }
  destruct Hchild as [ch Hch].
  assert (Hinds : dense_key_to_core_indices ss k = Some inds).
  { unfold dense_key_to_core_indices, dense_key_to_core_key. rewrite nth_error_map, Hk. exact Gi. }
  assert (Htr : nth_error (ss_transit ss) k = Some (csf ctx s)).
  { rewrite (sf_transit _ _ _ _ _ F), nth_error_map, Hk. subst cx. reflexivity. }
  assert (Ecs : cx_choice_set cx = csf ctx s) by (subst cx; reflexivity).
  assert (Edn : cx_dense cx = d) by (subst cx; reflexivity).
  unfold get_continuation_values. rewrite Hk, Hinds, Htr, Hch, (sf_nperiods _ _ _ _ _ F).
  destruct (Nat.eqb (cs_period s) (nperiods - 1)) eqn:EP.
  - apply Nat.eqb_eq in EP. eexists. exists (repeat zero (count_true (csf ctx s))).
    split; [reflexivity|]. split.
    + rewrite nth_error_map, Hr. simpl. rewrite Ecs. reflexivity.
    + split; [apply repeat_length|]. split.
      * intros _ v Hv. apply repeat_spec in Hv. exact Hv.
      * intros; lia.
  - apply Nat.eqb_neq in EP.
    assert (HP' : S (cs_period s) < nperiods) by lia.
    (* every state of the group *)
    assert (Rows : forall i0, In i0 (seq 0 (length inds)) -> exists b,
      result_all (map (fun j => match nth_error ch i0 with
        | None => IndexError
        | Some row => match nth_error row j with
                      | None => IndexError
                      | Some x => continuation_value ss ev (cs_period s) (cx_dense cx) x
                      end end) (seq 0 (count_true (csf ctx s)))) = Ok b).
    { intros r0 Hr0. apply in_seq in Hr0. apply result_all_Ok_exists. intros j Hj.
      apply in_seq in Hj.
      destruct (nth_error inds r0) as [i0|] eqn:Ei0; [|apply nth_error_None in Ei0; lia].
      assert (Hi0 : exists s0, nth_error core i0 = Some s0).
      { destruct (group_members core csf ck inds) as [_ [_ Lr]].
        - rewrite <- (sf_groups _ _ _ _ _ F). exact Gi.
        - destruct (nth_error core i0) eqn:X; [eauto|]. apply nth_error_None in X.
          specialize (Lr i0 (nth_error_In _ _ Ei0)). lia. }
      destruct Hi0 as [s0 Hs0].
      assert (L0 : located ss k r0 s0 d).
      { exists cx, ck. split; [exact Hk|]. split; [exact Edn|]. exists inds, i0.
        rewrite (sf_core _ _ _ _ _ F). auto. }
      destruct (located_facts _ _ _ _ _ _ _ _ _ CF F L0) as
        [ctx0 [cx0 [ck0 [inds0 [i00 [D0 [Hk0 [Ecx0 _]]]]]]]].
      assert (ctx0 = ctx) by (eapply dense_combination_fun; eauto). subst ctx0.
      rewrite Hk in Hk0. injection Hk0 as <- <-.
      assert (Ep0 : cs_period s0 = cs_period s) by congruence.
      assert (Ecs0 : csf ctx s0 = csf ctx s) by congruence.
      destruct (nth_error (positions (csf ctx s0)) j) as [c|] eqn:Ec.
      2:{ apply nth_error_None in Ec. rewrite length_positions, Ecs0 in Ec. lia. }
      destruct (child_lookup _ _ _ _ _ _ _ _ _ _ _ _ ND CF F L0 Dc ltac:(lia) Ec) as
        [ch' [row [x [Hch' [Hrow [_ [Hx Mx]]]]]]].
      rewrite Hch in Hch'. injection Hch' as <-. rewrite Hrow, Hx, Edn.
      assert (Hin : In (law_of_motion c s0) core).
      { apply (CL ctx); [eapply nth_error_In; eauto|lia|]. eapply positions_nth; eauto. }
      destruct (value_at_exists _ _ _ _ _ _ ev _ _ _ CF F SH Hin Dc) as [v Hv].
      exists v. eapply continuation_value_spec; eauto. rewrite law_period. congruence. }
    destruct (result_all_Ok_exists _ _ _ _ Rows) as [M HM].
    assert (Hrs : nth_error (seq 0 (length inds)) r = Some r)
      by (apply nth_error_seq0; eapply nth_error_lt; eauto).
    destruct (nth_error_result_all _ _ _ _ _ _ _ HM Hrs) as [row [Hrow Erow]].
    exists M, row. split; [exact HM|]. split; [exact Hrow|]. split.
    { apply result_all_map_Ok, Forall2_length_eq in Erow. rewrite seq_length in Erow. auto. }
    split; [intros; lia|]. intros _ j c Hj.
    assert (Hjs : nth_error (seq 0 (count_true (csf ctx s))) j = Some j).
    { apply nth_error_seq0. apply nth_error_lt in Hj. rewrite length_positions in Hj. exact Hj. }
    destruct (nth_error_result_all _ _ _ _ _ _ _ Erow Hjs) as [v [Hv Ev]].
    exists v. split; [exact Hv|].
    destruct (child_lookup _ _ _ _ _ _ _ _ _ _ _ _ ND CF F L Dc HP' Hj) as
        [ch' [row' [x [Hch' [Hrow' [_ [Hx Mx]]]]]]].
    rewrite Hch in Hch'. injection Hch' as <-. rewrite Hrow', Hx, Edn in Ev.
    assert (Hin : In (law_of_motion c s) core).
    { apply (CL ctx); [eapply nth_error_In; eauto|lia|]. eapply positions_nth; eauto. }
    destruct (value_at_exists _ _ _ _ _ _ ev _ _ _ CF F SH Hin Dc) as [v' Hv'].
    rewrite (continuation_value_spec _ _ _ _ _ _ _ _ _ _ _ _ ND CF F Mx Dc (cs_period s) (law_period _ _) Hv') in Ev.
    injection Ev as <-. exact Hv'.
Qed.

(** Construction succeeds exactly for homogeneous models. *)
Lemma create_state_space_succeeds : forall nperiods core csf grid,
  NoDup core -> closed_under_choices nperiods core csf -> collision_free core csf grid ->
  homogeneous core csf grid -> exists ss, create_state_space nperiods core csf grid = Ok ss.
Proof.
  intros nperiods core csf grid ND CL CF HH.
  destruct (proj2 (homogeneous_iff core csf grid) HH) as [[dpc files] E].
  destruct (dpc_facts_all _ _ _ _ CF E) as [N En Fi]. simpl in *.
  unfold create_state_space. rewrite E. cbn [result_bind fst snd].
  assert (X : exists ch, result_all (map (fun p => child_indices_of nperiods
      (create_indexer core (core_key_to_core_indices core csf)) files (fst (fst p)) (snd p))
      (combine dpc (map (fun p => cx_choice_set (fst p)) dpc))) = Ok ch).
  { apply result_all_Ok_exists. intros [[cx ck] cs] Hin. simpl.
    assert (cs = cx_choice_set cx /\ In (cx, ck) dpc).
    { clear - Hin. induction dpc as [|p dpc IH]; simpl in Hin; [destruct Hin|].
      destruct Hin as [Hin|Hin]; [injection Hin as -> <-; simpl; auto|].
      destruct (IH Hin). simpl; auto. }
    destruct H as [-> I]. unfold child_indices_of.
    destruct (Nat.ltb (cx_period cx) (nperiods - 1)) eqn:T; [|eauto].
    apply Nat.ltb_lt in T. pose proof (proj1 (En cx ck) I) as [ctx [inds [Dc [Gi A]]]].
    destruct (Fi cx ck inds I Gi) as [ctx' [_ Hf]]. rewrite Hf. simpl.
    unfold collect_child_indices. apply result_all_Ok_exists. intros s Hs.
    destruct (group_members core csf ck inds Gi) as [_ [_ Lr]].
    apply In_nth_error in Hs. destruct Hs as [r Hr]. rewrite nth_error_rows in Hr by exact Lr.
    destruct (nth_error inds r) as [i|] eqn:Ei; [|discriminate].
    destruct (A i s (nth_error_In _ _ Ei) Hr) as [P C]. rewrite <- C.
    assert (Y : forall c, In c (positions (csf ctx s)) -> exists x, dict_get core_state_eq_dec
       (law_of_motion c s) (create_indexer core (core_key_to_core_indices core csf)) = Some x).
    { intros c Hc. apply In_positions in Hc.
      assert (Hin2 : In (law_of_motion c s) core)
        by (apply (CL ctx); [eapply nth_error_In; eauto|lia|exact Hc]).
      destruct (member_exists core csf _ Hin2) as [k' [r' M]]. exists (k', r').
      apply indexer_spec; auto. }
    revert Y. generalize (positions (csf ctx s)). induction l as [|c l IH]; intros Y;
      cbn [map map_states]; [eauto|].
    destruct (Y c (or_introl eq_refl)) as [x Hx]. rewrite Hx.
    destruct IH as [b Hb]; [intros; apply Y; simpl; auto|]. rewrite Hb. simpl. eauto. }
  destruct X as [ch Hch]. rewrite Hch. simpl. eauto.
Qed.

(** ** Combination with the core state space *)
Lemma model_closed : forall sp neg k,
  wf_spec sp -> sp_nlags sp <= 1 -> sp_filters sp = [] ->
  closed_under_choices (sp_nperiods sp) (create_core_state_space sp)
    (choice_set_of sp (process sp (S k) neg)).
Proof.
  intros sp neg k W L Fi ctx s c Hs HP Hc. eapply child_in_core; eauto.
Qed.

Lemma located_total : forall nperiods core csf grid ss s d ctx,
  NoDup core -> collision_free core csf grid ->
  create_state_space nperiods core csf grid = Ok ss ->
  In s core -> dense_combination grid d ctx ->
  exists! kr, located ss (fst kr) (snd kr) s d.
Proof.
  intros nperiods core csf grid ss s d ctx ND CF C Hs Hd.
  pose proof (create_state_space_facts _ _ _ _ _ C) as F.
  destruct (located_exists _ _ _ _ _ _ _ _ CF F Hs Hd) as [k [r L]].
  exists (k, r). split; [exact L|]. intros [k' r'] L'. simpl in L'.
  destruct (located_unique _ _ _ _ _ _ _ _ _ _ _ ND CF F L L'). congruence.
Qed.

Lemma located_describes : forall nperiods core csf grid ss k r s d,
  collision_free core csf grid ->
  create_state_space nperiods core csf grid = Ok ss -> located ss k r s d ->
  exists ctx, dense_combination grid d ctx /\ In s core /\
    dense_key_to_complex ss k = Some (cs_period s, csf ctx s, d).
Proof.
  intros nperiods core csf grid ss k r s d CF C L.
  pose proof (create_state_space_facts _ _ _ _ _ C) as F.
  destruct (located_facts _ _ _ _ _ _ _ _ _ CF F L) as
    [ctx [cx [ck [inds [i [D' [Hk [Ecx [Gi [Hr Hi]]]]]]]]]].
  exists ctx. split; [exact D'|]. split; [eapply nth_error_In; eauto|].
  unfold dense_key_to_complex. rewrite nth_error_map, Hk. subst cx. reflexivity.
Qed.

(** Every row of every dense key belongs to a state: no key is empty or invented. *)
Lemma keys_inhabited : forall nperiods core csf grid ss k,
  collision_free core csf grid ->
  create_state_space nperiods core csf grid = Ok ss -> k < length (ss_dpc ss) ->
  exists inds, dense_key_to_core_indices ss k = Some inds /\ inds <> [] /\
    forall r, r < length inds -> exists s d, located ss k r s d.
Proof.
  intros nperiods core csf grid ss k CF C Hk.
  pose proof (create_state_space_facts _ _ _ _ _ C) as F.
  destruct (dpc_facts_all _ _ _ _ CF (sf_dpc _ _ _ _ _ F)) as [N E _]. simpl in *.
  destruct (nth_error (ss_dpc ss) k) as [[cx ck]|] eqn:Ek; [|apply nth_error_None in Ek; lia].
  pose proof (nth_error_In _ _ Ek) as I. apply E in I. destruct I as [ctx [inds [Dc [Gi A]]]].
  destruct (group_members core csf ck inds Gi) as [_ [Ne Lr]].
  exists inds. split.
  - unfold dense_key_to_core_indices, dense_key_to_core_key. rewrite nth_error_map, Ek. simpl.
    rewrite (sf_groups _ _ _ _ _ F). exact Gi.
  - split; [exact Ne|]. intros r Hr.
    destruct (nth_error inds r) as [i|] eqn:Ei; [|apply nth_error_None in Ei; lia].
    destruct (nth_error core i) as [s|] eqn:Es.
    2:{ apply nth_error_None in Es. specialize (Lr i (nth_error_In _ _ Ei)). lia. }
    exists s, (cx_dense cx), cx, ck. split; [exact Ek|]. split; [reflexivity|].
    exists inds, i. rewrite (sf_core _ _ _ _ _ F), (sf_groups _ _ _ _ _ F). auto.
Qed.

Lemma core_restrictions_ok : forall nperiods core csf grid,
  NoDup core -> closed_under_choices nperiods core csf ->
  (forall ctx s, csf ctx s = csf None s) ->
  collision_free core csf grid /\ homogeneous core csf grid /\
  exists ss, create_state_space nperiods core csf grid = Ok ss.
Proof.
  intros nperiods core csf grid ND CL H.
  assert (CF : collision_free core csf grid).
  { intros vec s1 s2 _ _ _ _ E. rewrite (H (Some vec) s1), (H (Some vec) s2) in E. exact E. }
  assert (HH : homogeneous core csf grid).
  { intros vec s1 s2 _ _ _ _ E. rewrite (H (Some vec) s1), (H (Some vec) s2). exact E. }
  split; [exact CF|]. split; [exact HH|]. apply create_state_space_succeeds; auto.
Qed.

Lemma groups_partition : forall core csf i s, nth_error core i = Some s ->
  (exists! n, exists inds, nth_error (core_key_to_core_indices core csf) n = Some inds /\
                           In i inds) /\
  (forall n inds j s', nth_error (core_key_to_core_indices core csf) n = Some inds ->
     In i inds -> nth_error core j = Some s' ->
     (In j inds <-> cs_period s = cs_period s' /\ csf None s = csf None s')).
Proof.
  intros core csf i s H. split; [eapply group_exists_unique; eauto|].
  intros. eapply same_group_iff; eauto.
Qed.

Lemma indexer_bijection : forall core csf, NoDup core ->
  let groups := core_key_to_core_indices core csf in
  let look s := dict_get core_state_eq_dec s (create_indexer core groups) in
  (forall s, In s core <-> exists x, look s = Some x) /\
  (forall s k r, look s = Some (k, r) <-> member core groups k r s) /\
  (forall s1 s2 x, look s1 = Some x -> look s2 = Some x -> s1 = s2) /\
  (forall k r inds, nth_error groups k = Some inds -> r < length inds ->
     exists s, In s core /\ look s = Some (k, r)).
Proof.
  intros core csf ND groups look.
  assert (S : forall s k r, look s = Some (k, r) <-> member core groups k r s)
    by (intros; apply indexer_spec; exact ND).
  split; [|split; [exact S|split]].
  - intros s. split.
    + intros H. destruct (member_exists core csf s H) as [k [r M]]. exists (k, r). apply S. exact M.
    + intros [[k r] H]. apply S in H. destruct H as [inds [i [_ [_ H]]]]. eapply nth_error_In; eauto.
  - intros s1 s2 [k r] H1 H2. apply S in H1. apply S in H2. eapply member_functional; eauto.
  - intros k r inds G Hr. destruct (nth_error inds r) as [i|] eqn:Ei; [|apply nth_error_None in Ei; lia].
    destruct (group_members core csf k inds G) as [_ [_ Lr]].
    destruct (nth_error core i) as [s|] eqn:Es.
    2:{ apply nth_error_None in Es. specialize (Lr i (nth_error_In _ _ Ei)). lia. }
    exists s. split; [eapply nth_error_In; eauto|]. apply S. exists inds, i. auto.
Qed.

(** Decision of [exists k r, located ss k r s d] for concrete state spaces. *)
Definition has_location (ss : state_space) (s : core_state) (d : option nat) : bool :=
  existsb (fun p =>
    (match cx_dense (fst p), d with
     | Some a, Some b => Nat.eqb a b | None, None => true | _, _ => false end) &&
    existsb (fun s' => if core_state_eq_dec s s' then true else false)
            (rows (ss_core ss) (nth (snd p) (ss_groups ss) [])))
    (ss_dpc ss).

Lemma located_has_location : forall ss k r s d, located ss k r s d -> has_location ss s d = true.
Proof.
  intros ss k r s d [cx [ck [H [D [inds [i [G [Hr Hi]]]]]]]]. unfold has_location.
  apply existsb_exists. exists (cx, ck). split; [eapply nth_error_In; eauto|]. simpl.
  rewrite D. apply andb_true_iff. split; [destruct d; [apply Nat.eqb_refl|reflexivity]|].
  apply existsb_exists. exists s. split.
  - unfold rows. apply in_flat_map. exists i. rewrite (nth_error_nth _ _ _ G).
    split; [eapply nth_error_In; eauto|]. rewrite Hi. left. reflexivity.
  - destruct (core_state_eq_dec s s); congruence.
Qed.
