(** Proofs about the core state space. *)
From Coq Require Import List Arith Bool Lia Permutation Sorted.
From Verif Require Import Base Proof_Base Model_CoreStateSpace Spec_CoreStateSpace.
Import ListNotations.

Lemma list_sum_app_nat : forall l1 l2, list_sum (l1 ++ l2) = list_sum l1 + list_sum l2.
Proof. induction l1; intros; simpl; [reflexivity|]. rewrite IHl1. lia. Qed.
Lemma list_sum_repeat0 : forall n, list_sum (repeat 0 n) = 0.
Proof. induction n; simpl; auto. Qed.

Lemma Forall2_repeat0_le : forall m, Forall2 le (repeat 0 (length m)) m.
Proof. induction m; simpl; constructor; auto. lia. Qed.

Lemma In_per_period : forall t rest done e,
  list_sum done <= t ->
  In e (per_period t done rest) <->
  exists g, e = done ++ g /\ Forall2 le g rest /\ list_sum done + list_sum g <= t.
Proof.
  induction rest as [|m rest IH]; intros done e Hd.
  - simpl. rewrite app_nil_r. split.
    + intros [<-|[]]. exists []. rewrite app_nil_r. simpl. repeat split; [constructor|lia].
    + intros [g [-> [H _]]]. inversion H; subst. rewrite app_nil_r. left. reflexivity.
  - cbn [per_period In]. rewrite in_flat_map. split.
    + intros [<-|[i [Hi H]]].
      * exists (repeat 0 (S (length rest))). repeat split.
        -- apply (Forall2_repeat0_le (m :: rest)).
        -- rewrite list_sum_repeat0. lia.
      * apply in_seq in Hi. apply IH in H.
        -- destruct H as [g [-> [H1 H2]]]. exists (i :: g). rewrite <- app_assoc. split; [reflexivity|].
           rewrite list_sum_app_nat in H2. simpl in *. split; [constructor; [lia|assumption]|lia].
        -- rewrite list_sum_app_nat. simpl. lia.
    + intros [g [-> [H1 H2]]]. inversion H1 as [|i m' g' rest' Hi Hg]; subst. simpl in H2.
      right. exists i. split; [apply in_seq; lia|].
      apply IH.
      * rewrite list_sum_app_nat. simpl. lia.
      * exists g'. rewrite <- app_assoc. split; [reflexivity|]. split; [assumption|].
        rewrite list_sum_app_nat. simpl. lia.
Qed.

Lemma In_core_from_choice_experiences : forall sp s,
  In s (core_from_choice_experiences sp) <->
  cs_period s < sp_nperiods sp /\ cs_lag s = [] /\
  Forall2 le (cs_exp s) (additional_exp sp) /\ list_sum (cs_exp s) <= cs_period s.
Proof.
  intros sp s. unfold core_from_choice_experiences. rewrite in_flat_map. split.
  - intros [t [Ht H]]. apply in_seq in Ht. apply in_map_iff in H. destruct H as [e [<- He]].
    apply In_per_period in He; [|simpl; lia]. destruct He as [g [-> [H1 H2]]]. simpl in *.
    repeat split; auto; lia.
  - destruct s as [t e l]. simpl. intros [H1 [-> [H2 H3]]]. exists t. split; [apply in_seq; lia|].
    apply in_map_iff. exists e. split; [reflexivity|]. apply In_per_period; [simpl; lia|].
    exists e. simpl. auto.
Qed.

Lemma length_single_lag : forall n lag c, length (single_lag n lag c) = n.
Proof. intros. unfold single_lag. rewrite map_length, seq_length. reflexivity. Qed.

Lemma In_add_lagged_choice : forall nlags n df s,
  In s (add_lagged_choice nlags n df) <->
  match nlags with
  | 0 => In s df
  | _ => exists s0 lag c, In s0 df /\ 1 <= lag <= nlags /\ c < n /\
           s = mkState (cs_period s0) (cs_exp s0) (single_lag nlags lag c)
  end.
Proof.
  intros [|k] n df s; [reflexivity|]. unfold add_lagged_choice. rewrite in_flat_map. split.
  - intros [lag [Hl H]]. apply in_flat_map in H. destruct H as [c [Hc H]].
    apply in_map_iff in H. destruct H as [s0 [<- H]]. apply in_seq in Hl. apply in_seq in Hc.
    exists s0, lag, c. repeat split; auto; lia.
  - intros [s0 [lag [c [H [Hl [Hc ->]]]]]]. exists lag. split; [apply in_seq; lia|].
    apply in_flat_map. exists c. split; [apply in_seq; lia|]. apply in_map_iff.
    exists s0. auto.
Qed.

Lemma In_filter_core : forall fs df s,
  In s (filter_core fs df) <-> In s df /\ forall f, In f fs -> f s = false.
Proof.
  induction fs as [|f fs IH]; intros df s; simpl.
  - intuition.
  - rewrite IH, filter_In, negb_true_iff. split.
    + intros [[H1 H2] H3]. split; [assumption|]. intros g [<-|Hg]; auto.
    + intros [H1 H2]. repeat split; auto.
Qed.

Lemma add_exp_vec_add : forall a b, add_exp a b = vec_add a b.
Proof.
  unfold vec_add. induction a as [|x a IH]; intros [|y b]; simpl; auto.
  rewrite IH. reflexivity.
Qed.

Lemma vec_add_comm : forall a b, vec_add a b = vec_add b a.
Proof.
  unfold vec_add. induction a as [|x a IH]; intros [|y b]; simpl; auto.
  rewrite IH. f_equal. lia.
Qed.

Lemma length_vec_add : forall a b, length a = length b -> length (vec_add a b) = length a.
Proof. intros. unfold vec_add. rewrite map_length, combine_length. lia. Qed.

Lemma all_le_spec : forall a m, length a = length m ->
  all_le a m = true <-> Forall2 le a m.
Proof.
  induction a as [|x a IH]; intros [|y m] H; simpl in *; try discriminate.
  - split; intros; [constructor|reflexivity].
  - rewrite andb_true_iff, Nat.leb_le, IH by lia. split.
    + intros [? ?]. constructor; auto.
    + intros H1. inversion H1; auto.
Qed.

Lemma fold_left_min_le : forall l a,
  fold_left Nat.min l a <= a /\ (forall x, In x l -> fold_left Nat.min l a <= x) /\
  (fold_left Nat.min l a = a \/ In (fold_left Nat.min l a) l).
Proof.
  induction l as [|y l IH]; intros a; simpl.
  - repeat split; [lia|tauto|auto].
  - destruct (IH (Nat.min a y)) as [H1 [H2 H3]]. repeat split.
    + lia.
    + intros x [<-|Hx]; [lia|auto].
    + destruct H3 as [H3|H3]; [|auto]. rewrite H3.
      destruct (Nat.min_spec a y) as [[_ E]|[_ E]]; rewrite E; auto.
Qed.

Lemma list_min_le : forall l x, In x l -> list_min l <= x.
Proof.
  intros [|y l] x; simpl; [tauto|]. destruct (fold_left_min_le l y) as [H1 [H2 _]].
  intros [<-|H]; auto.
Qed.
Lemma list_min_In : forall l, l <> [] -> In (list_min l) l.
Proof.
  intros [|y l] H; [congruence|]. simpl. destruct (fold_left_min_le l y) as [_ [_ [E|E]]].
  - left. auto.
  - right. exact E.
Qed.

Lemma fold_left_max_ge : forall l a,
  a <= fold_left Nat.max l a /\ (forall x, In x l -> x <= fold_left Nat.max l a) /\
  (fold_left Nat.max l a = a \/ In (fold_left Nat.max l a) l).
Proof.
  induction l as [|y l IH]; intros a; simpl.
  - repeat split; [lia|tauto|auto].
  - destruct (IH (Nat.max a y)) as [H1 [H2 H3]]. repeat split.
    + lia.
    + intros x [<-|Hx]; [lia|auto].
    + destruct H3 as [H3|H3]; [|auto]. rewrite H3.
      destruct (Nat.max_spec a y) as [[_ E]|[_ E]]; rewrite E; auto.
Qed.
Lemma list_max_nat_ge : forall l x, In x l -> x <= list_max_nat l.
Proof.
  intros [|y l] x; simpl; [tauto|]. destruct (fold_left_max_ge l y) as [H1 [H2 _]].
  intros [<-|H]; auto.
Qed.
Lemma list_max_nat_In : forall l, l <> [] -> In (list_max_nat l) l.
Proof.
  intros [|y l] H; [congruence|]. simpl. destruct (fold_left_max_ge l y) as [_ [_ [E|E]]].
  - left. auto.
  - right. exact E.
Qed.

Lemma uint8_sub_exact : forall a b, b <= a -> a < 256 -> uint8_sub a b = a - b.
Proof.
  intros a b H1 H2. unfold uint8_sub. rewrite (Nat.mod_small a), (Nat.mod_small b) by lia.
  replace (a + 256 - b) with ((a - b) + 1 * 256) by lia.
  rewrite Nat.mod_add by lia. apply Nat.mod_small. lia.
Qed.

Lemma Forall2_length_eq : forall A B (P : A -> B -> Prop) l1 l2,
  Forall2 P l1 l2 -> length l1 = length l2.
Proof. induction 1; simpl; auto. Qed.

Lemma gain_le_additional : forall starts maxs init gain,
  (forall l x, In l starts -> In x l -> x < 256) ->
  (forall m, In m maxs -> m < 256) ->
  Forall2 (fun x levels => In x levels) init starts ->
  length gain = length starts ->
  Forall2 le (vec_add init gain) maxs ->
  Forall2 le gain (map (fun p => uint8_sub (snd p) (list_min (fst p))) (combine starts maxs)).
Proof.
  induction starts as [|l starts IH]; intros maxs init gain H1 H2 HI HL HM.
  - destruct gain; [|discriminate]. simpl. constructor.
  - inversion HI as [|x ? init' ? Hx HI']; subst. destruct gain as [|g gain]; [discriminate|].
    unfold vec_add in HM. simpl in HM. inversion HM as [|? m ? maxs' Hm HM']; subst. simpl.
    constructor.
    + assert (list_min l <= x) by (apply list_min_le; assumption).
      assert (m < 256) by (apply H2; left; reflexivity).
      rewrite uint8_sub_exact by lia. lia.
    + apply IH with init'; auto.
      * intros l' x' Hl'. apply H1. right. assumption.
      * intros m' Hm'. apply H2. right. assumption.
Qed.

Lemma In_add_initial : forall sp df s,
  (forall s0, In s0 df -> length (cs_exp s0) = length (sp_starts sp)) ->
  length (sp_starts sp) = length (sp_max sp) ->
  In s (add_initial_experiences sp df) <->
  exists s0 init, In s0 df /\ Forall2 (fun x levels => In x levels) init (sp_starts sp) /\
    s = mkState (cs_period s0) (vec_add init (cs_exp s0)) (cs_lag s0) /\
    Forall2 le (vec_add init (cs_exp s0)) (sp_max sp).
Proof.
  intros sp df s Hlen Hwf. unfold add_initial_experiences.
  rewrite In_drop_duplicates, in_flat_map. split.
  - intros [init [Hi H]]. apply filter_In in H. destruct H as [H1 H2].
    apply in_map_iff in H1. destruct H1 as [s0 [<- H1]]. simpl in H2.
    rewrite In_product in Hi. exists s0, init.
    rewrite add_exp_vec_add, vec_add_comm in *. repeat split; auto.
    apply all_le_spec; [|assumption].
    rewrite length_vec_add.
    + rewrite (Forall2_length_eq _ _ _ _ _ Hi). exact Hwf.
    + rewrite (Forall2_length_eq _ _ _ _ _ Hi), Hlen; auto.
  - intros [s0 [init [H1 [H2 [-> H3]]]]]. exists init. split; [apply In_product; assumption|].
    apply filter_In. split.
    + apply in_map_iff. exists s0. rewrite add_exp_vec_add, vec_add_comm. auto.
    + simpl. apply all_le_spec; [|assumption]. apply (Forall2_length_eq _ _ _ _ _ H3).
Qed.

(** General membership, for any number of lags. *)
Lemma In_core_general : forall sp s,
  wf_spec sp ->
  In s (create_core_state_space sp) <->
  cs_period s < sp_nperiods sp /\
  match sp_nlags sp with
  | 0 => cs_lag s = []
  | _ => exists lag c, 1 <= lag <= sp_nlags sp /\ c < sp_nchoices sp /\
           cs_lag s = single_lag (sp_nlags sp) lag c
  end /\
  exists init gain,
    Forall2 (fun x levels => In x levels) init (sp_starts sp) /\
    length gain = length (sp_starts sp) /\
    list_sum gain <= cs_period s /\
    cs_exp s = vec_add init gain /\
    Forall2 le (cs_exp s) (sp_max sp) /\
    (forall f, In f (sp_filters sp) -> f (mkState (cs_period s) gain (cs_lag s)) = false).
Proof.
  intros sp s [W1 [W2 [W3 [W4 W5]]]]. unfold create_core_state_space, sort_period.
  rewrite In_isort.
  assert (Hadd : length (additional_exp sp) = length (sp_starts sp)).
  { unfold additional_exp. rewrite map_length, combine_length. lia. }
  rewrite In_add_initial; [|..|exact W1].
  2:{ intros s0 H0. apply In_filter_core in H0. destruct H0 as [H0 _].
      apply In_add_lagged_choice in H0. rewrite <- Hadd. destruct (sp_nlags sp).
      - apply In_core_from_choice_experiences in H0. destruct H0 as [_ [_ [H0 _]]].
        apply (Forall2_length_eq _ _ _ _ _ H0).
      - destruct H0 as [s1 [lag [c [H0 [_ [_ ->]]]]]]. simpl.
        apply In_core_from_choice_experiences in H0. destruct H0 as [_ [_ [H0 _]]].
        apply (Forall2_length_eq _ _ _ _ _ H0). }
  split.
  - intros [s0 [init [H0 [Hi [-> Hm]]]]]. apply In_filter_core in H0. destruct H0 as [H0 Hf].
    apply In_add_lagged_choice in H0. simpl. destruct (sp_nlags sp) as [|nl] eqn:El.
    + apply In_core_from_choice_experiences in H0. destruct H0 as [P1 [P2 [P3 P4]]].
      repeat split; auto. exists init, (cs_exp s0). repeat split; auto.
      * rewrite <- Hadd. apply (Forall2_length_eq _ _ _ _ _ P3).
      * intros f Hin. specialize (Hf f Hin). destruct s0. exact Hf.
    + destruct H0 as [s1 [lag [c [H0 [Hl [Hc ->]]]]]]. simpl in *.
      apply In_core_from_choice_experiences in H0. destruct H0 as [P1 [P2 [P3 P4]]].
      repeat split; auto.
      * exists lag, c. auto.
      * exists init, (cs_exp s1). repeat split; auto.
        rewrite <- Hadd. apply (Forall2_length_eq _ _ _ _ _ P3).
  - intros [Hp [Hlag [init [gain [Hi [Hg [Hs [He [Hm Hf]]]]]]]]].
    rewrite He in Hm.
    assert (Hga : Forall2 le gain (additional_exp sp)).
    { unfold additional_exp. apply gain_le_additional with init; auto. }
    exists (mkState (cs_period s) gain (cs_lag s)), init. simpl. repeat split; auto.
    2:{ destruct s; simpl in *. congruence. }
    apply In_filter_core. split; [|exact Hf].
    apply In_add_lagged_choice. destruct (sp_nlags sp) as [|nl] eqn:El.
    + apply In_core_from_choice_experiences. simpl. auto.
    + destruct Hlag as [lag [c [Hl [Hc Hlag]]]].
      exists (mkState (cs_period s) gain []), lag, c. simpl. rewrite Hlag. repeat split; auto; try lia.
      apply In_core_from_choice_experiences. simpl. auto.
Qed.

Lemma complete_lags_0 : forall n l, complete_lags 0 n l <-> l = [].
Proof.
  intros n l. unfold complete_lags. split.
  - intros [H _]. destruct l; [reflexivity|discriminate].
  - intros ->. split; [reflexivity|]. intros x [].
Qed.
Lemma complete_lags_1 : forall n l, complete_lags 1 n l <->
  exists lag c, 1 <= lag <= 1 /\ c < n /\ l = single_lag 1 lag c.
Proof.
  intros n l. unfold complete_lags. split.
  - intros [H1 H2]. destruct l as [|x [|y l]]; try discriminate.
    destruct (H2 x (or_introl eq_refl)) as [c [-> Hc]]. exists 1, c. repeat split; auto.
  - intros [lag [c [Hl [Hc ->]]]]. assert (lag = 1) by lia. subst. split; [reflexivity|].
    intros x [<-|[]]. exists c. auto.
Qed.

Lemma core_exact : forall sp s, wf_spec sp -> sp_nlags sp <= 1 ->
  In s (create_core_state_space sp) <-> feasible sp s.
Proof.
  intros sp s W L. rewrite In_core_general by assumption. unfold feasible.
  destruct (sp_nlags sp) as [|[|k]] eqn:E; [| |lia].
  - rewrite complete_lags_0. reflexivity.
  - rewrite complete_lags_1. reflexivity.
Qed.

Lemma core_nodup : forall sp, NoDup (create_core_state_space sp).
Proof.
  intros sp. unfold create_core_state_space, sort_period. apply NoDup_isort.
  unfold add_initial_experiences. apply NoDup_drop_duplicates.
Qed.

Lemma core_sorted : forall sp,
  StronglySorted (fun a b => cs_period a <= cs_period b) (create_core_state_space sp).
Proof.
  intros sp. unfold create_core_state_space, sort_period.
  match goal with |- StronglySorted _ (isort ?leb ?l) =>
    assert (H : StronglySorted (fun a b => leb a b = true) (isort leb l)) end.
  { apply Sorted_isort.
    - intros x y. rewrite !Nat.leb_le. lia.
    - intros x y z. rewrite !Nat.leb_le. lia. }
  induction H as [|a l H IH Hf]; constructor; auto.
  eapply Forall_impl; [|exact Hf]. intros b Hb. apply Nat.leb_le in Hb. exact Hb.
Qed.

(** ** Several lags *)
Lemma single_lag_count : forall n a lag (c : nat), a <= lag < a + n ->
  length (filter (fun x => match x with Some _ => true | None => false end)
    (map (fun l => if Nat.eqb l lag then Some c else None) (seq a n))) = 1.
Proof.
  induction n as [|n IH]; intros a lag c H; [lia|]. simpl.
  destruct (Nat.eqb_spec a lag) as [->|Hne].
  - simpl. f_equal. assert (G : forall k b, lag < b ->
      filter (fun x : option nat => match x with Some _ => true | None => false end)
        (map (fun l => if Nat.eqb l lag then Some c else None) (seq b k)) = []).
    { induction k as [|k IHk]; intros b Hb; simpl; [reflexivity|].
      destruct (Nat.eqb_spec b lag); [lia|]. apply IHk. lia. }
    rewrite G by lia. reflexivity.
  - apply IH. lia.
Qed.

Lemma multi_lag_incomplete : forall sp s, wf_spec sp -> 1 <= sp_nlags sp ->
  In s (create_core_state_space sp) ->
  length (cs_lag s) = sp_nlags sp /\
  length (filter (fun x => match x with Some _ => true | None => false end) (cs_lag s)) = 1.
Proof.
  intros sp s W L H. apply In_core_general in H; [|assumption]. destruct H as [_ [H _]].
  destruct (sp_nlags sp) as [|nl] eqn:E; [lia|]. destruct H as [lag [c [Hl [Hc ->]]]].
  rewrite length_single_lag. split; [reflexivity|]. unfold single_lag.
  apply single_lag_count. lia.
Qed.

Lemma multi_lag_none_complete : forall sp s, wf_spec sp -> 2 <= sp_nlags sp ->
  complete_lags (sp_nlags sp) (sp_nchoices sp) (cs_lag s) ->
  ~ In s (create_core_state_space sp).
Proof.
  intros sp s W L [C1 C2] H. apply multi_lag_incomplete in H; [|assumption|lia].
  destruct H as [_ H].
  assert (E : filter (fun x : option nat => match x with Some _ => true | None => false end)
                (cs_lag s) = cs_lag s).
  { clear - C2. induction (cs_lag s) as [|x l IH]; simpl; [reflexivity|].
    destruct (C2 x (or_introl eq_refl)) as [c [-> _]]. f_equal. apply IH.
    intros y Hy. apply C2. right. exact Hy. }
  rewrite E, C1 in H. lia.
Qed.

(** ** Admissibility *)
Lemma inadmissible_fold : forall fs (ctx : option (list nat)) s b,
  fold_left (fun acc (f : formula) => match f ctx with Some g => acc || g s | None => acc end) fs b
  = true <-> b = true \/ exists f g, In f fs /\ f ctx = Some g /\ g s = true.
Proof.
  induction fs as [|f fs IH]; intros ctx s b; simpl.
  - split; [auto|]. intros [H|[f [g [[] _]]]]. exact H.
  - rewrite IH. destruct (f ctx) as [g|] eqn:E.
    + rewrite orb_true_iff. split.
      * intros [[H|H]|[f' [g' [H1 [H2 H3]]]]]; [auto| |].
        -- right. exists f, g. auto.
        -- right. exists f', g'. auto.
      * intros [H|[f' [g' [[<-|H1] [H2 H3]]]]]; [auto| |].
        -- left. right. congruence.
        -- right. exists f', g'. auto.
    + split.
      * intros [H|[f' [g' [H1 [H2 H3]]]]]; [auto|]. right. exists f', g'. auto.
      * intros [H|[f' [g' [[<-|H1] [H2 H3]]]]]; [auto|congruence|].
        right. exists f', g'. auto.
Qed.

Lemma is_inadmissible_spec : forall neg ctx s c,
  is_inadmissible neg ctx s c = true <-> excluded_by_user neg ctx s c.
Proof.
  intros neg ctx s c. unfold is_inadmissible, excluded_by_user. destruct (neg c) as [fs|].
  - rewrite inadmissible_fold. split.
    + intros [H|[f [g [H1 H2]]]]; [discriminate|]. exists fs, f, g. tauto.
    + intros [fs' [f [g [E [H1 H2]]]]]. inversion E; subst. right. exists f, g. tauto.
  - split; [discriminate|]. intros [fs [f [g [E _]]]]. discriminate.
Qed.

Lemma nth_error_seq0 : forall n i, i < n -> nth_error (seq 0 n) i = Some i.
Proof.
  intros n i H. rewrite (nth_error_nth' _ 0) by (rewrite seq_length; exact H).
  rewrite seq_nth by exact H. reflexivity.
Qed.

Lemma choice_set_nth : forall sp neg ctx s c,
  nth_error (choice_set_of sp neg ctx s) c =
  if c <? sp_nchoices sp then Some (negb (is_inadmissible neg ctx s c)) else None.
Proof.
  intros. unfold choice_set_of. rewrite nth_error_map.
  destruct (Nat.ltb_spec c (sp_nchoices sp)) as [H|H].
  - rewrite nth_error_seq0 by exact H. reflexivity.
  - rewrite (proj2 (nth_error_None _ _)); [reflexivity|]. rewrite seq_length. exact H.
Qed.

Lemma choice_set_available : forall sp neg ctx s c,
  nth_error (choice_set_of sp neg ctx s) c = Some true <->
  c < sp_nchoices sp /\ ~ excluded_by_user neg ctx s c.
Proof.
  intros. rewrite choice_set_nth, <- is_inadmissible_spec.
  destruct (Nat.ltb_spec c (sp_nchoices sp)) as [H|H].
  - destruct (is_inadmissible neg ctx s c); simpl; intuition congruence.
  - split; [discriminate|]. lia.
Qed.

Lemma default_formula_spec : forall sp ctx s c, wf_spec sp ->
  c < length (sp_starts sp) ->
  (exists g, default_formula sp c ctx = Some g /\ g s = true) <-> exhausted sp s c.
Proof.
  intros sp ctx s c [W1 [_ [W3 _]]] Hc. unfold default_formula, exhausted.
  assert (Hs : nth_error (sp_starts sp) c = Some (nth c (sp_starts sp) []))
    by (apply nth_error_nth'; exact Hc).
  assert (Hm : nth_error (sp_max sp) c = Some (nth c (sp_max sp) 0))
    by (apply nth_error_nth'; lia).
  set (levels := nth c (sp_starts sp) []) in *. set (m := nth c (sp_max sp) 0) in *.
  assert (Hne : levels <> []) by (apply W3, (nth_In _ _ Hc)).
  destruct (Nat.ltb_spec m (sp_nperiods sp - 1 + list_max_nat levels)) as [Hlt|Hge].
  - unfold formula_exp_eq. split.
    + intros [g [E H]]. inversion E; subst g. destruct (nth_error (cs_exp s) c) as [e|]; [|discriminate].
      apply Nat.eqb_eq in H. exists e, m, levels. repeat split; auto.
      exists (list_max_nat levels). split; [apply list_max_nat_In; assumption|assumption].
    + intros [e [m' [l' [H1 [H2 [H3 [H4 _]]]]]]]. eexists. split; [reflexivity|].
      cbv beta. rewrite H1. rewrite Hm in H2. inversion H2; subst. apply Nat.eqb_refl.
  - unfold formula_false. split.
    + intros [g [E H]]. inversion E; subst g. discriminate.
    + intros [e [m' [l' [H1 [H2 [H3 [H4 [x [Hx Hlt]]]]]]]]].
      rewrite Hm in H2. rewrite Hs in H3. inversion H2; inversion H3; subst m' l'.
      apply list_max_nat_ge in Hx. lia.
Qed.

Lemma nth_error_lt : forall A (l : list A) i x, nth_error l i = Some x -> i < length l.
Proof. intros A l i x H. apply nth_error_Some. congruence. Qed.

Lemma excluded_add_default : forall sp neg ctx s c, wf_spec sp ->
  excluded_by_user (add_default_is_inadmissible sp neg) ctx s c <->
  excluded_by_user neg ctx s c \/ exhausted sp s c.
Proof.
  intros sp neg ctx s c W. unfold excluded_by_user at 1. unfold add_default_is_inadmissible.
  destruct (Nat.ltb_spec c (length (sp_starts sp))) as [Hc|Hc].
  - rewrite <- (default_formula_spec sp ctx s c W Hc). split.
    + intros [fs [f [g [E [H1 [H2 H3]]]]]]. inversion E; subst fs. apply in_app_iff in H1.
      destruct H1 as [H1|[<-|[]]].
      * left. destruct (neg c) as [l|] eqn:El; [|destruct H1]. exists l, f, g. auto.
      * right. exists g. auto.
    + intros [[fs [f [g [E [H1 [H2 H3]]]]]]|[g [H1 H2]]].
      * rewrite E. eexists _, f, g. split; [reflexivity|]. rewrite in_app_iff. auto.
      * eexists _, (default_formula sp c), g. split; [reflexivity|]. rewrite in_app_iff. simpl. auto.
  - assert (Hno : ~ exhausted sp s c).
    { intros [e [m [l [_ [_ [H _]]]]]]. apply nth_error_lt in H. lia. }
    unfold excluded_by_user. split.
    + intros [fs [f [g [E [H1 [H2 H3]]]]]]. inversion E; subst fs.
      destruct (neg c) as [l|] eqn:El.
      * left. exists l, f, g. auto.
      * destruct H1 as [<-|[]]. unfold formula_false in H2. inversion H2; subst. discriminate.
    + intros [[fs [f [g [E [H1 [H2 H3]]]]]]|H]; [|tauto]. rewrite E.
      exists fs, f, g. auto.
Qed.

Lemma excluded_process : forall sp neg ctx s c k, wf_spec sp ->
  excluded_by_user (process sp (S k) neg) ctx s c <->
  excluded_by_user neg ctx s c \/ exhausted sp s c.
Proof.
  induction k as [|k IH]; intros W.
  - simpl. apply excluded_add_default. exact W.
  - change (process sp (S (S k)) neg) with (add_default_is_inadmissible sp (process sp (S k) neg)).
    rewrite excluded_add_default by exact W. rewrite IH by exact W. tauto.
Qed.

Lemma availability : forall sp neg ctx s c k, wf_spec sp ->
  nth_error (choice_set_of sp (process sp (S k) neg) ctx s) c = Some true <->
  c < sp_nchoices sp /\ ~ excluded_by_user neg ctx s c /\ ~ exhausted sp s c.
Proof.
  intros. rewrite choice_set_available, excluded_process by assumption. tauto.
Qed.

Lemma process_choice_set_stable : forall sp neg ctx s k1 k2, wf_spec sp ->
  choice_set_of sp (process sp (S k1) neg) ctx s =
  choice_set_of sp (process sp (S k2) neg) ctx s.
Proof.
  intros sp neg ctx s k1 k2 W. unfold choice_set_of. apply map_ext. intros c. f_equal.
  destruct (is_inadmissible (process sp (S k1) neg) ctx s c) eqn:E1;
  destruct (is_inadmissible (process sp (S k2) neg) ctx s c) eqn:E2; try reflexivity; exfalso.
  - apply is_inadmissible_spec in E1. rewrite excluded_process in E1 by assumption.
    rewrite <- (excluded_process sp neg ctx s c k2) in E1 by assumption.
    apply is_inadmissible_spec in E1. congruence.
  - apply is_inadmissible_spec in E2. rewrite excluded_process in E2 by assumption.
    rewrite <- (excluded_process sp neg ctx s c k1) in E2 by assumption.
    apply is_inadmissible_spec in E2. congruence.
Qed.

(** ** Law of motion *)
Lemma length_bump_exp : forall c e, length (bump_exp c e) = length e.
Proof. intros. unfold bump_exp. rewrite map_length, length_enumerate. reflexivity. Qed.

Lemma nth_error_bump_exp : forall c e i,
  nth_error (bump_exp c e) i =
  option_map (fun x => x + (if Nat.eqb c i then 1 else 0)) (nth_error e i).
Proof.
  intros. unfold bump_exp. rewrite nth_error_map, nth_error_enumerate.
  destruct (nth_error e i); reflexivity.
Qed.

Lemma nth_error_ext_eq : forall A (l1 l2 : list A),
  (forall i, nth_error l1 i = nth_error l2 i) -> l1 = l2.
Proof.
  induction l1 as [|x l1 IH]; intros [|y l2] H; auto.
  - specialize (H 0). discriminate.
  - specialize (H 0). discriminate.
  - f_equal.
    + specialize (H 0). simpl in H. congruence.
    + apply IH. intros i. apply (H (S i)).
Qed.

Lemma nth_error_vec_add : forall a b i,
  nth_error (vec_add a b) i =
  match nth_error a i, nth_error b i with Some x, Some y => Some (x + y) | _, _ => None end.
Proof.
  unfold vec_add. induction a as [|x a IH]; intros [|y b] i; simpl.
  - destruct i; reflexivity.
  - destruct i; reflexivity.
  - destruct i; simpl; [reflexivity|]. destruct (nth_error a i); reflexivity.
  - destruct i; simpl; [reflexivity|]. apply IH.
Qed.

Lemma bump_vec_add : forall c init gain,
  bump_exp c (vec_add init gain) = vec_add init (bump_exp c gain).
Proof.
  intros. apply nth_error_ext_eq. intros i.
  rewrite nth_error_bump_exp, !nth_error_vec_add, nth_error_bump_exp.
  destruct (nth_error init i), (nth_error gain i); simpl; try reflexivity. f_equal. lia.
Qed.

Lemma bump_from_ge : forall e c n, c < n ->
  map (fun p => snd p + (if Nat.eqb c (fst p) then 1 else 0)) (enumerate_from n e) = e.
Proof.
  induction e as [|x e IH]; intros c n H; simpl; [reflexivity|].
  rewrite IH by lia. destruct (Nat.eqb_spec c n); [lia|]. f_equal. lia.
Qed.

Lemma sum_bump_exp_le_gen : forall e c n,
  list_sum (map (fun p => snd p + (if Nat.eqb c (fst p) then 1 else 0)) (enumerate_from n e))
  <= S (list_sum e).
Proof.
  induction e as [|x e IH]; intros c n; simpl; [lia|].
  destruct (Nat.eqb_spec c n) as [->|Hne].
  - rewrite bump_from_ge by lia. lia.
  - specialize (IH c (S n)). lia.
Qed.
Lemma sum_bump_exp_le : forall c e, list_sum (bump_exp c e) <= S (list_sum e).
Proof. intros. apply sum_bump_exp_le_gen. Qed.

Lemma Forall2_nth_error : forall A B (P : A -> B -> Prop) l1 l2,
  Forall2 P l1 l2 <-> length l1 = length l2 /\
  forall i x y, nth_error l1 i = Some x -> nth_error l2 i = Some y -> P x y.
Proof.
  induction l1 as [|a l1 IH]; intros [|b l2].
  - split; [|constructor]. intros _. split; [reflexivity|]. intros [|i] x y H; discriminate.
  - split; [intros H; inversion H|]. intros [H _]. discriminate.
  - split; [intros H; inversion H|]. intros [H _]. discriminate.
  - split.
    + intros H. inversion H; subst. apply IH in H5. destruct H5 as [H5 H6]. split; [simpl; lia|].
      intros [|i] x y Hx Hy; simpl in *; [congruence|]. apply (H6 i); auto.
    + intros [H1 H2]. constructor.
      * apply (H2 0); reflexivity.
      * apply IH. split; [simpl in H1; lia|]. intros i. apply (H2 (S i)).
Qed.

Lemma complete_lags_shift : forall nlags n lags c, c < n ->
  complete_lags nlags n lags -> complete_lags nlags n (shift_lags c lags).
Proof.
  intros nlags n lags c Hc [H1 H2]. destruct lags as [|x lags]; [split; auto|].
  unfold shift_lags. split.
  - change (length (Some c :: removelast (x :: lags))) with (S (length (removelast (x :: lags)))).
    rewrite <- H1. clear. revert x. induction lags as [|y lags IH]; intros x; [reflexivity|].
    change (removelast (x :: y :: lags)) with (x :: removelast (y :: lags)).
    simpl length in *. rewrite <- IH with y. reflexivity.
  - intros y [<-|Hy]; [exists c; auto|]. apply H2. clear - Hy.
    revert x Hy. induction lags as [|z lags IH]; intros x Hy; [destruct Hy|].
    change (removelast (x :: z :: lags)) with (x :: removelast (z :: lags)) in Hy.
    destruct Hy as [<-|Hy]; [left; reflexivity|]. right. apply IH. exact Hy.
Qed.

Lemma feasible_step : forall sp neg ctx s c, wf_spec sp -> sp_filters sp = [] ->
  feasible sp s -> S (cs_period s) < sp_nperiods sp ->
  c < sp_nchoices sp -> ~ exhausted sp s c ->
  excluded_by_user neg ctx s c \/ feasible sp (law_of_motion c s).
Proof.
  intros sp neg ctx s c W Hnf HF Hp Hc Hex. right.
  destruct HF as [_ [HL [init [gain [Hi [Hg [Hs [He [Hm _]]]]]]]]].
  destruct W as [W1 [W2 [W3 [W4 W5]]]].
  unfold feasible. simpl. split; [exact Hp|]. split; [apply complete_lags_shift; assumption|].
  exists init, (bump_exp c gain). rewrite He, bump_vec_add.
  repeat split; auto.
  - rewrite length_bump_exp. exact Hg.
  - pose proof (sum_bump_exp_le c gain). lia.
  - rewrite <- bump_vec_add, <- He. apply Forall2_nth_error.
    apply Forall2_nth_error in Hm. destruct Hm as [Hm1 Hm2].
    split; [rewrite length_bump_exp; exact Hm1|].
    intros i x m Hx Hmx. rewrite nth_error_bump_exp in Hx.
    destruct (nth_error (cs_exp s) i) as [e|] eqn:Ee; [|discriminate]. simpl in Hx.
    inversion Hx; subst x. specialize (Hm2 i e m Ee Hmx).
    destruct (Nat.eqb_spec c i) as [->|Hne]; [|lia].
    (* the chosen experience *)
    assert (Hlen : i < length (sp_starts sp)).
    { apply nth_error_lt in Hmx. lia. }
    destruct (nth_error (sp_starts sp) i) as [levels|] eqn:El.
    2:{ apply nth_error_None in El. lia. }
    destruct (Nat.eq_dec e m) as [->|]; [|lia]. exfalso. apply Hex.
    exists m, m, levels. repeat split; auto.
    (* m < n_periods - 1 + init_i *)
    rewrite He, nth_error_vec_add in Ee.
    destruct (nth_error init i) as [a|] eqn:Ea; [|discriminate].
    destruct (nth_error gain i) as [g|] eqn:Eg; [|discriminate].
    exists a. split.
    + apply Forall2_nth_error in Hi. destruct Hi as [_ Hi]. apply (Hi i); assumption.
    + inversion Ee. subst m.
      assert (g <= list_sum gain).
      { clear - Eg. revert i Eg. induction gain as [|y gain IH]; intros [|i] E; try discriminate; simpl in *.
        - inversion E. lia.
        - apply IH in E. lia. }
      lia.
  - intros f Hf. rewrite Hnf in Hf. destruct Hf.
Qed.

Lemma child_in_core : forall sp neg ctx s c k, wf_spec sp -> sp_nlags sp <= 1 ->
  sp_filters sp = [] ->
  In s (create_core_state_space sp) -> S (cs_period s) < sp_nperiods sp ->
  nth_error (choice_set_of sp (process sp (S k) neg) ctx s) c = Some true ->
  In (law_of_motion c s) (create_core_state_space sp).
Proof.
  intros sp neg ctx s c k W L Hf Hin Hp Ha. apply availability in Ha; [|assumption].
  destruct Ha as [Hc [Hu Hex]]. apply core_exact in Hin; [|assumption|assumption].
  apply core_exact; [assumption|assumption|].
  destruct (feasible_step sp neg ctx s c W Hf Hin Hp Hc Hex); [tauto|assumption].
Qed.

Lemma reachable_in_core : forall sp neg ctx s k, wf_spec sp -> sp_nlags sp <= 1 ->
  sp_filters sp = [] ->
  reachable sp (process sp (S k) neg) ctx s -> In s (create_core_state_space sp).
Proof.
  intros sp neg ctx s k W L Hf H. induction H as [init lags Hn Hi Hm Hl|s c H IH Hp Ha].
  - apply core_exact; [assumption|assumption|]. unfold feasible. simpl.
    split; [assumption|]. split; [assumption|].
    exists init, (repeat 0 (length (sp_starts sp))).
    assert (E : vec_add init (repeat 0 (length (sp_starts sp))) = init).
    { rewrite <- (Forall2_length_eq _ _ _ _ _ Hi). clear. induction init; simpl; [reflexivity|].
      unfold vec_add in *. simpl. rewrite IHinit. f_equal. lia. }
    rewrite E. repeat split; auto.
    + apply repeat_length.
    + rewrite list_sum_repeat0. lia.
    + rewrite Hf. intros f [].
  - apply (child_in_core sp neg ctx s c k); assumption.
Qed.

(** ** Histories *)
Lemma follow_cons : forall c cs s, follow (c :: cs) s = follow cs (law_of_motion c s).
Proof. reflexivity. Qed.

Lemma follow_period : forall cs s, cs_period (follow cs s) = cs_period s + length cs.
Proof.
  induction cs as [|c cs IH]; intros s; [simpl; lia|]. rewrite follow_cons, IH. simpl. lia.
Qed.

Lemma follow_exp : forall cs s i,
  nth_error (cs_exp (follow cs s)) i =
  option_map (fun e => e + count_occ Nat.eq_dec cs i) (nth_error (cs_exp s) i).
Proof.
  induction cs as [|c cs IH]; intros s i.
  - simpl. destruct (nth_error (cs_exp s) i); simpl; [f_equal; lia|reflexivity].
  - rewrite follow_cons, IH. simpl. rewrite nth_error_bump_exp.
    destruct (nth_error (cs_exp s) i); simpl; [|reflexivity]. f_equal.
    destruct (Nat.eq_dec c i) as [->|Hne].
    + rewrite Nat.eqb_refl. lia.
    + apply Nat.eqb_neq in Hne. rewrite Hne. lia.
Qed.

Lemma removelast_firstn_length : forall A (l : list A),
  removelast l = firstn (length l - 1) l.
Proof.
  intros A l. rewrite removelast_firstn_len. f_equal. lia.
Qed.

Lemma shift_lags_firstn : forall c lags,
  shift_lags c lags = firstn (length lags) (Some c :: lags).
Proof.
  intros c [|x lags]; [reflexivity|]. unfold shift_lags.
  rewrite removelast_firstn_length. simpl length. rewrite Nat.sub_succ, Nat.sub_0_r.
  reflexivity.
Qed.

Lemma follow_lags : forall cs s,
  cs_lag (follow cs s) = firstn (length (cs_lag s)) (map Some (rev cs) ++ cs_lag s).
Proof.
  induction cs as [|c cs IH]; intros s.
  - simpl. rewrite firstn_all. reflexivity.
  - rewrite follow_cons, IH. simpl. rewrite shift_lags_firstn.
    rewrite map_app. rewrite <- app_assoc. cbn [app map].
    assert (HL : length (firstn (length (cs_lag s)) (Some c :: cs_lag s)) = length (cs_lag s)).
    { rewrite firstn_length. simpl. lia. }
    rewrite HL. rewrite !firstn_app. f_equal.
    rewrite firstn_firstn. f_equal. lia.
Qed.

(** ** Default maximum *)
Lemma default_max_never_excludes : forall sp ctx s c k, wf_spec sp ->
  c < length (sp_starts sp) ->
  (exists levels, nth_error (sp_starts sp) c = Some levels /\
     nth_error (sp_max sp) c = Some (list_max_nat levels + sp_nperiods sp - 1)) ->
  0 < sp_nperiods sp ->
  nth_error (choice_set_of sp (process sp (S k) (fun _ => None)) ctx s) c = Some true.
Proof.
  intros sp ctx s c k W Hc [levels [H1 H2]] Hp. apply availability; [assumption|].
  destruct W as [W1 [W2 _]]. split; [lia|]. split.
  - intros [fs [f [g [E _]]]]. discriminate.
  - intros [e [m [l [E1 [E2 [E3 [E4 [x [Hx Hlt]]]]]]]]].
    rewrite H1 in E3. rewrite H2 in E2. inversion E2; inversion E3; subst l.
    apply list_max_nat_ge in Hx. lia.
Qed.

Lemma count_occ_le_length : forall l x, count_occ Nat.eq_dec l x <= length l.
Proof.
  induction l as [|y l IH]; intros x; simpl; [lia|].
  destruct (Nat.eq_dec y x); specialize (IH x); lia.
Qed.

Lemma experience_bounded : forall cs s i e0 e levels n,
  nth_error (cs_exp s) i = Some e0 -> In e0 levels ->
  nth_error (cs_exp (follow cs s)) i = Some e ->
  length cs <= n - 1 -> e <= list_max_nat levels + (n - 1).
Proof.
  intros cs s i e0 e levels n H0 Hin H Hl. rewrite follow_exp, H0 in H. simpl in H.
  inversion H; subst e. apply list_max_nat_ge in Hin.
  pose proof (count_occ_le_length cs i). lia.
Qed.

(** ** Filters *)
Lemma init_zero : forall starts init, (forall l, In l starts -> l = [0]) ->
  Forall2 (fun x levels => In x levels) init starts ->
  forall gain, length gain = length starts -> vec_add init gain = gain.
Proof.
  intros starts init Hs H. induction H as [|x l init starts Hx H IH]; intros [|g gain] Hg;
    try discriminate; [reflexivity|].
  assert (l = [0]) by (apply Hs; left; reflexivity). subst l. destruct Hx as [<-|[]].
  unfold vec_add in *. simpl. rewrite IH; auto.
  intros l' Hl'. apply Hs. right. exact Hl'.
Qed.

Lemma filters_without_initial_experience : forall sp s,
  wf_spec sp -> sp_nlags sp <= 1 -> (forall l, In l (sp_starts sp) -> l = [0]) ->
  (In s (create_core_state_space sp) <->
   feasible (mkSpec (sp_nperiods sp) (sp_starts sp) (sp_max sp) (sp_nchoices sp)
                    (sp_nlags sp) []) s /\
   forall f, In f (sp_filters sp) -> f s = false).
Proof.
  intros sp s W L Hz. rewrite core_exact by assumption. unfold feasible. simpl. split.
  - intros [H1 [H2 [init [gain [H3 [H4 [H5 [H6 [H7 H8]]]]]]]]]. split.
    + split; [assumption|]. split; [assumption|]. exists init, gain. repeat split; auto.
      intros f [].
    + intros f Hf. specialize (H8 f Hf). rewrite (init_zero _ _ Hz H3 gain H4) in H6.
      destruct s; simpl in *. congruence.
  - intros [[H1 [H2 [init [gain [H3 [H4 [H5 [H6 [H7 _]]]]]]]]] H8].
    split; [assumption|]. split; [assumption|]. exists init, gain. repeat split; auto.
    intros f Hf. specialize (H8 f Hf). rewrite (init_zero _ _ Hz H3 gain H4) in H6.
    destruct s; simpl in *. congruence.
Qed.

Definition ex_filter (s : core_state) : bool :=
  match cs_exp s with e :: _ => Nat.ltb 10 e | [] => false end.
Definition ex_filter_spec : core_spec := mkSpec 3 [[10]] [20] 2 0 [ex_filter].

Lemma filters_refuted : exists sp s f,
  wf_spec sp /\ In f (sp_filters sp) /\ In s (create_core_state_space sp) /\ f s = true.
Proof.
  exists ex_filter_spec, (mkState 1 [11] []), ex_filter. split; [|split; [|split]].
  - unfold wf_spec, ex_filter_spec; simpl. repeat (split; [lia|]). split; [|split].
    + intros l [<-|[]]; discriminate.
    + intros l x [<-|[]] H; simpl in H; intuition lia.
    + intros m [<-|[]]; lia.
  - left. reflexivity.
  - vm_compute. tauto.
  - reflexivity.
Qed.
