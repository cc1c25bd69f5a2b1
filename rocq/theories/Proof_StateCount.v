(** Proofs about the number of core states. *)
From Coq Require Import List Arith Bool Lia Sorting.Permutation.
From Verif Require Import Base Proof_Base Model_CoreStateSpace Spec_CoreStateSpace Proof_CoreStateSpace Spec_StateCount.
Import ListNotations.

(** ** Vectors with a bounded sum *)
Fixpoint gains (k t : nat) : list (list nat) :=
  match k with
  | 0 => [[]]
  | S k => flat_map (fun i => map (cons i) (gains k (t - i))) (seq 0 (S t))
  end.

Lemma In_gains : forall k t g, In g (gains k t) <-> length g = k /\ list_sum g <= t.
Proof.
  induction k as [|k IH]; intros t g.
  - simpl. split; [intros [<-|[]]; simpl; lia|]. intros [H _]. destruct g; [auto|discriminate].
  - change (gains (S k) t) with (flat_map (fun i => map (cons i) (gains k (t - i))) (seq 0 (S t))). rewrite in_flat_map. split.
    + intros [i [Hi H]]. apply in_seq in Hi. apply in_map_iff in H. destruct H as [g' [<- H]]. apply IH in H. cbn [length list_sum fold_right] in *.
      change (fold_right Nat.add 0 g') with (list_sum g'). lia.
    + intros [L H]. destruct g as [|i g]; [discriminate|]. change (list_sum (i :: g)) with (i + list_sum g) in H. exists i. split; [apply in_seq; lia|].
      apply in_map. apply IH. simpl in L. lia.
Qed.

Lemma NoDup_gains : forall k t, NoDup (gains k t).
Proof.
  induction k as [|k IH]; intros t; [repeat constructor; intros []|].
  change (gains (S k) t) with (flat_map (fun i => map (cons i) (gains k (t - i))) (seq 0 (S t))). apply NoDup_flat_map_intro.
  - apply seq_NoDup.
  - intros i _. apply FinFun.Injective_map_NoDup; [|apply IH]. intros a b E. congruence.
  - intros i j g _ _ Hi Hj. apply in_map_iff in Hi, Hj. destruct Hi as [a [<- _]], Hj as [b [E _]]. congruence.
Qed.

Lemma choose_0 : forall n, choose n 0 = 1.
Proof. destruct n; reflexivity. Qed.
Lemma choose_over : forall n k, n < k -> choose n k = 0.
Proof. induction n as [|n IH]; intros [|k] H; try lia; [reflexivity|]. cbn [choose]. rewrite !IH by lia. reflexivity. Qed.
Lemma choose_diag : forall n, choose n n = 1.
Proof. induction n as [|n IH]; [reflexivity|]. cbn [choose]. rewrite IH, choose_over by lia. reflexivity. Qed.

Lemma length_flat_map_sum : forall A B (f : A -> list B) l, length (flat_map f l) = list_sum (map (fun x => length (f x)) l).
Proof. intros A B f l. induction l as [|x l IH]; [reflexivity|]. cbn [flat_map map]. rewrite app_length, IH. reflexivity. Qed.

Lemma reversed_sum : forall (f : nat -> nat) t,
  list_sum (map (fun i => f (S t - i)) (seq 0 (S (S t)))) = f (S t) + list_sum (map (fun i => f (t - i)) (seq 0 (S t))).
Proof.
  intros f t. change (seq 0 (S (S t))) with (0 :: seq 1 (S t)). cbn [map]. rewrite <- seq_shift, map_map. reflexivity.
Qed.

Lemma length_gains : forall k t, length (gains k t) = choose (t + k) k.
Proof.
  induction k as [|k IH]; intros t; [rewrite choose_0; reflexivity|].
  change (gains (S k) t) with (flat_map (fun i => map (cons i) (gains k (t - i))) (seq 0 (S t))).
  rewrite length_flat_map_sum.
  rewrite (map_ext _ (fun i => choose (t - i + k) k)) by (intros i; rewrite map_length; apply IH).
  induction t as [|t IHt].
  - cbn [seq map]. rewrite Nat.sub_0_r. cbn [plus]. rewrite !choose_diag. reflexivity.
  - rewrite (reversed_sum (fun x => choose (x + k) k)), IHt.
    change (S t + S k) with (S (t + S k)). cbn [choose]. f_equal. f_equal. lia.
Qed.

Lemma sum_of_choose : forall k T, list_sum (map (fun t => choose (t + k) k) (seq 0 T)) = choose (T + k) (S k).
Proof.
  intros k. induction T as [|T IH]; [cbn; rewrite choose_over by lia; reflexivity|].
  rewrite seq_S, map_app, list_sum_app, IH. cbn [map plus]. cbn [choose]. cbn. lia.
Qed.

(** ** Lagged choices *)
Definition lag_list (sp : core_spec) : list (list (option nat)) :=
  match sp_nlags sp with
  | 0 => [[]]
  | L => flat_map (fun lag => map (single_lag L lag) (seq 0 (sp_nchoices sp))) (seq 1 L)
  end.

Lemma single_lag_nth : forall L lag c i, i < L -> nth_error (single_lag L lag c) i = Some (if Nat.eqb (S i) lag then Some c else None).
Proof.
  intros L lag c i Hi. unfold single_lag. rewrite nth_error_map.
  rewrite (nth_error_nth' _ 0) by (rewrite seq_length; exact Hi). rewrite seq_nth by exact Hi. reflexivity.
Qed.

Lemma single_lag_inj : forall L lag lag' c c', 1 <= lag <= L -> 1 <= lag' <= L -> single_lag L lag c = single_lag L lag' c' -> lag = lag' /\ c = c'.
Proof.
  intros L lag lag' c c' H H' E. pose proof (single_lag_nth L lag c (lag - 1) ltac:(lia)) as A.
  rewrite E, (single_lag_nth L lag' c' (lag - 1)) in A by lia.
  assert (Es : S (lag - 1) = lag) by lia. rewrite Es, Nat.eqb_refl in A.
  destruct (Nat.eqb_spec lag lag') as [->|N]; [|discriminate]. injection A as ->. auto.
Qed.

Lemma In_lag_list : forall sp l, In l (lag_list sp) <->
  match sp_nlags sp with
  | 0 => l = []
  | _ => exists lag c, 1 <= lag <= sp_nlags sp /\ c < sp_nchoices sp /\ l = single_lag (sp_nlags sp) lag c
  end.
Proof.
  intros sp l. unfold lag_list. destruct (sp_nlags sp) as [|L].
  - simpl. split; [intros [<-|[]]; reflexivity|auto].
  - rewrite in_flat_map. split.
    + intros [lag [Hl H]]. apply in_map_iff in H. destruct H as [c [<- H]]. apply in_seq in Hl, H. exists lag, c. repeat split; lia.
    + intros [lag [c [Hl [Hc ->]]]]. exists lag. split; [apply in_seq; lia|]. apply in_map. apply in_seq. lia.
Qed.

Lemma NoDup_map_inj_in : forall A B (f : A -> B) l, (forall x y, In x l -> In y l -> f x = f y -> x = y) -> NoDup l -> NoDup (map f l).
Proof.
  intros A B f l. induction l as [|x l IH]; intros H ND; [constructor|]. inversion ND as [|? ? N ND']; subst. cbn [map]. constructor.
  - intros X. apply in_map_iff in X. destruct X as [y [E Hy]]. apply N.
    rewrite <- (H y x (or_intror Hy) (or_introl eq_refl) E). exact Hy.
  - apply IH; [|exact ND']. intros a b Ha Hb. apply H; right; assumption.
Qed.

Lemma NoDup_lag_list : forall sp, NoDup (lag_list sp).
Proof.
  intros sp. unfold lag_list. destruct (sp_nlags sp) as [|L]; [repeat constructor; intros []|].
  apply NoDup_flat_map_intro.
  - apply seq_NoDup.
  - intros lag Hl. apply in_seq in Hl. apply NoDup_map_inj_in; [|apply seq_NoDup].
    intros c c' _ _ E. apply single_lag_inj in E; [tauto|lia|lia].
  - intros lag lag' l Hl Hl' H H'. apply in_seq in Hl, Hl'. apply in_map_iff in H, H'. destruct H as [c [<- _]], H' as [c' [E _]].
    apply single_lag_inj in E; [|lia|lia]. symmetry. apply E.
Qed.

Lemma length_const : forall A B (f : A -> list B) l n, (forall x, In x l -> length (f x) = n) -> length (flat_map f l) = length l * n.
Proof.
  intros A B f l n H. induction l as [|x l IH]; [reflexivity|]. cbn [flat_map length]. rewrite app_length, IH, H; [lia|left; reflexivity|].
  intros y Hy. apply H. right. exact Hy.
Qed.

Lemma length_lag_list : forall sp, length (lag_list sp) = n_lagged sp.
Proof.
  intros sp. unfold lag_list, n_lagged. destruct (sp_nlags sp) as [|L]; [reflexivity|].
  rewrite (length_const _ _ _ _ (sp_nchoices sp)) by (intros; rewrite map_length, seq_length; reflexivity).
  rewrite seq_length. reflexivity.
Qed.

(** ** Candidates *)
Definition candidates (sp : core_spec) (t : nat) : list core_state :=
  flat_map (fun init => flat_map (fun g => map (mkState t (vec_add init g)) (lag_list sp)) (gains (n_experiences sp) t))
           (product (sp_starts sp)).

Lemma length_candidates : forall sp t, length (candidates sp t) =
  n_initial sp * (choose (t + n_experiences sp) (n_experiences sp) * n_lagged sp).
Proof.
  intros sp t. unfold candidates. rewrite (length_const _ _ _ _ (choose (t + n_experiences sp) (n_experiences sp) * n_lagged sp)).
  - rewrite length_product. reflexivity.
  - intros init _. rewrite (length_const _ _ _ _ (n_lagged sp)); [rewrite length_gains; reflexivity|].
    intros g _. rewrite map_length. apply length_lag_list.
Qed.

Lemma states_candidates : forall sp t, wf_spec sp -> incl (states_in t (create_core_state_space sp)) (candidates sp t).
Proof.
  intros sp t W s Hs. apply filter_In in Hs. destruct Hs as [Hs Ht]. apply Nat.eqb_eq in Ht.
  apply In_core_general in Hs; [|exact W]. destruct Hs as [_ [HL [init [gain [Hi [Lg [Sg [E _]]]]]]]].
  unfold candidates. apply in_flat_map. exists init. split; [apply In_product; exact Hi|].
  apply in_flat_map. exists gain. split; [apply In_gains; unfold n_experiences; split; [exact Lg|lia]|].
  apply in_map_iff. exists (cs_lag s). split; [rewrite <- E, <- Ht; destruct s; reflexivity|]. apply In_lag_list. exact HL.
Qed.

Lemma NoDup_states_in : forall sp t, NoDup (states_in t (create_core_state_space sp)).
Proof. intros. apply NoDup_filter, core_nodup. Qed.

Lemma count_bound : forall sp t, wf_spec sp ->
  length (states_in t (create_core_state_space sp)) <=
  n_initial sp * (choose (t + n_experiences sp) (n_experiences sp) * n_lagged sp).
Proof.
  intros sp t W. rewrite <- length_candidates. apply NoDup_incl_length; [apply NoDup_states_in|apply states_candidates; exact W].
Qed.

Lemma vec_add_inj : forall init g g', length g = length init -> length g' = length init -> vec_add init g = vec_add init g' -> g = g'.
Proof.
  induction init as [|x init IH]; intros [|a g] [|b g'] L L' E; try discriminate; [reflexivity|].
  unfold vec_add in E. cbn [combine map fst snd] in E. injection E as E1 E2. f_equal; [lia|]. apply IH; simpl in *; [lia|lia|exact E2].
Qed.

Lemma single_start : forall starts maxs T, Forall2 (fun levels m => exists x, levels = [x] /\ x + (T - 1) <= m) starts maxs ->
  exists init, product starts = [init] /\ length init = length starts /\
    Forall2 (fun x levels => In x levels) init starts /\ Forall2 (fun x m => x + (T - 1) <= m) init maxs.
Proof.
  intros starts maxs T H. induction H as [|l m starts maxs [x [-> Hx]] F [init [P [L [I B]]]]].
  - exists []. repeat split; constructor.
  - exists (x :: init). cbn [product]. rewrite P. repeat split.
    + cbn [length]. lia.
    + constructor; [left; reflexivity|exact I].
    + constructor; assumption.
Qed.

Lemma below_maxima : forall init maxs T g, Forall2 (fun x m => x + (T - 1) <= m) init maxs -> length g = length init ->
  list_sum g <= T - 1 -> Forall2 le (vec_add init g) maxs.
Proof.
  intros init maxs T g H. revert g. induction H as [|x m init maxs Hx F IH]; intros [|a g] L S; try discriminate; [constructor|].
  change (list_sum (a :: g)) with (a + list_sum g) in S. unfold vec_add. cbn [combine map fst snd]. constructor; [lia|].
  apply IH; [simpl in L; lia|lia].
Qed.

Lemma count_exact : forall sp t, wf_spec sp -> sp_filters sp = [] -> unrestricted sp -> t < sp_nperiods sp ->
  length (states_in t (create_core_state_space sp)) = choose (t + n_experiences sp) (n_experiences sp) * n_lagged sp.
Proof.
  intros sp t W HF U Ht. destruct (single_start _ _ _ U) as [init [P [L [I B]]]].
  assert (N1 : n_initial sp = 1) by (unfold n_initial; rewrite <- length_product, P; reflexivity).
  apply Nat.le_antisymm.
  - pose proof (count_bound sp t W) as H. rewrite N1 in H. lia.
  - pose proof (length_candidates sp t) as E. rewrite N1, Nat.mul_1_l in E. rewrite <- E. apply NoDup_incl_length.
    + unfold candidates. rewrite P. cbn [flat_map]. rewrite app_nil_r. apply NoDup_flat_map_intro.
      * apply NoDup_gains.
      * intros g _. apply FinFun.Injective_map_NoDup; [|apply NoDup_lag_list]. intros a b X. congruence.
      * intros g g' s Hg Hg' H H'. apply In_gains in Hg, Hg'. apply in_map_iff in H, H'. destruct H as [l [<- _]], H' as [l' [X _]].
        injection X as X1 X2. eapply vec_add_inj; [| |symmetry; exact X1]; unfold n_experiences in *; lia.
    + intros s Hs. unfold candidates in Hs. rewrite P in Hs. cbn [flat_map] in Hs. rewrite app_nil_r in Hs.
      apply in_flat_map in Hs. destruct Hs as [g [Hg Hs]]. apply in_map_iff in Hs. destruct Hs as [l [<- Hl]].
      apply In_gains in Hg. destruct Hg as [Lg Sg]. unfold n_experiences in Lg. apply filter_In. cbn [cs_period]. split; [|apply Nat.eqb_refl].
      apply In_core_general; [exact W|]. cbn [cs_period cs_lag cs_exp]. split; [exact Ht|]. split; [apply In_lag_list; exact Hl|].
      exists init, g. split; [exact I|]. split; [exact Lg|]. split; [exact Sg|]. split; [reflexivity|]. split.
      * eapply below_maxima; [exact B|lia|lia].
      * rewrite HF. intros f [].
Qed.

(** ** All periods *)
Lemma periods_partition : forall T (l : list core_state), (forall s, In s l -> cs_period s < T) ->
  length l = list_sum (map (fun t => length (states_in t l)) (seq 0 T)).
Proof.
  intros T l. induction l as [|s l IH]; intros H.
  - cbn. clear. induction (seq 0 T) as [|t r IH]; [reflexivity|exact IH].
  - cbn [length]. rewrite IH by (intros q Hq; apply H; right; exact Hq). specialize (H s (or_introl eq_refl)). clear IH.
    assert (A : forall r, (In (cs_period s) r -> NoDup r -> list_sum (map (fun t => length (states_in t (s :: l))) r) = S (list_sum (map (fun t => length (states_in t l)) r))) /\
       (~ In (cs_period s) r -> list_sum (map (fun t => length (states_in t (s :: l))) r) = list_sum (map (fun t => length (states_in t l)) r))).
    { induction r as [|t r [IH1 IH2]]; [split; [intros []|reflexivity]|].
      assert (B : length (states_in t (s :: l)) = (if Nat.eqb (cs_period s) t then 1 else 0) + length (states_in t l)).
      { unfold states_in. cbn [filter]. destruct (Nat.eqb (cs_period s) t); reflexivity. }
      split.
      - intros Hin ND. inversion ND as [|? ? Nt ND']; subst. cbn [map]. change (list_sum (?a :: ?b)) with (a + list_sum b). rewrite B.
        destruct (Nat.eqb_spec (cs_period s) t) as [<-|N].
        + rewrite IH2 by exact Nt. change (list_sum (?a :: ?b)) with (a + list_sum b). lia.
        + destruct Hin as [Hin|Hin]; [congruence|]. rewrite IH1 by assumption. change (list_sum (?a :: ?b)) with (a + list_sum b). lia.
      - intros N. cbn [map]. change (list_sum (?a :: ?b)) with (a + list_sum b). rewrite B.
        destruct (Nat.eqb_spec (cs_period s) t) as [<-|N']; [exfalso; apply N; left; reflexivity|].
        rewrite IH2 by (intros X; apply N; right; exact X). reflexivity. }
    symmetry. apply A; [apply in_seq; lia|apply seq_NoDup].
Qed.

Lemma core_periods : forall sp s, wf_spec sp -> In s (create_core_state_space sp) -> cs_period s < sp_nperiods sp.
Proof. intros sp s W H. apply In_core_general in H; [apply H|exact W]. Qed.

Lemma list_sum_mul : forall (f : nat -> nat) c l, list_sum (map (fun t => f t * c) l) = list_sum (map f l) * c.
Proof. intros f c l. induction l as [|t l IH]; [reflexivity|]. cbn [map]. change (list_sum (?a :: ?b)) with (a + list_sum b). rewrite IH. lia. Qed.

Lemma list_sum_le : forall (f g : nat -> nat) l, (forall t, In t l -> f t <= g t) -> list_sum (map f l) <= list_sum (map g l).
Proof.
  intros f g l. induction l as [|t l IH]; intros H; [reflexivity|]. cbn [map]. change (list_sum (?a :: ?b)) with (a + list_sum b).
  specialize (IH (fun x Hx => H x (or_intror Hx))). specialize (H t (or_introl eq_refl)). lia.
Qed.

Lemma total_exact : forall sp, wf_spec sp -> sp_filters sp = [] -> unrestricted sp ->
  length (create_core_state_space sp) = choose (sp_nperiods sp + n_experiences sp) (S (n_experiences sp)) * n_lagged sp.
Proof.
  intros sp W HF U. rewrite (periods_partition (sp_nperiods sp)) by (intros s; apply core_periods; exact W).
  rewrite <- sum_of_choose, <- (list_sum_mul (fun t => choose (t + n_experiences sp) (n_experiences sp))).
  f_equal. apply map_ext_in. intros t Ht. apply in_seq in Ht. apply count_exact; [exact W|exact HF|exact U|lia].
Qed.

Lemma total_bound : forall sp, wf_spec sp ->
  length (create_core_state_space sp) <=
  n_initial sp * choose (sp_nperiods sp + n_experiences sp) (S (n_experiences sp)) * n_lagged sp.
Proof.
  intros sp W. rewrite (periods_partition (sp_nperiods sp)) by (intros s; apply core_periods; exact W).
  rewrite <- sum_of_choose. eapply Nat.le_trans; [apply (list_sum_le _ (fun t => choose (t + n_experiences sp) (n_experiences sp) * (n_initial sp * n_lagged sp)))|].
  - intros t _. pose proof (count_bound sp t W). nia.
  - rewrite (list_sum_mul (fun t => choose (t + n_experiences sp) (n_experiences sp))). nia.
Qed.
