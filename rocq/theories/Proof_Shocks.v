(** Proofs about the shocks. *)
From Coq Require Import List Arith Bool Reals Lra Lia Sorted.
From Verif Require Import Base Proof_Base Model_CoreStateSpace Proof_CoreStateSpace
  Model_StateSpace Spec_StateSpace Proof_StateSpace Model_Solve Spec_Solve Proof_Solve Proof_Value.
Import ListNotations.
Open Scope R_scope.

Lemma firstn_positions_gen : forall cs a n j c,
  nth_error (map fst (filter (fun p : nat * bool => snd p) (enumerate_from a cs))) j = Some c ->
  (j < count_true (firstn n cs) <-> c < a + n)%nat.
Proof.
  induction cs as [|b cs IH]; intros a n j c H; simpl in H; [destruct j; discriminate|].
  assert (Hge : forall m x, In x (map fst (filter (fun p : nat * bool => snd p) (enumerate_from m cs))) -> (m <= x)%nat).
  { clear. intros m x H. apply in_map_iff in H. destruct H as [[y b] [<- H]]. apply filter_In in H.
    destruct H as [H _]. apply enumerate_from_spec in H. simpl. lia. }
  destruct n as [|n]; [simpl|].
  - split; [lia|]. intros Hc. exfalso. destruct b; simpl in H.
    + destruct j; [injection H as <-; lia|]. simpl in H. apply nth_error_In, Hge in H. lia.
    + apply nth_error_In, Hge in H. lia.
  - destruct b; simpl in H |- *.
    + destruct j; [injection H as <-; split; intros; lia|]. simpl in H.
      specialize (IH (S a) n j c H). split; intros; [assert (j < count_true (firstn n cs))%nat by lia|]; lia.
    + specialize (IH (S a) n j c H). lia.
Qed.

Lemma firstn_positions : forall cs n j c, nth_error (positions cs) j = Some c ->
  (j < count_true (firstn n cs) <-> c < n)%nat.
Proof. intros. apply (firstn_positions_gen cs 0 n j c). exact H. Qed.

Lemma nth_error_compress : forall A m (l : list A) d j c, length m = length l ->
  nth_error (positions m) j = Some c -> nth_error (compress m l) j = Some (nth c l d).
Proof.
  intros. rewrite (compress_positions _ _ _ d H), nth_error_map, H0. reflexivity.
Qed.

Lemma dotp_compress_positions : forall m row draw, length m = length row ->
  dotp draw (compress m row) =
  rsum (map (fun p => fst p * nth (snd p) row 0) (combine draw (positions m))).
Proof.
  intros. rewrite (compress_positions _ _ _ 0 H). generalize (positions m). clear.
  induction draw as [|x draw IH]; intros [|c ps]; simpl; auto. f_equal. apply IH.
Qed.

Lemma square_row : forall n L c, square n L -> (c < n)%nat -> length (nth c L []) = n.
Proof. intros n L c [H1 H2] H. apply H2, nth_In. lia. Qed.

Lemma positions_lt : forall cs j c, nth_error (positions cs) j = Some c -> (c < length cs)%nat.
Proof.
  intros cs j c H. apply nth_error_In in H. apply In_positions in H. eapply nth_error_lt; eauto.
Qed.

Lemma nth_subset_cholesky : forall n L cs j c, square n L -> length cs = n ->
  nth_error (positions cs) j = Some c ->
  nth_error (subset_cholesky L cs) j = Some (compress cs (nth c L [])).
Proof.
  intros n L cs j c SQ E H. unfold subset_cholesky.
  assert (E2 : length cs = length L) by (destruct SQ; lia).
  rewrite nth_error_map, (nth_error_compress _ _ _ [] _ _ E2 H). reflexivity.
Qed.

(** C19 *)
Lemma transform_draw_spec : forall n p cs draws i draw j c,
  square n (p_chol p) -> length cs = n -> nth_error draws i = Some draw ->
  nth_error (positions cs) j = Some c ->
  exists e, nth_error (transform_draws draws cs p) i = Some e /\
    length e = count_true cs /\
    nth_error e j = Some (if (c <? p_nwages p)%nat
                          then exp (clip (- max_log_float) max_log_float (correlated (p_chol p) cs draw c))
                          else correlated (p_chol p) cs draw c).
Proof.
  intros n p cs draws i draw j c SQ E Hd Hj. unfold transform_draws. rewrite nth_error_map, Hd.
  simpl. eexists. split; [reflexivity|]. split.
  - rewrite length_transform_draw. unfold subset_cholesky. rewrite map_length. apply length_compress.
    destruct SQ; lia.
  - unfold transform_draw. rewrite nth_error_map, nth_error_enumerate, nth_error_map.
    rewrite (nth_subset_cholesky n _ _ _ _ SQ E Hj). simpl. f_equal.
    assert (Hlt := positions_lt _ _ _ Hj).
    rewrite dotp_compress_positions by (rewrite (square_row n); [exact E|exact SQ|lia]).
    fold (correlated (p_chol p) cs draw c).
    assert (F := firstn_positions cs (p_nwages p) j c Hj).
    destruct (Nat.ltb_spec j (count_true (firstn (p_nwages p) cs))), (Nat.ltb_spec c (p_nwages p));
      try reflexivity; lia.
Qed.

(** C18 *)
Lemma dotp_split : forall m x y, length m = length x -> length m = length y ->
  dotp x y = dotp (compress m x) (compress m y) + dotp (compress (map negb m) x) (compress (map negb m) y).
Proof.
  induction m as [|b m IH]; intros [|x xs] [|y ys] H1 H2; simpl in *; try lia; [lra|].
  rewrite (IH xs ys) by lia. destruct b; simpl; lra.
Qed.

Lemma positions_negb : forall cs c, In c (positions (map negb cs)) <-> unavailable cs c.
Proof.
  intros. rewrite In_positions. unfold unavailable. rewrite nth_error_map.
  destruct (nth_error cs c) as [[|]|]; simpl; split; congruence.
Qed.

Lemma dotp_zero_l : forall x y, (forall v, In v x -> v = 0) -> dotp x y = 0.
Proof.
  induction x as [|a x IH]; intros [|b y] H; simpl; auto.
  rewrite (H a) by (left; reflexivity). rewrite IH by (intros; apply H; right; auto). lra.
Qed.

Lemma dotp_self_nonneg : forall x, 0 <= dotp x x.
Proof. induction x as [|a x IH]; simpl; [lra|]. assert (0 <= a * a) by apply Rle_0_sqr. lra. Qed.

Lemma dotp_self_zero : forall x, dotp x x = 0 -> forall v, In v x -> v = 0.
Proof.
  induction x as [|a x IH]; simpl; intros H v []; assert (G := dotp_self_nonneg x);
    assert (0 <= a * a) by apply Rle_0_sqr.
  - subst. assert (Hv : v * v = 0) by lra. apply Rmult_integral in Hv. tauto.
  - apply IH; [lra|assumption].
Qed.

Lemma compress_negb_entries : forall cs row v, length cs = length row ->
  In v (compress (map negb cs) row) <-> exists u, unavailable cs u /\ v = nth u row 0.
Proof.
  intros cs row v E. rewrite (compress_positions _ _ _ 0) by (rewrite map_length; exact E).
  rewrite in_map_iff. split.
  - intros [u [<- H]]. exists u. split; [apply positions_negb; exact H|reflexivity].
  - intros [u [H ->]]. exists u. split; [reflexivity|apply positions_negb; exact H].
Qed.

Lemma cov_split : forall n L cs a b i j, square n L -> length cs = n ->
  nth_error (positions cs) a = Some i -> nth_error (positions cs) b = Some j ->
  cov_entry L i j = cov_entry (subset_cholesky L cs) a b +
    dotp (compress (map negb cs) (nth i L [])) (compress (map negb cs) (nth j L [])).
Proof.
  intros n L cs a b i j SQ E Ha Hb. unfold cov_entry.
  rewrite (nth_error_nth _ _ [] (nth_subset_cholesky _ _ _ _ _ SQ E Ha)),
          (nth_error_nth _ _ [] (nth_subset_cholesky _ _ _ _ _ SQ E Hb)).
  apply positions_lt in Ha. apply positions_lt in Hb.
  apply dotp_split; rewrite (square_row n); auto; lia.
Qed.

Theorem covariance_iff : forall n L cs, square n L -> length cs = n ->
  (right_covariance L cs <-> forall c u, available cs c -> unavailable cs u -> mat L c u = 0).
Proof.
  intros n L cs SQ E. split.
  - intros H c u Hc Hu. apply In_positions, In_nth_error in Hc. destruct Hc as [a Ha].
    specialize (H a a c c Ha Ha). rewrite (cov_split n L cs a a c c SQ E Ha Ha) in H.
    assert (Hz : dotp (compress (map negb cs) (nth c L [])) (compress (map negb cs) (nth c L [])) = 0) by lra.
    apply (dotp_self_zero _ Hz). apply compress_negb_entries.
    + apply positions_lt in Ha. rewrite (square_row n); auto. lia.
    + exists u. split; [exact Hu|reflexivity].
  - intros H a b i j Ha Hb. rewrite (cov_split n L cs a b i j SQ E Ha Hb).
    rewrite dotp_zero_l; [lra|]. intros v Hv. apply compress_negb_entries in Hv.
    + destruct Hv as [u [Hu ->]]. apply H; [|exact Hu]. apply In_positions. eapply nth_error_In; eauto.
    + apply positions_lt in Ha. rewrite (square_row n); auto. lia.
Qed.

Theorem variance_never_larger : forall n L cs a i, square n L -> length cs = n ->
  nth_error (positions cs) a = Some i ->
  cov_entry (subset_cholesky L cs) a a <= cov_entry L i i.
Proof.
  intros n L cs a i SQ E Ha. rewrite (cov_split n L cs a a i i SQ E Ha Ha).
  assert (H := dotp_self_nonneg (compress (map negb cs) (nth i L []))). lra.
Qed.

(** Inner products as sums over indices. *)
Lemma dotp_sum : forall x y n, length x = n -> length y = n ->
  dotp x y = rsum (map (fun k => nth k x 0 * nth k y 0) (seq 0 n)).
Proof.
  intros x y n <-. revert y. induction x as [|a x IH]; intros [|b y] H; simpl in *; try lia; auto.
  f_equal. rewrite IH by lia. rewrite <- seq_shift, map_map. reflexivity.
Qed.

Lemma rsum_single : forall (f : nat -> R) n m, (m < n)%nat ->
  (forall k, (k < n)%nat -> k <> m -> f k = 0) -> rsum (map f (seq 0 n)) = f m.
Proof.
  intros f n m Hm H.
  assert (Z : forall l, (forall k, In k l -> f k = 0) -> rsum (map f l) = 0).
  { induction l as [|k l IH]; intros Hl; simpl; [reflexivity|].
    rewrite Hl by (left; reflexivity). rewrite IH by (intros; apply Hl; right; auto). lra. }
  assert (E : seq 0 n = seq 0 m ++ m :: seq (S m) (n - S m)).
  { replace n with (m + S (n - S m))%nat at 1 by lia. rewrite seq_app. reflexivity. }
  rewrite E, map_app. simpl.
  assert (A : forall a b, rsum (a ++ b) = rsum a + rsum b)
    by (induction a; intros; simpl; [lra|rewrite IHa; lra]).
  rewrite A. simpl. rewrite !Z.
  - lra.
  - intros k Hk. apply in_seq in Hk. apply H; lia.
  - intros k Hk. apply in_seq in Hk. apply H; lia.
Qed.

Lemma dotp_comm : forall x y, dotp x y = dotp y x.
Proof.
  induction x as [|a x IH]; intros [|b y]; simpl; auto. rewrite IH, (Rmult_comm a b). reflexivity.
Qed.

(** Uncorrelated choices: the factor is block diagonal. *)
Lemma uncorrelated_blocks : forall n L cs, square n L -> length cs = n -> lower_triangular L ->
  (forall i, (i < n)%nat -> mat L i i <> 0) ->
  (forall c u, available cs c -> unavailable cs u -> cov_entry L c u = 0) ->
  forall m c u, (m < n)%nat -> available cs c -> unavailable cs u -> mat L c m * mat L u m = 0.
Proof.
  intros n L cs SQ E LT D U m. induction m as [m IH] using lt_wf_ind. intros c u Hm Hc Hu.
  assert (Hcn : (c < n)%nat) by (rewrite <- E; eapply nth_error_lt; exact Hc).
  assert (Hun : (u < n)%nat) by (rewrite <- E; eapply nth_error_lt; exact Hu).
  (* entries of column m in the rows of the other block vanish *)
  assert (Col : forall r, (r < n)%nat ->
    (available cs m /\ unavailable cs r \/ unavailable cs m /\ available cs r) -> mat L r m = 0).
  { intros r Hr Hx. destruct (Nat.lt_ge_cases r m) as [Hlt|Hge]; [apply LT; exact Hlt|].
    assert (Z : cov_entry L m r = 0).
    { destruct Hx as [[A B]|[A B]]; [apply U; assumption|].
      unfold cov_entry. rewrite dotp_comm. apply (U r m B A). }
    unfold cov_entry in Z. rewrite (dotp_sum _ _ n) in Z by (apply (square_row n); auto).
    rewrite (rsum_single _ n m Hm) in Z.
    - apply Rmult_integral in Z. destruct Z as [Z|Z]; [|exact Z]. exfalso. exact (D m Hm Z).
    - intros k Hk Hkm. destruct (Nat.lt_ge_cases m k) as [H1|H1].
      + fold (mat L m k). rewrite (LT m k H1). lra.
      + fold (mat L m k) (mat L r k). destruct Hx as [[A B]|[A B]].
        * apply IH; auto; lia.
        * rewrite Rmult_comm. apply IH; auto; lia. }
  destruct (nth_error cs m) as [[|]|] eqn:Em.
  - rewrite (Col u Hun); [lra|]. left. split; assumption.
  - rewrite (Col c Hcn); [lra|]. right. split; assumption.
  - apply nth_error_None in Em. lia.
Qed.

Theorem covariance_uncorrelated : forall n L cs, square n L -> length cs = n -> lower_triangular L ->
  (forall i, (i < n)%nat -> mat L i i <> 0) ->
  (forall c u, available cs c -> unavailable cs u -> cov_entry L c u = 0) ->
  right_covariance L cs.
Proof.
  intros n L cs SQ E LT D U. apply (covariance_iff n L cs SQ E). intros c u Hc Hu.
  assert (Hun : (u < n)%nat) by (rewrite <- E; eapply nth_error_lt; exact Hu).
  assert (Z := uncorrelated_blocks n L cs SQ E LT D U u c u Hun Hc Hu).
  apply Rmult_integral in Z. destruct Z as [Z|Z]; [exact Z|]. exfalso. exact (D u Hun Z).
Qed.

Theorem covariance_prefix : forall n L cs, square n L -> length cs = n -> lower_triangular L ->
  (forall c u, available cs c -> unavailable cs u -> (c < u)%nat) -> right_covariance L cs.
Proof.
  intros n L cs SQ E LT H. apply (covariance_iff n L cs SQ E). intros c u Hc Hu. apply LT, H; assumption.
Qed.

(** Ordered rewards give ordered flow utilities. *)
Lemma ordered_flows : forall n csf inp inp' ctx, wf_inputs n csf inp -> square n (p_chol (in_params inp)) ->
  rewards_ordered inp inp' ->
  (forall s, pb_moves (model_problem csf inp ctx) s = pb_moves (model_problem csf inp' ctx) s) /\
  (forall s, Forall2 list_le (pb_flows (model_problem csf inp ctx) s)
                             (pb_flows (model_problem csf inp' ctx) s)).
Proof.
  intros n csf inp inp' ctx [W1 [W2 W3]] SQ (O1 & O2 & O3 & O4 & O5 & O6 & O7). split; [reflexivity|].
  intros s. cbn [model_problem pb_flows].
  assert (T : transform_draws (in_base inp' (count_true (csf ctx s)) (cs_period s)) (csf ctx s) (in_params inp')
            = transform_draws (in_base inp (count_true (csf ctx s)) (cs_period s)) (csf ctx s) (in_params inp)).
  { unfold transform_draws. rewrite O2, O3, O4. reflexivity. }
  rewrite T. set (draws := in_base inp (count_true (csf ctx s)) (cs_period s)). clear T.
  assert (P : forall e j c x, In e (transform_draws draws (csf ctx s) (in_params inp)) ->
     nth_error (positions (csf ctx s)) j = Some c -> nth_error e j = Some x ->
     (c < p_nwages (in_params inp))%nat -> 0 < x).
  { intros e j c x He Hj Hx Hc. apply In_nth_error in He. destruct He as [i Hi].
    assert (Hd : exists d, nth_error draws i = Some d).
    { unfold transform_draws in Hi. rewrite nth_error_map in Hi. destruct (nth_error draws i); [eauto|discriminate]. }
    destruct Hd as [d Hd].
    destruct (transform_draw_spec n (in_params inp) (csf ctx s) draws i d j c SQ (W2 ctx s) Hd Hj) as [e' [He' [_ Hj']]].
    rewrite Hi in He'. injection He' as <-. rewrite Hx in Hj'. injection Hj' as ->.
    destruct (Nat.ltb_spec c (p_nwages (in_params inp))); [apply exp_pos|lia]. }
  induction (transform_draws draws (csf ctx s) (in_params inp)) as [|e l IH]; simpl; constructor.
  - assert (Q : forall j c x, nth_error (positions (csf ctx s)) j = Some c -> nth_error e j = Some x ->
       (c < p_nwages (in_params inp))%nat -> 0 < x) by (intros; eapply (P e); eauto; left; reflexivity).
    clear P IH. revert e Q. induction (positions (csf ctx s)) as [|c ps IHp]; intros [|x e] Q; simpl; constructor.
    + simpl. apply Rplus_le_compat; [|apply O7].
      destruct (Nat.lt_ge_cases c (p_nwages (in_params inp))) as [Hc|Hc].
      * apply Rmult_le_compat_r; [left; apply (Q 0%nat c x); auto|apply O5; exact Hc].
      * rewrite (O6 ctx s c Hc). lra.
    + apply IHp. intros j c' x' H1 H2. apply (Q (S j) c' x'); assumption.
  - apply IH. intros. eapply P; eauto. right; assumption.
Qed.
