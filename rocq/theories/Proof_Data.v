(** Proofs about data sets. *)
From Coq Require Import List ZArith Bool String Reals Lia Sorted Permutation.
From Verif Require Import Base Proof_Base Model_Choices Proof_Choices Model_Data Spec_Data.
Import ListNotations.
Open Scope Z_scope.

Lemma check_ok : forall b, check b = Ok tt <-> b = true.
Proof. intros []; cbn; split; congruence. Qed.
Lemma all_checks_ok : forall l, all_checks l = Ok tt <-> forall x, In x l -> x = Ok tt.
Proof.
  induction l as [|r l IH]; [split; [intros _ x []|reflexivity]|]. cbn [all_checks]. split.
  - intros H. destruct r as [[]| | | | |]; cbn in H; try discriminate. intros x [<-|I]; [reflexivity|]. apply IH; auto.
  - intros H. rewrite (H r (or_introl eq_refl)). cbn. apply IH. intros x I. apply H. right. exact I.
Qed.
Lemma all_checks_app : forall a b, all_checks (a ++ b) = Ok tt <-> all_checks a = Ok tt /\ all_checks b = Ok tt.
Proof.
  intros a b. rewrite !all_checks_ok. split.
  - intros H. split; intros x I; apply H; apply in_app_iff; auto.
  - intros [A B] x I. apply in_app_iff in I. destruct I; auto.
Qed.
Lemma all_checks_map : forall A (f : A -> result unit) l, all_checks (map f l) = Ok tt <-> forall x, In x l -> f x = Ok tt.
Proof.
  intros A f l. rewrite all_checks_ok. split.
  - intros H x I. apply H. apply in_map. exact I.
  - intros H x I. apply in_map_iff in I. destruct I as [y [<- I]]. auto.
Qed.

(** ** Shifted rows *)

Lemma with_shift_nth : forall data before label k,
  nth_error (with_shift before label data) k =
  match nth_error data k with
  | Some r => Some ((label + k)%nat, r, shifted (rev (firstn k data) ++ before) r)
  | None => None
  end.
Proof.
  induction data as [|r data IH]; intros before label k; [destruct k; reflexivity|].
  destruct k as [|k]; cbn [with_shift nth_error firstn rev].
  - rewrite Nat.add_0_r. reflexivity.
  - rewrite IH. destruct (nth_error data k); [|reflexivity]. rewrite <- app_assoc. cbn [app].
    rewrite Nat.add_succ_r. reflexivity.
Qed.

Lemma In_with_shift : forall data x, In x (with_shift [] 0 data) <->
  exists k r, nth_error data k = Some r /\ x = (k, r, shifted (rev (firstn k data)) r).
Proof.
  intros data x. split.
  - intros I. apply In_nth_error in I. destruct I as [k K]. rewrite with_shift_nth in K.
    destruct (nth_error data k) as [r|] eqn:E; [|discriminate]. inversion K. exists k, r. rewrite app_nil_r. auto.
  - intros [k [r [K ->]]]. apply (nth_error_In _ k). rewrite with_shift_nth, K, app_nil_r. reflexivity.
Qed.

Lemma nth_firstn : forall A (l : list A) n k x, nth_error (firstn n l) k = Some x <-> (k < n)%nat /\ nth_error l k = Some x.
Proof.
  intros A. induction l as [|y l IH]; intros n k x.
  - rewrite firstn_nil. destruct k; cbn; split; intros H; try discriminate; destruct H; discriminate.
  - destruct n as [|n]; [cbn; destruct k; cbn; split; intros H; try discriminate; destruct H; lia|].
    destruct k as [|k]; cbn [firstn nth_error].
    + split; [intros H; split; [lia|exact H] | intros [_ H]; exact H].
    + rewrite IH. split; intros [A0 B]; (split; [lia|exact B]).
Qed.

Lemma find_rev_last : forall A (f : A -> bool) l x, find f (rev l) = Some x ->
  exists a, nth_error l a = Some x /\ f x = true /\ forall b y, (a < b)%nat -> nth_error l b = Some y -> f y = false.
Proof.
  intros A f l. induction l as [|y l IH] using rev_ind; intros x H; [discriminate|].
  rewrite rev_app_distr in H. cbn [rev app find] in H.
  destruct (f y) eqn:F.
  - inversion H; subst. exists (List.length l). split; [rewrite nth_error_app2, Nat.sub_diag by lia; reflexivity|].
    split; [exact F|]. intros b z L N. assert (X : (b < List.length (l ++ [x]))%nat) by (apply nth_error_Some; congruence).
    rewrite app_length in X. cbn in X. lia.
  - destruct (IH x H) as [a [N [T L]]]. exists a. split; [|split; [exact T|]].
    + rewrite nth_error_app1; [exact N|]. apply nth_error_Some. congruence.
    + intros b z G E. destruct (Nat.lt_ge_cases b (List.length l)) as [B|B].
      * rewrite nth_error_app1 in E by exact B. exact (L b z G E).
      * rewrite nth_error_app2 in E by exact B. destruct (b - List.length l)%nat as [|n]; cbn in E; [inversion E; subst; exact F|].
        destruct n; discriminate.
Qed.
Lemma find_rev_none : forall A (f : A -> bool) l, find f (rev l) = None <-> forall x, In x l -> f x = false.
Proof.
  intros A f l. split.
  - intros H x I. apply (find_none f (rev l) H). apply in_rev in I. exact I.
  - intros H. destruct (find f (rev l)) as [x|] eqn:E; [|reflexivity]. apply find_some in E. destruct E as [I T].
    apply in_rev in I. rewrite (H x I) in T. discriminate.
Qed.

Lemma shifted_some : forall data k r q, nth_error data k = Some r -> shifted (rev (firstn k data)) r = Some q ->
  exists a, (a < k)%nat /\ nth_error data a = Some q /\ r_id q = r_id r /\
    forall b y, (a < b < k)%nat -> nth_error data b = Some y -> r_id y <> r_id r.
Proof.
  intros data k r q K H. unfold shifted in H. apply find_rev_last in H. destruct H as [a [N [T L]]].
  apply nth_firstn in N. destruct N as [N1 N2]. apply Z.eqb_eq in T. exists a. repeat split; auto.
  intros b y B E. assert (X : (r_id y =? r_id r) = false) by (apply (L b y); [lia|apply nth_firstn; split; [lia|exact E]]).
  apply Z.eqb_neq in X. exact X.
Qed.
Lemma shifted_none : forall data k r, nth_error data k = Some r -> shifted (rev (firstn k data)) r = None ->
  forall a q, (a < k)%nat -> nth_error data a = Some q -> r_id q <> r_id r.
Proof.
  intros data k r K H a q L N. unfold shifted in H. rewrite find_rev_none in H.
  apply Z.eqb_neq. apply H. apply (nth_error_In _ a). apply nth_firstn. auto.
Qed.

(** In complete panels in the order of periods, the shifted row is the row of the previous
    period. *)
Section Shift.
  Variable m : info.
  Variable data : list row.
  Hypothesis C : complete_panel m data.
  Hypothesis O : in_order data.

  Lemma period_nonneg : forall r, In r data -> 0 <= r_period r.
  Proof.
    intros r I. destruct C as [_ [P _]]. destruct (P r I) as [k [_ H]].
    apply (proj1 (H (r_period r))). exists r. auto.
  Qed.
  Lemma previous_exists : forall r, In r data -> 0 < r_period r -> exists q, In q data /\ r_id q = r_id r /\ r_period q = r_period r - 1.
  Proof.
    intros r I L. destruct C as [_ [P _]]. destruct (P r I) as [k [_ H]].
    assert (X : 0 <= r_period r <= k) by (apply H; exists r; auto).
    apply H. lia.
  Qed.
  Lemma shifted_is : forall k r, nth_error data k = Some r ->
    forall q, shifted (rev (firstn k data)) r = Some q <-> next_period data q r.
  Proof.
    intros k r K q. split.
    - intros H. destruct (shifted_some data k r q K H) as [a [L [N [I B]]]].
      assert (Iq : In q data) by (apply (nth_error_In _ a); exact N).
      assert (Ir : In r data) by (apply (nth_error_In _ k); exact K).
      pose proof (O a k q r L N K I) as LT. pose proof (period_nonneg q Iq) as NN.
      destruct (previous_exists r Ir ltac:(lia)) as [p [Ip [E1 E2]]].
      apply In_nth_error in Ip. destruct Ip as [b Nb].
      destruct (Nat.lt_trichotomy b a) as [X|[X|X]].
      + pose proof (O b a p q X Nb N ltac:(congruence)) as Y. lia.
      + subst b. rewrite N in Nb. inversion Nb; subst p. repeat split; auto; lia.
      + destruct (Nat.lt_trichotomy b k) as [Z|[Z|Z]].
        * exfalso. apply (B b p ltac:(lia) Nb). exact E1.
        * subst b. rewrite K in Nb. inversion Nb; subst p. lia.
        * pose proof (O k b r p Z K Nb ltac:(congruence)). lia.
    - intros [Iq [Ir [E1 E2]]]. destruct (shifted (rev (firstn k data)) r) as [p|] eqn:S.
      + f_equal. destruct (shifted_some data k r p K S) as [a [L [N [I B]]]].
        apply In_nth_error in Iq. destruct Iq as [b Nb].
        assert (Lb : (b < k)%nat).
        { destruct (Nat.lt_trichotomy b k) as [X|[X|X]]; [exact X| |].
          - subst b. rewrite K in Nb. inversion Nb; subst. lia.
          - pose proof (O k b r q X K Nb ltac:(congruence)). lia. }
        destruct (Nat.lt_trichotomy b a) as [X|[X|X]].
        * pose proof (O b a q p X Nb N ltac:(congruence)). pose proof (O a k p r L N K ltac:(congruence)). lia.
        * subst b. congruence.
        * exfalso. apply (B b q ltac:(lia) Nb). congruence.
      + exfalso. apply In_nth_error in Iq. destruct Iq as [b Nb].
        destruct (Nat.lt_trichotomy b k) as [X|[X|X]].
        * apply (shifted_none data k r K S b q X Nb). congruence.
        * subst b. rewrite K in Nb. inversion Nb; subst. lia.
        * pose proof (O k b r q X K Nb ltac:(congruence)). lia.
  Qed.
  Lemma shifted_is_none : forall k r, nth_error data k = Some r ->
    (shifted (rev (firstn k data)) r = None <-> r_period r = 0).
  Proof.
    intros k r K. assert (Ir : In r data) by (apply (nth_error_In _ k); exact K). split.
    - intros H. pose proof (period_nonneg r Ir) as N. destruct (Z.eq_dec (r_period r) 0) as [E|E]; [exact E|].
      destruct (previous_exists r Ir ltac:(lia)) as [q [Iq [E1 E2]]].
      assert (S : shifted (rev (firstn k data)) r = Some q) by (apply (shifted_is k r K); repeat split; auto; lia).
      congruence.
    - intros E. destruct (shifted (rev (firstn k data)) r) as [q|] eqn:S; [|reflexivity].
      apply (shifted_is k r K) in S. destruct S as [Iq [_ [_ E2]]]. pose proof (period_nonneg q Iq). lia.
  Qed.
End Shift.

(** ** Complete panels *)

Lemma fold_max : forall l x, (In (fold_left Z.max l x) (x :: l)) /\ forall y, In y (x :: l) -> y <= fold_left Z.max l x.
Proof.
  induction l as [|z l IH]; intros x; cbn [fold_left].
  - split; [left; reflexivity|]. intros y [<-|[]]. lia.
  - destruct (IH (Z.max x z)) as [A B]. split.
    + destruct A as [A|A]; [|right; right; exact A]. rewrite <- A.
      destruct (Z.max_spec x z) as [[_ ->]|[_ ->]]; [right; left; reflexivity|left; reflexivity].
    + intros y [<-|[<-|I]].
      * apply Z.le_trans with (Z.max x z); [lia|]. apply B. left. reflexivity.
      * apply Z.le_trans with (Z.max x z); [lia|]. apply B. left. reflexivity.
      * apply B. right. exact I.
Qed.

Definition periods_of (data : list row) (i : Z) : list Z := map r_period (filter (fun r => Z.eqb (r_id r) i) data).
Definition keys_of (data : list row) : list (Z * Z) := map (fun r => (r_id r, r_period r)) data.

Lemma In_periods_of : forall data i t, In t (periods_of data i) <-> exists q, In q data /\ r_id q = i /\ r_period q = t.
Proof.
  intros data i t. unfold periods_of. rewrite in_map_iff. split.
  - intros [q [E I]]. apply filter_In in I. destruct I as [I X]. apply Z.eqb_eq in X. eauto.
  - intros [q [I [E1 E2]]]. exists q. split; [exact E2|]. apply filter_In. split; [exact I|]. apply Z.eqb_eq. exact E1.
Qed.
Lemma NoDup_periods_of : forall data i, NoDup (keys_of data) -> NoDup (periods_of data i).
Proof.
  induction data as [|r data IH]; intros i N; [constructor|]. cbn in N. inversion N as [|? ? NI N']; subst.
  unfold periods_of. cbn [filter]. destruct (Z.eqb_spec (r_id r) i) as [E|E]; [|apply IH; exact N'].
  cbn [map]. constructor; [|apply IH; exact N']. intros I. apply In_periods_of in I. destruct I as [q [I [E1 E2]]].
  apply NI. unfold keys_of. apply in_map_iff. exists q. split; [congruence|exact I].
Qed.
Lemma In_range : forall n x, In x (map Z.of_nat (seq 0 n)) <-> 0 <= x < Z.of_nat n.
Proof.
  intros n x. rewrite in_map_iff. split.
  - intros [k [<- I]]. apply in_seq in I. lia.
  - intros H. exists (Z.to_nat x). split; [lia|]. apply in_seq. lia.
Qed.
Lemma NoDup_range : forall n, NoDup (map Z.of_nat (seq 0 n)).
Proof. intros n. apply FinFun.Injective_map_NoDup; [intros x y H; lia | apply seq_NoDup]. Qed.

Lemma check_complete_iff : forall data, NoDup (keys_of data) -> (forall r, In r data -> 0 <= r_period r) ->
  (check_complete data = true <->
   forall r, In r data -> exists k, forall t, In t (periods_of data (r_id r)) <-> 0 <= t <= k).
Proof.
  intros data N P. unfold check_complete. rewrite forallb_forall. split.
  - intros H r I. specialize (H (r_id r) (in_map r_id data r I)). cbv zeta in H. fold (periods_of data (r_id r)) in H.
    destruct (periods_of data (r_id r)) as [|p ps] eqn:E.
    { assert (X : In (r_period r) (periods_of data (r_id r))) by (apply In_periods_of; eauto). rewrite E in X. destruct X. }
    apply Z.eqb_eq in H. set (mx := fold_left Z.max ps p) in *. exists mx.
    destruct (fold_max ps p) as [A B]. fold mx in A, B.
    assert (NN : forall t, In t (p :: ps) -> 0 <= t).
    { intros t T. rewrite <- E in T. apply In_periods_of in T. destruct T as [q [Iq [_ <-]]]. apply P. exact Iq. }
    assert (INC : incl (map Z.of_nat (seq 0 (Z.to_nat (mx + 1)))) (p :: ps)).
    { apply NoDup_length_incl.
      - rewrite <- E. apply NoDup_periods_of. exact N.
      - rewrite map_length, seq_length. lia.
      - intros t T. apply In_range. pose proof (NN t T). pose proof (B t T). lia. }
    intros t. split.
    + intros T. pose proof (NN t T). pose proof (B t T). lia.
    + intros T. apply INC. apply In_range. lia.
  - intros H i I. apply in_map_iff in I. destruct I as [r [<- I]]. destruct (H r I) as [k K].
    cbv zeta. fold (periods_of data (r_id r)).
    destruct (periods_of data (r_id r)) as [|p ps] eqn:E; [reflexivity|]. apply Z.eqb_eq.
    destruct (fold_max ps p) as [A B].
    assert (K0 : 0 <= k) by (assert (X : 0 <= p <= k) by (apply K; left; reflexivity); lia).
    assert (M : fold_left Z.max ps p = k).
    { apply Z.le_antisymm; [apply K; exact A|]. apply B. apply K. lia. }
    assert (PE : Permutation (p :: ps) (map Z.of_nat (seq 0 (Z.to_nat (k + 1))))).
    { apply NoDup_Permutation; [rewrite <- E; apply NoDup_periods_of; exact N | apply NoDup_range |].
      intros t. rewrite In_range, K. lia. }
    apply Permutation_length in PE. rewrite map_length, seq_length in PE. rewrite PE, M. lia.
Qed.

Lemma NoDup_keys_iff : forall data, NoDup (keys_of data) <->
  (forall a b r q, nth_error data a = Some r -> nth_error data b = Some q ->
     r_id r = r_id q -> r_period r = r_period q -> a = b).
Proof.
  intros data. unfold keys_of. rewrite NoDup_nth_error. split.
  - intros H a b r q A B E1 E2. apply H.
    + rewrite map_length. apply nth_error_Some. congruence.
    + rewrite (map_nth_error _ _ _ A), (map_nth_error _ _ _ B). congruence.
  - intros H a b L E. rewrite map_length in L. destruct (nth_error data a) as [r|] eqn:A; [|apply nth_error_None in A; lia].
    rewrite (map_nth_error _ _ _ A) in E.
    destruct (nth_error data b) as [q|] eqn:B.
    + rewrite (map_nth_error _ _ _ B) in E. inversion E. eapply H; eauto.
    + assert (X : nth_error (map (fun r => (r_id r, r_period r)) data) b = None).
      { apply nth_error_None. rewrite map_length. apply nth_error_None. exact B. }
      congruence.
Qed.

Definition unique_ids (data : list row) : list Z := drop_duplicates Z.eq_dec (map r_id data).
Lemma In_unique_ids : forall data i, In i (unique_ids data) <-> exists r, In r data /\ r_id r = i.
Proof.
  intros data i. unfold unique_ids. rewrite In_drop_duplicates, in_map_iff. split; intros [r H]; exists r; tauto.
Qed.
Lemma sorted_unique : forall a b, StronglySorted Z.lt a -> StronglySorted Z.lt b -> (forall x, In x a <-> In x b) -> a = b.
Proof.
  induction a as [|x a IH]; intros b A B E.
  - destruct b as [|y b]; [reflexivity|]. exfalso. apply (E y). left. reflexivity.
  - destruct b as [|y b]; [exfalso; apply (E x); left; reflexivity|].
    inversion A as [|? ? A1 A2]; inversion B as [|? ? B1 B2]; subst. rewrite Forall_forall in A2, B2.
    assert (X : x = y).
    { assert (Ix : In x (y :: b)) by (apply E; left; reflexivity). assert (Iy : In y (x :: a)) by (apply E; left; reflexivity).
      destruct Ix as [Ix|Ix]; [auto|]. destruct Iy as [Iy|Iy]; [auto|]. specialize (A2 y Iy). specialize (B2 x Ix). lia. }
    subst y. f_equal. apply IH; auto. intros z. split; intros I.
    + assert (J : In z (x :: b)) by (apply E; right; exact I). destruct J as [J|J]; [|exact J]. subst z. specialize (A2 x I). lia.
    + assert (J : In z (x :: a)) by (apply E; right; exact I). destruct J as [J|J]; [|exact J]. subst z. specialize (B2 x I). lia.
Qed.
Lemma sorted_range : forall n s, StronglySorted Z.lt (map Z.of_nat (seq s n)).
Proof.
  induction n as [|n IH]; intros s; cbn; constructor; [apply IH|]. apply Forall_forall. intros x I.
  apply in_map_iff in I. destruct I as [k [<- I]]. apply in_seq in I. lia.
Qed.
Lemma sorted_ids : forall data, individuals_in_order data -> StronglySorted Z.lt (unique_ids data).
Proof.
  assert (S : forall data, individuals_in_order data -> StronglySorted Z.le (map r_id data)).
  { induction data as [|r data IH]; intros H; [constructor|]. cbn. constructor.
    - apply IH. intros a b x y L A B. apply (H (S a) (S b) x y); [lia|exact A|exact B].
    - apply Forall_forall. intros i I. apply in_map_iff in I. destruct I as [q [<- I]]. apply In_nth_error in I. destruct I as [k K].
      apply (H O (S k) r q); [lia|reflexivity|exact K]. }
  intros data H. specialize (S data H). unfold unique_ids. clear H.
  assert (NI := NoDup_drop_duplicates _ Z.eq_dec (map r_id data)).
  assert (M : StronglySorted Z.le (drop_duplicates Z.eq_dec (map r_id data))).
  { clear NI. induction S as [|x l S IH F]; [constructor|]. cbn [drop_duplicates].
    assert (G : Forall (Z.le x) (drop_duplicates Z.eq_dec l)).
    { apply Forall_forall. intros y Y. apply In_drop_duplicates in Y. rewrite Forall_forall in F. auto. }
    constructor.
    - clear - IH. induction IH as [|y l' IH1 IH2 IH3]; cbn; [constructor|]. destruct (Z.eq_dec x y); cbn; [exact IH2|].
      constructor; [exact IH2|]. rewrite Forall_forall in *. intros z Z. apply filter_In in Z. apply IH3. tauto.
    - rewrite Forall_forall in *. intros z Z. apply filter_In in Z. apply G. tauto. }
  clear S. induction M as [|x l M IH F]; [constructor|]. inversion NI; subst. constructor; [auto|].
  rewrite Forall_forall in *. intros y Y. specialize (F y Y). assert (x <> y) by congruence. lia.
Qed.
