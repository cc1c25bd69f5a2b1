(** Lemmas about the helpers of Base.v. *)
From Coq Require Import List Arith Bool Lia Permutation Sorted.
From Verif Require Import Base.
Import ListNotations.

(** ** enumerate *)
Lemma enumerate_from_spec : forall A (l : list A) n i x,
  In (i, x) (enumerate_from n l) <-> n <= i /\ nth_error l (i - n) = Some x.
Proof.
  induction l as [|y l IH]; intros n i x; simpl.
  - split; [tauto|]. intros [_ H]. destruct (i - n); discriminate.
  - rewrite IH. split.
    + intros [H|[H1 H2]].
      * inversion H; subst. split; [lia|]. rewrite Nat.sub_diag. reflexivity.
      * split; [lia|]. replace (i - n) with (S (i - S n)) by lia. exact H2.
    + intros [H1 H2]. destruct (Nat.eq_dec n i) as [->|Hne].
      * left. rewrite Nat.sub_diag in H2. simpl in H2. congruence.
      * right. split; [lia|]. replace (i - n) with (S (i - S n)) in H2 by lia. exact H2.
Qed.

Lemma In_enumerate : forall A (l : list A) i x,
  In (i, x) (enumerate l) <-> nth_error l i = Some x.
Proof.
  intros. unfold enumerate. rewrite enumerate_from_spec, Nat.sub_0_r.
  intuition lia.
Qed.

Lemma length_enumerate_from : forall A (l : list A) n,
  length (enumerate_from n l) = length l.
Proof. induction l; intros; simpl; auto. Qed.
Lemma length_enumerate : forall A (l : list A), length (enumerate l) = length l.
Proof. intros. apply length_enumerate_from. Qed.

Lemma map_fst_enumerate_from : forall A (l : list A) n,
  map fst (enumerate_from n l) = seq n (length l).
Proof. induction l as [|x l IH]; intros n; simpl; [|rewrite IH]; reflexivity. Qed.
Lemma map_snd_enumerate_from : forall A (l : list A) n,
  map snd (enumerate_from n l) = l.
Proof. induction l as [|x l IH]; intros n; simpl; [|rewrite IH]; reflexivity. Qed.
Lemma map_snd_enumerate : forall A (l : list A), map snd (enumerate l) = l.
Proof. intros. apply map_snd_enumerate_from. Qed.

Lemma nth_error_enumerate_from : forall A (l : list A) n i,
  nth_error (enumerate_from n l) i = option_map (fun x => (n + i, x)) (nth_error l i).
Proof.
  induction l as [|x l IH]; intros n i; destruct i; simpl; try reflexivity.
  - rewrite Nat.add_0_r. reflexivity.
  - rewrite IH. destruct (nth_error l i); simpl; [|reflexivity].
    f_equal. f_equal. lia.
Qed.
Lemma nth_error_enumerate : forall A (l : list A) i,
  nth_error (enumerate l) i = option_map (fun x => (i, x)) (nth_error l i).
Proof. intros. unfold enumerate. apply nth_error_enumerate_from. Qed.

Lemma enumerate_from_app : forall A (l1 l2 : list A) n,
  enumerate_from n (l1 ++ l2) = enumerate_from n l1 ++ enumerate_from (n + length l1) l2.
Proof.
  induction l1 as [|x l1 IH]; intros l2 n; simpl.
  - rewrite Nat.add_0_r. reflexivity.
  - rewrite IH. simpl. rewrite Nat.add_succ_r. reflexivity.
Qed.

Lemma NoDup_enumerate_from : forall A (l : list A) n, NoDup (enumerate_from n l).
Proof.
  intros A l n. apply (NoDup_map_inv fst). rewrite map_fst_enumerate_from.
  apply seq_NoDup.
Qed.

(** ** drop_duplicates *)
Lemma In_drop_duplicates : forall A eqd (l : list A) x,
  In x (drop_duplicates eqd l) <-> In x l.
Proof.
  induction l as [|y l IH]; intros x; simpl; [tauto|].
  rewrite filter_In, IH. destruct (eqd y x) as [->|Hne]; intuition congruence.
Qed.

Lemma NoDup_filter : forall A (f : A -> bool) l, NoDup l -> NoDup (filter f l).
Proof.
  induction l as [|x l IH]; simpl; intros H; [constructor|].
  inversion H; subst. destruct (f x); auto. constructor; auto.
  rewrite filter_In. tauto.
Qed.

Lemma NoDup_drop_duplicates : forall A eqd (l : list A), NoDup (drop_duplicates eqd l).
Proof.
  induction l as [|y l IH]; simpl; constructor.
  - rewrite filter_In. destruct (eqd y y); intuition congruence.
  - apply NoDup_filter. exact IH.
Qed.

Lemma drop_duplicates_NoDup_id : forall A eqd (l : list A),
  NoDup l -> drop_duplicates eqd l = l.
Proof.
  induction l as [|y l IH]; simpl; intros H; [reflexivity|].
  inversion H; subst. rewrite IH by assumption. f_equal.
  clear IH H. induction l as [|z l IH]; simpl; [reflexivity|].
  destruct (eqd y z) as [->|Hne].
  - exfalso. apply H2. left. reflexivity.
  - rewrite IH; [reflexivity| |]; [intro Hin; apply H2; right; exact Hin|].
    inversion H3; assumption.
Qed.

(** ** product *)
Lemma In_product : forall A (ls : list (list A)) v,
  In v (product ls) <-> Forall2 (fun x l => In x l) v ls.
Proof.
  induction ls as [|l ls IH]; intros v; simpl.
  - split.
    + intros [<-|[]]. constructor.
    + intros H. inversion H. left. reflexivity.
  - rewrite in_flat_map. split.
    + intros [x [Hx Hv]]. rewrite in_map_iff in Hv. destruct Hv as [w [<- Hw]].
      constructor; [exact Hx|]. apply IH. exact Hw.
    + intros H. inversion H; subst. exists x. split; [assumption|].
      apply in_map_iff. exists l0. split; [reflexivity|]. apply IH. assumption.
Qed.

Lemma length_product : forall A (ls : list (list A)),
  length (product ls) = fold_right Nat.mul 1 (map (@length A) ls).
Proof.
  induction ls as [|l ls IH]; simpl; [reflexivity|].
  rewrite <- IH. generalize (product ls) as q. intros q.
  induction l as [|x l IHl]; simpl; [reflexivity|].
  rewrite app_length, map_length, IHl. reflexivity.
Qed.

Lemma NoDup_app_intro : forall A (l1 l2 : list A),
  NoDup l1 -> NoDup l2 -> (forall x, In x l1 -> In x l2 -> False) -> NoDup (l1 ++ l2).
Proof.
  induction l1 as [|x l1 IH]; simpl; intros l2 H1 H2 H3; [assumption|].
  inversion H1; subst. constructor.
  - rewrite in_app_iff. intros [Hin|Hin]; [tauto|]. apply (H3 x); auto.
  - apply IH; auto. intros y Hy1 Hy2. apply (H3 y); auto.
Qed.

Lemma NoDup_flat_map_intro : forall A B (f : A -> list B) l,
  NoDup l -> (forall x, In x l -> NoDup (f x)) ->
  (forall x y z, In x l -> In y l -> In z (f x) -> In z (f y) -> x = y) ->
  NoDup (flat_map f l).
Proof.
  induction l as [|x l IH]; simpl; intros H1 H2 H3; [constructor|].
  inversion H1; subst. apply NoDup_app_intro.
  - apply H2. auto.
  - apply IH; auto. intros a b c Ha Hb. apply H3; auto.
  - intros z Hz1 Hz2. apply in_flat_map in Hz2. destruct Hz2 as [y [Hy1 Hy2]].
    assert (x = y) by (apply (H3 x y z); auto). subst. tauto.
Qed.

Lemma NoDup_product : forall A (ls : list (list A)),
  (forall l, In l ls -> NoDup l) -> NoDup (product ls).
Proof.
  induction ls as [|l ls IH]; simpl; intros H.
  - constructor; [simpl; tauto|constructor].
  - apply NoDup_flat_map_intro.
    + apply H. auto.
    + intros x _. apply FinFun.Injective_map_NoDup.
      * intros a b Hab. congruence.
      * apply IH. auto.
    + intros x y z _ _ Hx Hy. rewrite in_map_iff in Hx, Hy.
      destruct Hx as [a [<- _]], Hy as [b [Hb _]]. congruence.
Qed.

(** ** insertion sort *)
Section Sort.
  Context {A : Type} (leb : A -> A -> bool).

  Lemma Permutation_insert : forall x l, Permutation (insert leb x l) (x :: l).
  Proof.
    induction l as [|y l IH]; simpl; [reflexivity|].
    destruct (leb x y); [reflexivity|]. rewrite IH. apply perm_swap.
  Qed.

  Lemma Permutation_isort : forall l, Permutation (isort leb l) l.
  Proof.
    unfold isort. induction l as [|x l IH]; simpl; [reflexivity|].
    rewrite Permutation_insert, IH. reflexivity.
  Qed.

  Lemma In_isort : forall l x, In x (isort leb l) <-> In x l.
  Proof.
    intros l x. split; apply Permutation_in; [|symmetry]; apply Permutation_isort.
  Qed.

  Lemma NoDup_isort : forall l, NoDup l -> NoDup (isort leb l).
  Proof.
    intros l. apply Permutation_NoDup. symmetry. apply Permutation_isort.
  Qed.

  Lemma length_isort : forall l, length (isort leb l) = length l.
  Proof. intros l. apply Permutation_length, Permutation_isort. Qed.

  Hypothesis leb_total : forall x y, leb x y = true \/ leb y x = true.
  Hypothesis leb_trans : forall x y z, leb x y = true -> leb y z = true -> leb x z = true.

  Lemma Sorted_insert : forall x l,
    StronglySorted (fun a b => leb a b = true) l ->
    StronglySorted (fun a b => leb a b = true) (insert leb x l).
  Proof.
    induction l as [|y l IH]; simpl; intros H.
    - constructor; constructor.
    - inversion H; subst. destruct (leb x y) eqn:E.
      + constructor; [assumption|]. constructor; [assumption|].
        rewrite Forall_forall in *. intros z Hz. apply leb_trans with y; auto.
      + constructor; [auto|]. rewrite Forall_forall in *. intros z Hz.
        apply (Permutation_in _ (Permutation_insert x l)) in Hz.
        destruct Hz as [<-|Hz]; [|auto]. destruct (leb_total x y); congruence.
  Qed.

  Lemma Sorted_isort : forall l,
    StronglySorted (fun a b => leb a b = true) (isort leb l).
  Proof.
    unfold isort. induction l as [|x l IH]; simpl; [constructor|].
    apply Sorted_insert. exact IH.
  Qed.

  Hypothesis leb_antisym : forall x y, leb x y = true -> leb y x = true -> x = y.

  Lemma sorted_perm_eq : forall l1 l2,
    StronglySorted (fun a b => leb a b = true) l1 ->
    StronglySorted (fun a b => leb a b = true) l2 ->
    Permutation l1 l2 -> l1 = l2.
  Proof.
    induction l1 as [|x l1 IH]; intros l2 H1 H2 HP.
    - apply Permutation_nil in HP. congruence.
    - destruct l2 as [|y l2].
      + symmetry in HP. apply Permutation_nil in HP. discriminate.
      + inversion H1; inversion H2; subst. rewrite Forall_forall in *.
        assert (x = y).
        { assert (Hx : In x (y :: l2)) by (eapply Permutation_in; [exact HP|left; auto]).
          assert (Hy : In y (x :: l1))
            by (eapply Permutation_in; [symmetry; exact HP|left; auto]).
          destruct Hx as [->|Hx]; [reflexivity|].
          destruct Hy as [->|Hy]; [reflexivity|].
          apply leb_antisym; auto. }
        subst. f_equal. apply IH; auto. apply Permutation_cons_inv in HP. exact HP.
  Qed.

  Lemma isort_perm_eq : forall l1 l2, Permutation l1 l2 -> isort leb l1 = isort leb l2.
  Proof.
    intros l1 l2 H. apply sorted_perm_eq; try apply Sorted_isort.
    rewrite !Permutation_isort. exact H.
  Qed.
End Sort.

(** ** dictionaries *)
Section Dict.
  Context {K V : Type} (eqd : forall x y : K, {x = y} + {x <> y}).

  Lemma dict_get_set_same : forall k v (d : list (K * V)),
    dict_get eqd k (dict_set eqd k v d) = Some v.
  Proof.
    induction d as [|[k' v'] d IH]; simpl.
    - destruct (eqd k k); congruence.
    - destruct (eqd k k') as [->|H]; simpl.
      + destruct (eqd k' k'); congruence.
      + destruct (eqd k k'); congruence.
  Qed.

  Lemma dict_get_set_other : forall k k2 v (d : list (K * V)), k2 <> k ->
    dict_get eqd k2 (dict_set eqd k v d) = dict_get eqd k2 d.
  Proof.
    induction d as [|[k' v'] d IH]; simpl; intros H.
    - destruct (eqd k2 k); congruence.
    - destruct (eqd k k') as [->|Hk]; simpl.
      + destruct (eqd k2 k'); congruence.
      + destruct (eqd k2 k'); auto.
  Qed.

  Lemma dict_get_Some_In : forall k v (d : list (K * V)),
    dict_get eqd k d = Some v -> In (k, v) d.
  Proof.
    induction d as [|[k' v'] d IH]; simpl; [discriminate|].
    destruct (eqd k k') as [->|H]; intros E.
    - left. congruence.
    - right. auto.
  Qed.

  Lemma dict_get_None : forall k (d : list (K * V)),
    dict_get eqd k d = None <-> ~ In k (dict_keys d).
  Proof.
    induction d as [|[k' v'] d IH]; simpl; [tauto|].
    destruct (eqd k k') as [->|H].
    - split; [discriminate|tauto].
    - rewrite IH. intuition.
  Qed.

  Lemma dict_get_In_NoDup : forall k v (d : list (K * V)),
    NoDup (dict_keys d) -> In (k, v) d -> dict_get eqd k d = Some v.
  Proof.
    induction d as [|[k' v'] d IH]; simpl; intros H E; [destruct E|].
    destruct E as [E|E]; inversion H; subst.
    - inversion E; subst. destruct (eqd k k); congruence.
    - destruct (eqd k k') as [->|Hne]; [|auto].
      exfalso. apply H2. unfold dict_keys. apply (in_map fst) in E. exact E.
  Qed.

  Lemma dict_keys_set : forall k v (d : list (K * V)),
    dict_keys (dict_set eqd k v d) =
    if in_dec eqd k (dict_keys d) then dict_keys d else dict_keys d ++ [k].
  Proof.
    induction d as [|[k' v'] d IH]; simpl; [reflexivity|].
    destruct (eqd k k') as [->|H].
    - simpl. destruct (eqd k' k'); [|congruence]. reflexivity.
    - simpl. unfold dict_keys in *. rewrite IH.
      destruct (eqd k' k) as [->|H']; [congruence|].
      destruct (in_dec eqd k (map fst d)); reflexivity.
  Qed.

  Lemma NoDup_keys_set : forall k v (d : list (K * V)),
    NoDup (dict_keys d) -> NoDup (dict_keys (dict_set eqd k v d)).
  Proof.
    intros k v d H. rewrite dict_keys_set. destruct (in_dec eqd k (dict_keys d)); auto.
    apply NoDup_app_intro; auto.
    - constructor; [simpl; tauto|constructor].
    - intros x Hx [<-|[]]. tauto.
  Qed.

  Lemma In_keys_set : forall k k2 v (d : list (K * V)),
    In k2 (dict_keys (dict_set eqd k v d)) <-> k2 = k \/ In k2 (dict_keys d).
  Proof.
    intros. rewrite dict_keys_set. destruct (in_dec eqd k (dict_keys d)).
    - intuition congruence.
    - rewrite in_app_iff. simpl. intuition.
  Qed.

  Lemma NoDup_keys_update : forall (d2 d1 : list (K * V)),
    NoDup (dict_keys d1) -> NoDup (dict_keys (dict_update eqd d1 d2)).
  Proof.
    unfold dict_update. induction d2 as [|[k v] d2 IH]; simpl; intros d1 H; [assumption|].
    apply IH. apply NoDup_keys_set. exact H.
  Qed.

  Lemma In_keys_update : forall k (d2 d1 : list (K * V)),
    In k (dict_keys (dict_update eqd d1 d2)) <-> In k (dict_keys d1) \/ In k (dict_keys d2).
  Proof.
    unfold dict_update. induction d2 as [|[k' v] d2 IH]; simpl; intros d1; [tauto|].
    rewrite IH, In_keys_set. intuition.
  Qed.

  (** Appending pairs with fresh, distinct keys. *)
  Lemma dict_set_fresh : forall k v (d : list (K * V)),
    ~ In k (dict_keys d) -> dict_set eqd k v d = d ++ [(k, v)].
  Proof.
    induction d as [|[k' v'] d IH]; simpl; intros H; [reflexivity|].
    destruct (eqd k k') as [->|Hne]; [tauto|]. rewrite IH; [reflexivity|tauto].
  Qed.

  Lemma dict_update_fresh : forall (d2 d1 : list (K * V)),
    NoDup (dict_keys d2) -> (forall k, In k (dict_keys d2) -> ~ In k (dict_keys d1)) ->
    dict_update eqd d1 d2 = d1 ++ d2.
  Proof.
    unfold dict_update. induction d2 as [|[k v] d2 IH]; simpl; intros d1 H1 H2.
    - rewrite app_nil_r. reflexivity.
    - inversion H1; subst. rewrite dict_set_fresh by (apply H2; auto).
      rewrite IH; auto.
      + rewrite <- app_assoc. reflexivity.
      + intros k2 Hk2. unfold dict_keys. rewrite map_app, in_app_iff. simpl.
        intros [H|[H|[]]].
        * apply (H2 k2); auto.
        * subst. tauto.
  Qed.

  Lemma dict_of_pairs_NoDup : forall (l : list (K * V)),
    NoDup (dict_keys l) -> dict_of_pairs eqd l = l.
  Proof.
    intros l H. unfold dict_of_pairs. rewrite dict_update_fresh; auto.
  Qed.

  Lemma dict_get_update : forall k (d2 d1 : list (K * V)),
    ~ In k (dict_keys d2) -> dict_get eqd k (dict_update eqd d1 d2) = dict_get eqd k d1.
  Proof.
    unfold dict_update. induction d2 as [|[k' v] d2 IH]; simpl; intros d1 H; [reflexivity|].
    rewrite IH by tauto. apply dict_get_set_other. intro E. apply H. auto.
  Qed.

  Lemma dict_get_app : forall k (d1 d2 : list (K * V)),
    dict_get eqd k (d1 ++ d2) =
    match dict_get eqd k d1 with Some v => Some v | None => dict_get eqd k d2 end.
  Proof.
    induction d1 as [|[k' v'] d1 IH]; simpl; intros; [reflexivity|].
    destruct (eqd k k'); auto.
  Qed.
End Dict.

(** ** positions, compress, count_true *)
Lemma length_positions_from : forall m n,
  length (map fst (filter (fun p : nat * bool => snd p) (enumerate_from n m)))
  = count_true m.
Proof. induction m as [|b m IH]; intros n; simpl; [reflexivity|]. destruct b; simpl; rewrite IH; reflexivity. Qed.
Lemma length_positions : forall m, length (positions m) = count_true m.
Proof. intros. apply length_positions_from. Qed.

Lemma In_positions : forall m i, In i (positions m) <-> nth_error m i = Some true.
Proof.
  intros m i. unfold positions. rewrite in_map_iff. split.
  - intros [[j b] [E H]]. simpl in E. subst j. rewrite filter_In in H.
    destruct H as [H1 H2]. simpl in H2. subst b. apply In_enumerate. exact H1.
  - intros H. exists (i, true). split; [reflexivity|]. rewrite filter_In. split; [|reflexivity].
    apply In_enumerate. exact H.
Qed.

Lemma positions_sorted_from : forall m n,
  StronglySorted lt (map fst (filter (fun p : nat * bool => snd p) (enumerate_from n m)))
  /\ Forall (fun i => n <= i)
       (map fst (filter (fun p : nat * bool => snd p) (enumerate_from n m))).
Proof.
  induction m as [|b m IH]; intros n; simpl; [split; constructor|].
  destruct (IH (S n)) as [H1 H2].
  assert (H2' : Forall (fun i => n <= i)
    (map fst (filter (fun p : nat * bool => snd p) (enumerate_from (S n) m)))).
  { eapply Forall_impl; [|exact H2]. simpl. intros; lia. }
  destruct b; simpl; split; auto.
  constructor; auto.
Qed.
Lemma positions_sorted : forall m, StronglySorted lt (positions m).
Proof. intros. apply positions_sorted_from. Qed.

Lemma NoDup_positions : forall m, NoDup (positions m).
Proof.
  intros m. generalize (positions_sorted m). induction 1 as [|x l H1 IH H2]; constructor; auto.
  rewrite Forall_forall in H2. intros H. apply H2 in H. lia.
Qed.

Lemma length_compress : forall A m (l : list A), length m = length l ->
  length (compress m l) = count_true m.
Proof.
  induction m as [|b m IH]; intros [|x l] H; simpl in *; try lia.
  destruct b; simpl; rewrite IH by lia; reflexivity.
Qed.

Lemma compress_positions_from : forall A m (l : list A) n d, length m = length l ->
  compress m l =
  map (fun i => nth (i - n) l d)
      (map fst (filter (fun p : nat * bool => snd p) (enumerate_from n m))).
Proof.
  induction m as [|b m IH]; intros [|x l] n d H; simpl in *; try lia; [reflexivity|].
  assert (E : compress m l = map (fun i => nth (i - n) (x :: l) d)
    (map fst (filter (fun p : nat * bool => snd p) (enumerate_from (S n) m)))).
  { rewrite (IH l (S n) d) by lia. apply map_ext_in. intros i Hi.
    destruct (positions_sorted_from m (S n)) as [_ Hf]. rewrite Forall_forall in Hf.
    specialize (Hf i Hi). replace (i - n) with (S (i - S n)) by lia. reflexivity. }
  destruct b; simpl.
  - rewrite Nat.sub_diag. rewrite E. reflexivity.
  - exact E.
Qed.
Lemma compress_positions : forall A m (l : list A) d, length m = length l ->
  compress m l = map (fun i => nth i l d) (positions m).
Proof.
  intros A m l d H. rewrite (compress_positions_from A m l 0 d H). unfold positions, enumerate.
  apply map_ext. intros i. rewrite Nat.sub_0_r. reflexivity.
Qed.

(** Membership by computation. *)
Lemma in_by_compute : forall A (eqd : forall x y : A, {x = y} + {x <> y}) x l,
  (if in_dec eqd x l then true else false) = true -> In x l.
Proof. intros A eqd x l. destruct (in_dec eqd x l); [auto|discriminate]. Qed.
Lemma not_in_by_compute : forall A (eqd : forall x y : A, {x = y} + {x <> y}) x l,
  (if in_dec eqd x l then true else false) = false -> ~ In x l.
Proof. intros A eqd x l. destruct (in_dec eqd x l); [discriminate|auto]. Qed.
