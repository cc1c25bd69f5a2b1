(** Proofs about the distribution over dense keys. *)
From Coq Require Import List Arith Bool Lia Permutation Sorted.
From Verif Require Import Base Proof_Base Model_Parallel Spec_Parallel.
Import ListNotations.

Lemma mem_In : forall n l, mem n l = true <-> In n l.
Proof.
  intros n l. unfold mem. rewrite existsb_exists. split.
  - intros [x [H E]]. apply Nat.eqb_eq in E. subst. exact H.
  - intros H. exists n. split; [exact H|apply Nat.eqb_refl].
Qed.

Lemma is_dict_spec : forall A (v : pyval A),
  is_dictionary_with_integer_keys v = true <-> dense_dictionary v.
Proof.
  intros A [a|d]; simpl; [split; [discriminate|tauto]|].
  rewrite andb_true_iff, Nat.ltb_lt, forallb_forall. split.
  - intros [H1 H2]. split; [intros ->; simpl in H1; lia|].
    intros k x H. specialize (H2 k). destruct k as [n|n]; [eauto|].
    simpl in H2. discriminate H2. apply in_map_iff. exists (KOther n, x). auto.
  - intros [H1 H2]. split; [destruct d; simpl; [congruence|lia]|].
    intros k H. apply in_map_iff in H. destruct H as [[k' x] [E H]]. simpl in E. subst k'.
    destruct (H2 _ _ H) as [n ->]. reflexivity.
Qed.

Lemma int_keys_spec : forall A (v : pyval A) n, In n (int_keys v) <-> has_key v n.
Proof.
  intros A [a|d] n; simpl; [tauto|]. rewrite in_flat_map. split.
  - intros [[k x] [H1 H2]]. simpl in H2. destruct k; simpl in H2; [|tauto].
    destruct H2 as [->|[]]. eauto.
  - intros [x H]. exists (KInt n, x). simpl. auto.
Qed.

Lemma infer_spec : forall A (args : list (pyval A)) kwargs k,
  In k (infer_dense_keys args kwargs) <->
  some_dense_dictionary args kwargs /\ shared_key args kwargs k.
Proof.
  intros A args kwargs k. unfold infer_dense_keys, some_dense_dictionary, shared_key.
  assert (HF : forall v, In v (filter is_dictionary_with_integer_keys (args ++ map snd kwargs))
                 <-> In v (args ++ map snd kwargs) /\ dense_dictionary v).
  { intros v. rewrite filter_In, is_dict_spec. tauto. }
  destruct (filter is_dictionary_with_integer_keys (args ++ map snd kwargs)) as [|d ds].
  - simpl in *. split; [tauto|]. intros [[v Hv] _]. exact (proj2 (HF v) Hv).
  - rewrite filter_In, In_drop_duplicates, int_keys_spec, forallb_forall. split.
    + intros [H1 H2]. split; [exists d; apply HF; simpl; auto|].
      intros v Hv1 Hv2. assert (H : In v (d :: ds)) by (apply HF; auto).
      destruct H as [<-|H]; [exact H1|]. apply int_keys_spec, mem_In, H2. exact H.
    + intros [_ H]. split.
      * destruct (proj1 (HF d)) as [X Y]; [simpl; auto|]. apply H; auto.
      * intros v Hv. apply mem_In, int_keys_spec. destruct (proj1 (HF v)) as [X Y]; [simpl; auto|].
        apply H; auto.
Qed.

Lemma NoDup_infer : forall A (args : list (pyval A)) kwargs, NoDup (infer_dense_keys args kwargs).
Proof.
  intros. unfold infer_dense_keys.
  destruct (filter is_dictionary_with_integer_keys (args ++ map snd kwargs)); [constructor|].
  apply NoDup_filter, NoDup_drop_duplicates.
Qed.

Lemma results_ok : forall A (l : list (result A)) xs,
  l = map Ok xs -> results l = Ok xs.
Proof.
  intros A l xs ->. induction xs as [|x xs IH]; simpl; [reflexivity|]. rewrite IH. reflexivity.
Qed.

Lemma has_key_get : forall A (d : list (pykey * pyval A)) k,
  has_key (PDict d) k -> exists x, dict_get pykey_eq_dec (KInt k) d = Some x.
Proof.
  intros A d k [x H]. destruct (dict_get pykey_eq_dec (KInt k) d) as [y|] eqn:E; [eauto|].
  apply dict_get_None in E. exfalso. apply E. apply in_map_iff. exists (KInt k, x). auto.
Qed.

Lemma broadcast_spec : forall A (args : list (pyval A)) kwargs keys k v w,
  (forall k', In k' keys <-> some_dense_dictionary args kwargs /\ shared_key args kwargs k') ->
  no_mixed_dictionary args kwargs -> In v (args ++ map snd kwargs) -> wf_dictionary v ->
  In k keys -> (for_key k v w <-> w = broadcast keys k v).
Proof.
  intros A args kwargs keys k v w Hkeys Hmix Hv Hwf Hk.
  unfold broadcast. destruct v as [a|d].
  - simpl. split.
    + intros H. inversion H; subst; auto.
    + intros ->. apply fk_same. simpl. auto.
  - assert (HD : is_dictionary_with_integer_keys (PDict d) = true \/
                 is_dictionary_with_integer_keys (PDict d) = false)
      by (destruct (is_dictionary_with_integer_keys (PDict d)); auto).
    destruct HD as [HD|HD].
    + apply is_dict_spec in HD.
      assert (E : is_dense_dictionary_argument (PDict d) keys = true).
      { simpl. apply forallb_forall. intros k' Hk'. apply Hkeys in Hk'. destruct Hk' as [_ Hk'].
        destruct (has_key_get _ d k') as [x ->]; [apply Hk'; auto|reflexivity]. }
      rewrite E. apply Hkeys in Hk. destruct Hk as [_ Hk].
      destruct (has_key_get _ d k) as [x Ex]; [apply Hk; auto|]. rewrite Ex. split.
      * intros H. inversion H; subst; [|contradiction].
        apply (dict_get_In_NoDup pykey_eq_dec) in H2; [congruence|exact Hwf].
      * intros ->. constructor; [exact HD|]. apply dict_get_Some_In in Ex. exact Ex.
    + assert (HD' : ~ dense_dictionary (PDict d)).
      { intros H. apply is_dict_spec in H. congruence. }
      assert (E : is_dense_dictionary_argument (PDict d) keys = false).
      { destruct (is_dense_dictionary_argument (PDict d) keys) eqn:E; [|reflexivity].
        simpl in E. rewrite forallb_forall in E. specialize (E k Hk).
        destruct (dict_get pykey_eq_dec (KInt k) d) as [x|] eqn:Ex; [|discriminate].
        exfalso. apply (Hmix _ k Hv HD'). exists x. apply dict_get_Some_In in Ex. exact Ex. }
      rewrite E. split.
      * intros H. inversion H; subst; [contradiction|reflexivity].
      * intros ->. apply fk_same. exact HD'.
Qed.

(** The call for key [k]. *)
Definition call_for {A R} (keys : list nat) (func : list (pyval A) -> list (nat * pyval A) -> ret R)
  (args : list (pyval A)) (kwargs bypass : list (nat * pyval A)) (idx : nat) : ret R :=
  func (map (broadcast keys idx) args)
       (map (fun nv => (fst nv, broadcast keys idx (snd nv))) kwargs ++ bypass).

Lemma combine_map_l : forall A B (f : A -> B) l, combine l (map f l) = map (fun x => (x, f x)) l.
Proof. induction l; simpl; f_equal; auto. Qed.

Lemma distribute_vals : forall A R keys (func : list (pyval A) -> list (nat * pyval A) -> ret R)
  args kwargs bypass f,
  (forall a kw, func a kw = RVal (f a kw)) -> keys <> [] ->
  distribute_over keys func args kwargs bypass =
  Ok (WDict (map (fun k => (k, f (map (broadcast keys k) args)
                  (map (fun nv => (fst nv, broadcast keys k (snd nv))) kwargs ++ bypass))) keys)).
Proof.
  intros A R keys func args kwargs bypass f Hf Hk. unfold distribute_over.
  destruct keys as [|k0 keys']; [congruence|]. remember (k0 :: keys') as keys eqn:Ek.
  rewrite Hf. rewrite map_map.
  erewrite results_ok; [|erewrite map_ext; [|intros; rewrite Hf; reflexivity]].
  2:{ cbn [ret_val]. rewrite <- (map_map _ Ok). reflexivity. }
  cbn [result_bind]. rewrite combine_map_l. reflexivity.
Qed.

Lemma nth_error_seq0 : forall n i, i < n -> nth_error (seq 0 n) i = Some i.
Proof.
  intros n i H. rewrite nth_error_nth' with (d := 0); [|rewrite seq_length; exact H].
  rewrite seq_nth by exact H. reflexivity.
Qed.

Lemma distribute_tuples : forall A R keys (func : list (pyval A) -> list (nat * pyval A) -> ret R)
  args kwargs bypass n (f : nat -> list (pyval A) -> list (nat * pyval A) -> R),
  (forall a kw, func a kw = RTuple (map (fun i => f i a kw) (seq 0 n))) -> keys <> [] ->
  distribute_over keys func args kwargs bypass =
  Ok (WTuple (map (fun i => map (fun k => (k, f i (map (broadcast keys k) args)
                  (map (fun nv => (fst nv, broadcast keys k (snd nv))) kwargs ++ bypass))) keys)
                  (seq 0 n))).
Proof.
  intros A R keys func args kwargs bypass n f Hf Hk. unfold distribute_over.
  destruct keys as [|k0 keys']; [congruence|]. remember (k0 :: keys') as keys eqn:Ek.
  rewrite Hf. rewrite map_length, seq_length.
  erewrite results_ok with (xs := map (fun i => map (fun k =>
     f i (map (broadcast keys k) args)
       (map (fun nv => (fst nv, broadcast keys k (snd nv))) kwargs ++ bypass)) keys) (seq 0 n)).
  - cbn [result_bind]. rewrite map_map. f_equal. f_equal. apply map_ext. intros i.
    apply combine_map_l.
  - rewrite map_map. apply map_ext_in. intros i Hi. apply in_seq in Hi.
    apply results_ok. rewrite !map_map. apply map_ext. intros k. rewrite Hf.
    simpl. rewrite nth_error_map, nth_error_seq0 by lia. reflexivity.
Qed.

Lemma order_In : forall order l k, iteration_order order -> (In k (order l) <-> In k l).
Proof.
  intros order l k H. split; apply Permutation_in; [|symmetry]; apply H.
Qed.

Lemma for_key_map : forall A (args : list (pyval A)) kwargs keys k sub args',
  (forall k', In k' keys <-> some_dense_dictionary args kwargs /\ shared_key args kwargs k') ->
  no_mixed_dictionary args kwargs -> (forall v, In v (args ++ map snd kwargs) -> wf_dictionary v) ->
  (forall v, In v sub -> In v (args ++ map snd kwargs)) -> In k keys ->
  (Forall2 (for_key k) sub args' <-> args' = map (broadcast keys k) sub).
Proof.
  intros A args kwargs keys k sub args' H1 H2 H3 H4 H5. revert args'.
  induction sub as [|v sub IH]; intros args'; simpl.
  - split; [intros H; inversion H; reflexivity|intros ->; constructor].
  - assert (IH' := IH (fun v' Hv => H4 v' (or_intror Hv))). split.
    + intros H. inversion H; subst. f_equal.
      * apply (proj1 (broadcast_spec A args kwargs keys k v y H1 H2 (H4 _ (or_introl eq_refl))
                 (H3 _ (H4 _ (or_introl eq_refl))) H5)). assumption.
      * apply IH'. assumption.
    + intros ->. constructor; [|apply IH'; reflexivity].
      apply (proj2 (broadcast_spec A args kwargs keys k v _ H1 H2 (H4 _ (or_introl eq_refl))
                 (H3 _ (H4 _ (or_introl eq_refl))) H5)). reflexivity.
Qed.

Lemma for_key_kwargs : forall A (kwargs : list (nat * pyval A)) k keys kw',
  (forall args', Forall2 (for_key k) (map snd kwargs) args' <->
                 args' = map (broadcast keys k) (map snd kwargs)) ->
  (Forall2 (fun x y => fst y = fst x /\ for_key k (snd x) (snd y)) kwargs kw' <->
   kw' = map (fun nv => (fst nv, broadcast keys k (snd nv))) kwargs).
Proof.
  intros A kwargs k keys kw' H.
  assert (E : forall kw', Forall2 (fun x y => fst y = fst x /\ for_key k (snd x) (snd y)) kwargs kw' <->
    map fst kw' = map fst kwargs /\ Forall2 (for_key k) (map snd kwargs) (map snd kw')).
  { clear. induction kwargs as [|[n v] kwargs IH]; intros kw'; simpl.
    - split; [intros H; inversion H; subst; split; [reflexivity|constructor]|].
      intros [H _]. destruct kw'; [constructor|discriminate].
    - split.
      + intros H. inversion H; subst. destruct H2 as [E1 E2]. apply IH in H4. destruct H4 as [A1 A2].
        destruct y as [n' v']. simpl in *. split; [congruence|constructor; auto].
      + intros [H1 H2]. destruct kw' as [|[n' v'] kw']; [discriminate|]. simpl in *.
        injection H1 as E1 E2. inversion H2; subst. constructor; [simpl; auto|]. apply IH. auto. }
  rewrite E, H. split.
  - intros [H1 H2]. clear E H. revert kw' H1 H2. induction kwargs as [|[n v] kwargs IH]; intros [|[n' v'] kw'] H1 H2; simpl in *;
      try discriminate; [reflexivity|]. injection H1 as E1 E2. injection H2 as E3 E4. subst.
    f_equal. apply IH; auto.
  - intros ->. rewrite !map_map. simpl. auto.
Qed.

(** Main statement for functions which return a single object. *)
Lemma distribute_correct : forall A R order (func : list (pyval A) -> list (nat * pyval A) -> ret R)
  args kwargs bypass f,
  iteration_order order -> (forall v, In v (args ++ map snd kwargs) -> wf_dictionary v) ->
  no_mixed_dictionary args kwargs ->
  (forall a kw, func a kw = RVal (f a kw)) ->
  some_dense_dictionary args kwargs -> (exists k, shared_key args kwargs k) ->
  exists d, distribute order func args kwargs bypass = Ok (WDict d) /\
    NoDup (map fst d) /\
    forall k r, In (k, r) d <->
      shared_key args kwargs k /\
      exists args' kwargs', Forall2 (for_key k) args args' /\
        Forall2 (fun x y => fst y = fst x /\ for_key k (snd x) (snd y)) kwargs kwargs' /\
        r = f args' (kwargs' ++ bypass).
Proof.
  intros A R order func args kwargs bypass f Ho Hwf Hmix Hf Hs [k0 Hk0].
  set (keys := order (infer_dense_keys args kwargs)).
  assert (Hkeys : forall k', In k' keys <-> some_dense_dictionary args kwargs /\ shared_key args kwargs k').
  { intros k'. unfold keys. rewrite order_In by exact Ho. apply infer_spec. }
  assert (Hne : keys <> []).
  { intros E. assert (H : In k0 keys) by (apply Hkeys; auto). rewrite E in H. destruct H. }
  exists (map (fun k => (k, f (map (broadcast keys k) args)
                  (map (fun nv => (fst nv, broadcast keys k (snd nv))) kwargs ++ bypass))) keys).
  split; [unfold distribute; apply distribute_vals; auto|]. split.
  - rewrite map_map. simpl. rewrite map_id. unfold keys.
    eapply Permutation_NoDup; [symmetry; apply Ho|apply NoDup_infer].
  - intros k r. rewrite in_map_iff.
    assert (HA : forall k, In k keys -> forall args', Forall2 (for_key k) args args' <-> args' = map (broadcast keys k) args).
    { intros k1 Hk1 args'. eapply for_key_map; eauto. intros v Hv. apply in_or_app. auto. }
    assert (HB : forall k, In k keys -> forall kw', Forall2 (fun x y => fst y = fst x /\ for_key k (snd x) (snd y)) kwargs kw'
               <-> kw' = map (fun nv => (fst nv, broadcast keys k (snd nv))) kwargs).
    { intros k1 Hk1 kw'. apply for_key_kwargs. intros args'. eapply for_key_map; eauto.
      intros v Hv. apply in_or_app. auto. }
    split.
    + intros [k' [E H]]. injection E as -> <-. split; [apply Hkeys; exact H|].
      eexists. eexists. split; [apply HA; auto; reflexivity|]. split; [apply HB; auto; reflexivity|].
      reflexivity.
    + intros [H1 [args' [kw' [H2 [H3 ->]]]]]. exists k.
      assert (Hk : In k keys) by (apply Hkeys; auto). split; [|exact Hk].
      apply HA in H2; [|exact Hk]. apply HB in H3; [|exact Hk]. subst. reflexivity.
Qed.

Lemma distribute_correct_tuple : forall A R order (func : list (pyval A) -> list (nat * pyval A) -> ret R)
  args kwargs bypass n f,
  iteration_order order -> (forall v, In v (args ++ map snd kwargs) -> wf_dictionary v) ->
  no_mixed_dictionary args kwargs ->
  (forall a kw, func a kw = RTuple (map (fun i => f i a kw) (seq 0 n))) ->
  some_dense_dictionary args kwargs -> (exists k, shared_key args kwargs k) ->
  exists ds, distribute order func args kwargs bypass = Ok (WTuple ds) /\ length ds = n /\
    forall i d, nth_error ds i = Some d ->
    NoDup (map fst d) /\
    forall k r, In (k, r) d <->
      shared_key args kwargs k /\
      exists args' kwargs', Forall2 (for_key k) args args' /\
        Forall2 (fun x y => fst y = fst x /\ for_key k (snd x) (snd y)) kwargs kwargs' /\
        r = f i args' (kwargs' ++ bypass).
Proof.
  intros A R order func args kwargs bypass n f Ho Hwf Hmix Hf Hs [k0 Hk0].
  set (keys := order (infer_dense_keys args kwargs)).
  assert (Hkeys : forall k', In k' keys <-> some_dense_dictionary args kwargs /\ shared_key args kwargs k').
  { intros k'. unfold keys. rewrite order_In by exact Ho. apply infer_spec. }
  assert (Hne : keys <> []).
  { intros E. assert (H : In k0 keys) by (apply Hkeys; auto). rewrite E in H. destruct H. }
  eexists. split; [unfold distribute; apply distribute_tuples; auto; exact Hf|].
  split; [rewrite map_length, seq_length; reflexivity|].
  intros i d Hd. rewrite nth_error_map in Hd.
  assert (Hi : i < n).
  { destruct (nth_error (seq 0 n) i) eqn:E; [|discriminate].
    assert (nth_error (seq 0 n) i <> None) by congruence.
    apply nth_error_Some in H. rewrite seq_length in H. exact H. }
  rewrite nth_error_seq0 in Hd by exact Hi. simpl in Hd. injection Hd as <-.
  destruct (distribute_correct A R order (fun a kw => RVal (f i a kw)) args kwargs bypass (f i)
              Ho Hwf Hmix (fun _ _ => eq_refl) Hs (ex_intro _ k0 Hk0)) as [d [E H]].
  unfold distribute in E. rewrite (distribute_vals _ _ _ _ _ _ _ (f i)) in E; auto.
  injection E as <-. exact H.
Qed.

(** No common key: the function gets everything. *)
Lemma distribute_without_keys : forall A R order (func : list (pyval A) -> list (nat * pyval A) -> ret R)
  args kwargs bypass, iteration_order order ->
  ~ (some_dense_dictionary args kwargs /\ exists k, shared_key args kwargs k) ->
  distribute order func args kwargs bypass = Ok (WPlain (func args (kwargs ++ bypass))).
Proof.
  intros A R order func args kwargs bypass Ho H. unfold distribute, distribute_over.
  destruct (order (infer_dense_keys args kwargs)) as [|k l] eqn:E; [reflexivity|].
  exfalso. apply H. assert (Hk : In k (infer_dense_keys args kwargs)).
  { apply (order_In order _ k Ho). rewrite E. simpl. auto. }
  apply infer_spec in Hk. destruct Hk. eauto.
Qed.

(** ** Data frames *)

Lemma index_leb_total : forall x y, index_leb x y = true \/ index_leb y x = true.
Proof.
  intros [a b] [c d]. unfold index_leb. simpl. rewrite (Nat.eqb_sym c a).
  destruct (Nat.eqb a c) eqn:E.
  - destruct (Nat.le_ge_cases b d); [left|right]; apply Nat.leb_le; lia.
  - apply Nat.eqb_neq in E. destruct (Nat.lt_ge_cases a c); [left|right]; apply Nat.ltb_lt; lia.
Qed.
Lemma index_leb_trans : forall x y z,
  index_leb x y = true -> index_leb y z = true -> index_leb x z = true.
Proof.
  intros [a b] [c d] [e f]. unfold index_leb. simpl.
  destruct (Nat.eqb_spec a c); destruct (Nat.eqb_spec c e); destruct (Nat.eqb_spec a e);
    rewrite ?Nat.leb_le, ?Nat.ltb_lt; lia.
Qed.
Lemma index_leb_antisym : forall x y, index_leb x y = true -> index_leb y x = true -> x = y.
Proof.
  intros [a b] [c d]. unfold index_leb. simpl. rewrite (Nat.eqb_sym c a).
  destruct (Nat.eqb_spec a c); rewrite ?Nat.leb_le, ?Nat.ltb_lt; intros; [f_equal|]; lia.
Qed.
Lemma index_lt_leb : forall x y, index_lt x y -> index_leb x y = true /\ x <> y.
Proof.
  intros [a b] [c d]. unfold index_lt, index_leb. simpl. intros H.
  destruct (Nat.eqb_spec a c); rewrite ?Nat.leb_le, ?Nat.ltb_lt;
    (split; [lia|intros E; injection E; lia]).
Qed.

(** Two sorted frames with the same rows and unique indices are equal. *)
Lemma sorted_frames_eq : forall A (l1 l2 : frame A),
  StronglySorted (fun a b => index_leb (fst a) (fst b) = true) l1 ->
  StronglySorted (fun a b => index_leb (fst a) (fst b) = true) l2 ->
  NoDup (map fst l1) -> Permutation l1 l2 -> l1 = l2.
Proof.
  induction l1 as [|x l1 IH]; intros l2 H1 H2 Hn HP.
  - apply Permutation_nil in HP. congruence.
  - destruct l2 as [|y l2]; [apply Permutation_sym, Permutation_nil in HP; discriminate|].
    assert (Hn2 : NoDup (map fst (y :: l2))).
    { eapply Permutation_NoDup; [apply Permutation_map; exact HP|exact Hn]. }
    inversion H1; inversion H2; subst.
    assert (Ei : fst x = fst y).
    { assert (Hy : In y (x :: l1)) by (apply (Permutation_in y (Permutation_sym HP)); simpl; auto).
      assert (Hx : In x (y :: l2)) by (apply (Permutation_in x HP); simpl; auto).
      destruct Hy as [->|Hy]; [reflexivity|]. destruct Hx as [->|Hx]; [reflexivity|].
      rewrite Forall_forall in H4, H8. apply index_leb_antisym; auto. }
    assert (E : x = y).
    { assert (Hy : In y (x :: l1)) by (apply (Permutation_in y (Permutation_sym HP)); simpl; auto).
      destruct Hy as [->|Hy]; [reflexivity|].
      exfalso. simpl in Hn. inversion Hn; subst. apply H5. rewrite Ei. apply in_map. exact Hy. }
    subst y. f_equal. apply IH; auto.
    + inversion Hn; assumption.
    + eapply Permutation_cons_inv; exact HP.
Qed.

Lemma ordered_sorted : forall A (df : frame A), ordered_frame df ->
  StronglySorted (fun a b => index_leb (fst a) (fst b) = true) df /\ NoDup (map fst df).
Proof.
  unfold ordered_frame. induction df as [|r df IH]; simpl; intros H; [split; constructor|].
  inversion H; subst. destruct (IH H2) as [A1 A2]. rewrite Forall_forall in H3. split.
  - constructor; [exact A1|]. apply Forall_forall. intros x Hx.
    apply index_lt_leb, H3. apply in_map. exact Hx.
  - constructor; [|exact A2]. intros Hin. apply H3 in Hin. apply index_lt_leb in Hin. tauto.
Qed.

Lemma sort_index_perm : forall A (l df : frame A), ordered_frame df -> Permutation l df ->
  sort_index l = df.
Proof.
  intros A l df H HP. destruct (ordered_sorted _ _ H) as [H1 H2]. unfold sort_index.
  apply sorted_frames_eq; auto.
  - apply Sorted_isort; intros; [apply index_leb_total|eapply index_leb_trans; eauto].
  - eapply Permutation_NoDup; [|exact H2]. apply Permutation_map.
    rewrite Permutation_isort. symmetry. exact HP.
  - rewrite Permutation_isort. exact HP.
Qed.

Lemma perm_groups : forall A (key : A -> nat) keys (df : list A), NoDup keys ->
  Permutation (flat_map (fun k => filter (fun r => Nat.eqb (key r) k) df) keys)
              (filter (fun r => mem (key r) keys) df).
Proof.
  intros A key keys df. induction keys as [|k keys IH]; intros H; simpl.
  - induction df; simpl; auto.
  - inversion H; subst. rewrite IH by assumption. clear IH H.
    induction df as [|r df IHd]; simpl; [reflexivity|].
    destruct (Nat.eqb (key r) k) eqn:E; simpl.
    + apply Nat.eqb_eq in E. assert (M : mem (key r) keys = false).
      { destruct (mem (key r) keys) eqn:M; [|reflexivity]. apply mem_In in M. congruence. }
      rewrite M. simpl. constructor. exact IHd.
    + destruct (mem (key r) keys); simpl; [|exact IHd].
      rewrite <- Permutation_middle. constructor. exact IHd.
Qed.

Lemma ordered_filter_map : forall A B (df : frame A) (p : index * A -> bool) (g : A -> index -> B),
  ordered_frame df -> ordered_frame (map (fun r => (fst r, g (snd r) (fst r))) (filter p df)).
Proof.
  unfold ordered_frame. induction df as [|r df IH]; simpl; intros p g H; [constructor|].
  inversion H; subst. specialize (IH p g H2). destruct (p r); simpl; [|exact IH].
  constructor; [exact IH|]. rewrite map_map. simpl. rewrite Forall_forall in *.
  intros i Hi. apply in_map_iff in Hi. destruct Hi as [x [<- Hx]]. apply filter_In in Hx.
  apply H3. apply in_map. tauto.
Qed.

Lemma concat_map_flat : forall A B (f : A -> list B) l, concat (map f l) = flat_map f l.
Proof. induction l; simpl; [|rewrite IHl]; auto. Qed.

Lemma map_flat_map : forall A B C (g : B -> C) (f : A -> list B) l,
  map g (flat_map f l) = flat_map (fun x => map g (f x)) l.
Proof. induction l; simpl; [|rewrite map_app, IHl]; auto. Qed.

Lemma flat_map_ext_in : forall A B (f g : A -> list B) l,
  (forall x, In x l -> f x = g x) -> flat_map f l = flat_map g l.
Proof.
  induction l as [|x l IH]; simpl; intros H; [reflexivity|].
  rewrite H by auto. rewrite IH; auto.
Qed.

(** A function which works row by row; what it does to a row may depend on the other
    arguments it gets for the key of the row. *)
Lemma split_and_combine_rows : forall V A B (inj : frame A -> V) (key : A -> nat) order func df
  args kwargs bypass (g : list (pyval V) -> list (nat * pyval V) -> A -> index -> B),
  iteration_order order ->
  (forall v, In v (args ++ map snd kwargs) -> wf_dictionary v) ->
  no_mixed_dictionary args kwargs ->
  (forall gdf rest kw, func (PAtom (inj gdf) :: rest) kw =
     RVal (map (fun r => (fst r, g rest kw (snd r) (fst r))) gdf)) ->
  (forall a kw, exists r, func a kw = RVal r) ->
  ordered_frame df ->
  (exists r, In r df /\ shared_key args kwargs (key (snd r))) ->
  exists h covered,
    split_and_combine inj key order func df args kwargs bypass
    = Ok (map (fun r => (fst r, h (snd r) (fst r))) (filter covered df)) /\
    (forall r, In r df -> (covered r = true <-> shared_key args kwargs (key (snd r)))) /\
    (forall r, In r df -> covered r = true -> exists args' kwargs',
       Forall2 (for_key (key (snd r))) args args' /\
       Forall2 (fun x y => fst y = fst x /\ for_key (key (snd r)) (snd x) (snd y)) kwargs kwargs' /\
       h (snd r) (fst r) = g args' (kwargs' ++ bypass) (snd r) (fst r)).
Proof.
  intros V A B inj key order func df args kwargs bypass g Ho Hwf Hmix Hg Hval Hord [r0 [Hr0 Hsh0]].
  set (allkeys := isort Nat.leb (drop_duplicates Nat.eq_dec (map (fun r => key (snd r)) df))).
  set (splitted := PDict (map (fun kg => (KInt (fst kg), PAtom (inj (snd kg))))
                              (split_dataframe key df))).
  set (kgs := order (infer_dense_keys (splitted :: args) kwargs)).
  assert (Hall : forall k, In k allkeys <-> exists r, In r df /\ key (snd r) = k).
  { intros k. unfold allkeys. rewrite In_isort, In_drop_duplicates, in_map_iff.
    split; intros [r [H1 H2]]; eauto. }
  assert (Hnd : NoDup allkeys).
  { apply NoDup_isort, NoDup_drop_duplicates. }
  assert (Esp : splitted = PDict (map (fun k => (KInt k, PAtom (inj (filter (fun r => Nat.eqb (key (snd r)) k) df)))) allkeys)).
  { unfold splitted, split_dataframe. fold allkeys. rewrite map_map. reflexivity. }
  assert (Hhas : forall k, has_key splitted k <-> In k allkeys).
  { intros k. rewrite Esp. simpl. split.
    - intros [x H]. apply in_map_iff in H. destruct H as [k' [E H]]. injection E as -> _. exact H.
    - intros H. eexists. apply in_map_iff. exists k. split; [reflexivity|exact H]. }
  assert (Hdd : dense_dictionary splitted).
  { rewrite Esp. simpl. split.
    - intros E. apply map_eq_nil in E. assert (H : In (key (snd r0)) allkeys) by (apply Hall; eauto).
      rewrite E in H. destruct H.
    - intros k x H. apply in_map_iff in H. destruct H as [k' [E H]]. injection E as <- _. eauto. }
  assert (Hwf' : forall v, In v ((splitted :: args) ++ map snd kwargs) -> wf_dictionary v).
  { intros v [<-|H]; [|auto]. rewrite Esp. simpl. rewrite map_map. simpl.
    apply FinFun.Injective_map_NoDup; [|exact Hnd]. intros x y E. congruence. }
  assert (Hmix' : no_mixed_dictionary (splitted :: args) kwargs).
  { intros v k [<-|H] Hd; [contradiction|]. apply Hmix; assumption. }
  assert (Hkgs : forall k, In k kgs <-> In k allkeys /\ shared_key args kwargs k).
  { intros k. unfold kgs. rewrite order_In by exact Ho. rewrite infer_spec. split.
    - intros [_ H]. split.
      + apply Hhas. apply H; [simpl; auto|exact Hdd].
      + intros v Hv Hd. apply H; [simpl; auto|exact Hd].
    - intros [H1 H2]. split; [exists splitted; simpl; auto|].
      intros v [<-|Hv] Hd; [apply Hhas; exact H1|apply H2; auto]. }
  assert (Hk0 : In (key (snd r0)) kgs) by (apply Hkgs; split; [apply Hall; eauto|exact Hsh0]).
  assert (Hkn : NoDup kgs).
  { unfold kgs. eapply Permutation_NoDup; [symmetry; apply Ho|apply NoDup_infer]. }
  assert (Hkeys : forall k', In k' kgs <-> some_dense_dictionary (splitted :: args) kwargs /\ shared_key (splitted :: args) kwargs k').
  { intros k'. unfold kgs. rewrite order_In by exact Ho. apply infer_spec. }
  set (h := fun (a : A) (i : index) => g (map (broadcast kgs (key a)) args)
        (map (fun nv => (fst nv, broadcast kgs (key a) (snd nv))) kwargs ++ bypass) a i).
  exists h, (fun r => mem (key (snd r)) kgs). split; [|split].
  - unfold split_and_combine. fold splitted. unfold distribute. fold kgs.
    set (f := fun a kw => match func a kw with RVal r => r | RTuple _ => [] end).
    assert (Hf : forall a kw, func a kw = RVal (f a kw)).
    { intros a kw. unfold f. destruct (Hval a kw) as [r ->]. reflexivity. }
    rewrite (distribute_vals _ _ _ _ _ _ _ f Hf); [|intros E; rewrite E in Hk0; destruct Hk0].
    cbn [result_bind]. f_equal. rewrite map_map. cbn [snd].
    apply sort_index_perm; [apply ordered_filter_map; exact Hord|].
    rewrite concat_map_flat.
    rewrite (flat_map_ext_in _ _ _ (fun k => map (fun r => (fst r, h (snd r) (fst r)))
               (filter (fun r => Nat.eqb (key (snd r)) k) df))).
    + rewrite <- map_flat_map. apply Permutation_map. apply (perm_groups _ (fun r => key (snd r))). exact Hkn.
    + intros k Hk. cbn [map].
      assert (E : broadcast kgs k splitted = PAtom (inj (filter (fun r => Nat.eqb (key (snd r)) k) df))).
      { symmetry. apply (proj1 (broadcast_spec _ (splitted :: args) kwargs kgs k splitted _ Hkeys Hmix'
                    ltac:(simpl; auto) (Hwf' _ ltac:(simpl; auto)) Hk)).
        rewrite Esp. constructor; [rewrite <- Esp; exact Hdd|]. apply in_map_iff. exists k.
        split; [reflexivity|apply Hkgs; exact Hk]. }
      rewrite E. unfold f. rewrite Hg. apply map_ext_in. intros r Hr. apply filter_In in Hr.
      destruct Hr as [_ Hr]. apply Nat.eqb_eq in Hr. unfold h. rewrite Hr. reflexivity.
  - intros r Hr. rewrite mem_In, Hkgs, Hall. split; [tauto|]. intros H. split; [eauto|exact H].
  - intros r Hr Hc. apply mem_In in Hc.
    assert (Hsub : forall sub args', (forall v, In v sub -> In v (args ++ map snd kwargs)) ->
              (Forall2 (for_key (key (snd r))) sub args' <-> args' = map (broadcast kgs (key (snd r))) sub)).
    { intros sub args' Hin. eapply (for_key_map _ (splitted :: args) kwargs kgs); eauto.
      intros v Hv. simpl. right. apply Hin. exact Hv. }
    exists (map (broadcast kgs (key (snd r))) args),
           (map (fun nv => (fst nv, broadcast kgs (key (snd r)) (snd nv))) kwargs).
    split; [|split].
    + apply Hsub; [|reflexivity]. intros v Hv. apply in_or_app. auto.
    + apply (proj2 (for_key_kwargs V kwargs (key (snd r)) kgs _
               (fun args' => Hsub (map snd kwargs) args' (fun v Hv => in_or_app _ _ _ (or_intror Hv))))).
      reflexivity.
    + reflexivity.
Qed.

Lemma filter_all : forall A (f : A -> bool) l, (forall x, In x l -> f x = true) -> filter f l = l.
Proof.
  induction l as [|x l IH]; simpl; intros H; [reflexivity|]. rewrite H by auto. f_equal. auto.
Qed.

Lemma split_and_combine_all : forall V A B (inj : frame A -> V) (key : A -> nat) order func df
  args kwargs bypass (g : list (pyval V) -> list (nat * pyval V) -> A -> index -> B),
  iteration_order order ->
  (forall v, In v (args ++ map snd kwargs) -> wf_dictionary v) ->
  no_mixed_dictionary args kwargs ->
  (forall gdf rest kw, func (PAtom (inj gdf) :: rest) kw =
     RVal (map (fun r => (fst r, g rest kw (snd r) (fst r))) gdf)) ->
  (forall a kw, exists r, func a kw = RVal r) ->
  ordered_frame df -> df <> [] ->
  (forall r, In r df -> shared_key args kwargs (key (snd r))) ->
  exists h,
    split_and_combine inj key order func df args kwargs bypass
    = Ok (map (fun r => (fst r, h (snd r) (fst r))) df) /\
    (forall r, In r df -> exists args' kwargs',
       Forall2 (for_key (key (snd r))) args args' /\
       Forall2 (fun x y => fst y = fst x /\ for_key (key (snd r)) (snd x) (snd y)) kwargs kwargs' /\
       h (snd r) (fst r) = g args' (kwargs' ++ bypass) (snd r) (fst r)).
Proof.
  intros V A B inj key order func df args kwargs bypass g H1 H2 H3 H4 H5 H6 H7 H8.
  destruct (split_and_combine_rows V A B inj key order func df args kwargs bypass g H1 H2 H3 H4 H5 H6)
    as [h [c [E1 [E2 E3]]]].
  { destruct df as [|r df]; [congruence|]. exists r. split; [simpl; auto|apply H8; simpl; auto]. }
  exists h. rewrite E1. split.
  - f_equal. f_equal. apply filter_all. intros r Hr. apply E2; auto.
  - intros r Hr. apply E3; [exact Hr|]. apply E2; auto.
Qed.

Lemma distribute_order : forall A R order order' (func : list (pyval A) -> list (nat * pyval A) -> ret R)
  args kwargs bypass f,
  iteration_order order -> iteration_order order' ->
  (forall v, In v (args ++ map snd kwargs) -> wf_dictionary v) ->
  no_mixed_dictionary args kwargs ->
  (forall a kw, func a kw = RVal (f a kw)) ->
  some_dense_dictionary args kwargs -> (exists k, shared_key args kwargs k) ->
  exists d d', distribute order func args kwargs bypass = Ok (WDict d) /\
    distribute order' func args kwargs bypass = Ok (WDict d') /\ Permutation d d'.
Proof.
  intros A R order order' func args kwargs bypass f Ho Ho' Hwf Hmix Hf Hs Hk.
  destruct (distribute_correct A R order func args kwargs bypass f Ho Hwf Hmix Hf Hs Hk) as [d [E [N H]]].
  destruct (distribute_correct A R order' func args kwargs bypass f Ho' Hwf Hmix Hf Hs Hk) as [d' [E' [N' H']]].
  exists d, d'. split; [exact E|]. split; [exact E'|].
  apply NoDup_Permutation; [eapply NoDup_map_inv; exact N|eapply NoDup_map_inv; exact N'|].
  intros [k r]. rewrite H, H'. tauto.
Qed.

(** Concrete objects for the examples. *)
Definition ex_states : pyval nat := PDict [(KInt 3, PAtom 30); (KInt 1, PAtom 10); (KInt 2, PAtom 20)].
Definition ex_values : pyval nat := PDict [(KInt 1, PAtom 100); (KInt 3, PAtom 300)].
Definition ex_options : pyval nat := PDict [(KOther 0, PAtom 7)].
Definition atom_value (v : pyval nat) : nat := match v with PAtom a => a | PDict d => 1000 * length d end.
Definition ex_func (args : list (pyval nat)) (kw : list (nat * pyval nat)) : ret nat :=
  RVal (list_sum (map atom_value args) + list_sum (map (fun nv => atom_value (snd nv)) kw)).

Lemma ex_parallel_hyps :
  (forall v, In v ([ex_states; PAtom 5] ++ map snd [(0, ex_values); (1, ex_options)]) -> wf_dictionary v) /\
  no_mixed_dictionary [ex_states; PAtom 5] [(0, ex_values); (1, ex_options)] /\
  some_dense_dictionary [ex_states; PAtom 5] [(0, ex_values); (1, ex_options)] /\
  shared_key [ex_states; PAtom 5] [(0, ex_values); (1, ex_options)] 3.
Proof.
  assert (D1 : dense_dictionary ex_states).
  { split; [discriminate|]. simpl. intros k x H. repeat destruct H as [H|H]; try contradiction; injection H as <- _; eauto. }
  assert (D2 : dense_dictionary ex_values).
  { split; [discriminate|]. simpl. intros k x H. repeat destruct H as [H|H]; try contradiction; injection H as <- _; eauto. }
  split; [|split; [|split]].
  - simpl. intros v H. repeat destruct H as [<-|H]; try contradiction; simpl; auto;
      repeat constructor; simpl; intuition discriminate.
  - simpl. intros v k H Hd. repeat destruct H as [<-|H]; try contradiction.
    + intros []. 
    + intros [x [E|[]]]. discriminate.
  - exists ex_states. simpl. auto.
  - simpl. intros v H Hd. repeat destruct H as [<-|H]; try contradiction; simpl; eauto 6.
    exfalso. destruct Hd as [_ Hd]. destruct (Hd (KOther 0) (PAtom 7)) as [n E]; [simpl; auto|discriminate].
Qed.

(** A frame with keys 4 and 2; the function adds the key's entry of a dictionary. *)
Definition ex_frame : frame nat := [((0, 0), 4); ((1, 0), 2); ((2, 0), 4)].
Definition ex_inj (f : frame nat) : (frame nat + nat)%type := inl f.
Definition ex_rowfun (args : list (pyval (frame nat + nat))) (kw : list (nat * pyval (frame nat + nat)))
  : ret (frame nat) :=
  match args with
  | PAtom (inl df) :: rest =>
      RVal (map (fun r => (fst r, snd r + match rest with PAtom (inr n) :: _ => n | _ => 0 end)) df)
  | _ => RVal []
  end.
Definition ex_arg : pyval (frame nat + nat) :=
  PDict [(KInt 2, PAtom (inr 200)); (KInt 4, PAtom (inr 400)); (KInt 5, PAtom (inr 500))].
