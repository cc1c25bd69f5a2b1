(** Proofs about the labels of the dense grid. *)
From Coq Require Import List Arith Bool Lia Permutation.
From Verif Require Import Base Proof_Base Model_CoreStateSpace Proof_CoreStateSpace
  Model_StateSpace Spec_StateSpace.
Import ListNotations.

Definition dims (levels : list nat) (n_types : nat) : list nat :=
  levels ++ (if Nat.leb 2 n_types then [n_types] else []).

Lemma In_product_seq : forall ds v, In v (product (map (seq 0) ds)) <-> Forall2 lt v ds.
Proof.
  intros. rewrite In_product. revert v. induction ds as [|d ds IH]; intros v; simpl.
  - split; inversion 1; constructor.
  - split; inversion 1; subst; constructor; try (apply IH; assumption).
    + match goal with H : In _ _ |- _ => apply in_seq in H end. lia.
    + apply in_seq. lia.
Qed.

Lemma grid_In : forall levels n_types v, dims levels n_types <> [] ->
  (In v (dense_state_space_grid levels n_types) <-> Forall2 lt v (dims levels n_types)).
Proof.
  intros levels n_types v Hne. rewrite <- In_product_seq.
  unfold dense_state_space_grid, dims in *. rewrite map_app.
  replace (map (seq 0) (if Nat.leb 2 n_types then [n_types] else []))
    with (if Nat.leb 2 n_types then [seq 0 n_types] else [])
    by (destruct (Nat.leb 2 n_types); reflexivity).
  set (p := product _).
  assert (Hp : p <> [[]]).
  { intro E. assert (In [] p) by (rewrite E; left; reflexivity).
    unfold p in H. rewrite In_product in H.
    destruct (Nat.leb 2 n_types); destruct levels; simpl in *; inversion H. congruence. }
  destruct p as [|[|a w] [|w' p']]; try reflexivity. congruence.
Qed.

Lemma filter_Permutation_split : forall (l e : list nat), NoDup l -> NoDup e ->
  (forall x, In x e -> In x l) ->
  Permutation l (filter (fun x => negb (existsb (Nat.eqb x) e)) l ++ e).
Proof.
  intros l e Nl Ne H. apply NoDup_Permutation; auto.
  - apply NoDup_app_intro; auto.
    + apply NoDup_filter; auto.
    + intros x Hx He. apply filter_In in Hx. destruct Hx as [_ Hx].
      apply negb_true_iff in Hx. rewrite <- not_true_iff_false in Hx. apply Hx.
      apply existsb_exists. exists x. split; auto. apply Nat.eqb_refl.
  - intros x. rewrite in_app_iff, filter_In, negb_true_iff, <- not_true_iff_false, existsb_exists.
    split.
    + intros Hx. destruct (in_dec Nat.eq_dec x e) as [I|I]; [auto|]. left. split; auto.
      intros [y [Hy E]]. apply Nat.eqb_eq in E. subst. tauto.
    + intros [[Hx _]|Hx]; auto.
Qed.

Lemma length_columns : forall obs exog n_types, wf_dense obs exog n_types ->
  length (dense_columns obs exog n_types) = length (dims (map snd obs) n_types).
Proof.
  intros obs exog n_types [N [Ne [S _]]]. unfold dense_columns, dims.
  rewrite !app_length, !map_length.
  pose proof (Permutation_length (filter_Permutation_split _ _ N Ne S)) as P.
  rewrite app_length, map_length in P. destruct (Nat.leb 2 n_types); simpl; lia.
Qed.

Lemma combine_split_eq : forall A B (row : list (A * B)) l,
  map fst row = l -> row = combine l (map snd row).
Proof.
  induction row as [|[a b] row IH]; intros l H; simpl in *; subst; [reflexivity|].
  simpl. f_equal. apply IH. reflexivity.
Qed.

Lemma map_fst_combine : forall A B (l : list A) (m : list B), length l = length m ->
  map fst (combine l m) = l.
Proof. induction l as [|a l IH]; intros [|b m] H; simpl in *; try lia; [reflexivity|]. f_equal. auto. Qed.
Lemma map_snd_combine : forall A B (l : list A) (m : list B), length l = length m ->
  map snd (combine l m) = m.
Proof. induction l as [|a l IH]; intros [|b m] H; simpl in *; try lia; [reflexivity|]. f_equal. auto. Qed.

Lemma Forall2_map_lt : forall A (f : A -> nat) l v,
  Forall2 lt v (map f l) <-> length v = length l /\ forall c x, In (c, x) (combine l v) -> x < f c.
Proof.
  induction l as [|a l IH]; intros [|x v]; simpl.
  - split; [intros _; split; [reflexivity|tauto]|constructor].
  - split; [inversion 1|intros [H _]; discriminate].
  - split; [inversion 1|intros [H _]; discriminate].
  - split.
    + inversion 1; subst. apply IH in H5. destruct H5 as [H5 H6]. split; [congruence|].
      intros c y [E|E]; [injection E as <- <-; assumption|auto].
    + intros [H1 H2]. constructor; [apply H2; auto|]. apply IH. split; [congruence|auto].
Qed.

Lemma Forall2_lt_determines : forall d1 d2, (forall d, In d d1 -> 0 < d) ->
  (forall d, In d d2 -> 0 < d) ->
  (forall v, Forall2 lt v d1 <-> Forall2 lt v d2) -> d1 = d2.
Proof.
  assert (Z : forall d, (forall x, In x d -> 0 < x) -> Forall2 lt (map (fun x => x - 1) d) d).
  { induction d as [|x d IH]; intros H; simpl; constructor.
    - specialize (H x (or_introl eq_refl)). lia.
    - apply IH. intros; apply H; simpl; auto. }
  assert (L : forall d e, Forall2 lt (map (fun x => x - 1) d) e -> (forall x, In x d -> 0 < x) ->
            Forall2 le d e).
  { induction d as [|x d IH]; intros e H P; inversion H; subst; constructor.
    - specialize (P x (or_introl eq_refl)). lia.
    - apply IH; auto. intros; apply P; simpl; auto. }
  assert (A : forall d e, Forall2 le d e -> Forall2 le e d -> d = e).
  { induction d as [|x d IH]; intros e H1 H2; inversion H1; subst; inversion H2; subst; [reflexivity|].
    f_equal; [lia|]. apply IH; auto. }
  intros d1 d2 P1 P2 H. apply A.
  - apply L; auto. apply H. apply Z; auto.
  - apply L; auto. apply H. apply Z; auto.
Qed.

Lemma right_labels_iff : forall obs exog n_types, wf_dense obs exog n_types ->
  (right_labels obs exog n_types <->
   map (n_levels obs n_types) (dense_columns obs exog n_types) = dims (map snd obs) n_types).
Proof.
  intros obs exog n_types W.
  pose proof (length_columns _ _ _ W) as Len.
  assert (Hne : dims (map snd obs) n_types <> []).
  { destruct W as [_ [_ [_ [_ [H|H]]]]]; unfold dims.
    - destruct obs; [congruence|discriminate].
    - apply Nat.leb_le in H. rewrite H. destruct (map snd obs); discriminate. }
  assert (Hgrid : forall row, In row (labelled_grid obs exog n_types) <->
     map fst row = dense_columns obs exog n_types /\ Forall2 lt (map snd row) (dims (map snd obs) n_types)).
  { intros row. unfold labelled_grid. rewrite in_map_iff. split.
    - intros [v [<- Hv]]. apply grid_In in Hv; [|exact Hne].
      assert (length (dense_columns obs exog n_types) = length v)
        by (apply Forall2_length_eq in Hv; congruence).
      rewrite map_fst_combine, map_snd_combine by assumption. auto.
    - intros [H1 H2]. exists (map snd row). split; [symmetry; apply combine_split_eq; exact H1|].
      apply grid_In; auto. }
  assert (Hspec : forall row, map fst row = dense_columns obs exog n_types ->
     ((forall c v, In (c, v) row -> v < n_levels obs n_types c) <->
      Forall2 lt (map snd row) (map (n_levels obs n_types) (dense_columns obs exog n_types)))).
  { intros row E. rewrite Forall2_map_lt, <- E, !map_length.
    rewrite <- (combine_split_eq _ _ row (map fst row) eq_refl). split; [auto|tauto]. }
  split.
  - intros R. apply Forall2_lt_determines.
    + intros d Hd. apply in_map_iff in Hd. destruct Hd as [c [<- Hc]].
      unfold dense_columns in Hc. rewrite !in_app_iff in Hc.
      destruct W as [_ [_ [S [Pos _]]]].
      assert (Hobs : forall x, In x (map fst obs) -> 0 < n_levels obs n_types (DObs x)).
      { intros x Hx. simpl. destruct (find (fun p => Nat.eqb x (fst p)) obs) as [[y l]|] eqn:F.
        - apply find_some in F. destruct F as [F _]. simpl. eauto.
        - exfalso. apply in_map_iff in Hx. destruct Hx as [p [<- Hp]].
          apply (find_none _ _ F) in Hp. rewrite Nat.eqb_refl in Hp. discriminate. }
      destruct Hc as [Hc|[Hc|Hc]].
      * apply in_map_iff in Hc. destruct Hc as [x [<- Hx]]. apply filter_In in Hx.
        apply Hobs. tauto.
      * destruct (Nat.leb 2 n_types) eqn:E; [|destruct Hc]. apply Nat.leb_le in E.
        destruct Hc as [<-|[]]. simpl. lia.
      * apply in_map_iff in Hc. destruct Hc as [x [<- Hx]]. apply Hobs. auto.
    + intros d Hd. unfold dims in Hd. apply in_app_iff in Hd. destruct Hd as [Hd|Hd].
      * apply in_map_iff in Hd. destruct Hd as [[x l] [<- Hd]].
        destruct W as [_ [_ [_ [Pos _]]]]. simpl. eauto.
      * destruct (Nat.leb 2 n_types) eqn:E; [|destruct Hd]. apply Nat.leb_le in E.
        destruct Hd as [<-|[]]. lia.
    + intros v. destruct (Nat.eq_dec (length v) (length (dims (map snd obs) n_types))) as [E|E].
      * set (row := combine (dense_columns obs exog n_types) v).
        assert (E1 : map fst row = dense_columns obs exog n_types)
          by (apply map_fst_combine; congruence).
        assert (E2 : map snd row = v) by (apply map_snd_combine; congruence).
        specialize (R row). rewrite Hgrid in R. specialize (Hspec row E1). rewrite E2 in *. tauto.
      * split; intros F; apply Forall2_length_eq in F; rewrite ?map_length in F; congruence.
  - intros E row. rewrite Hgrid, <- E. split; intros [H1 H2]; split; auto; apply Hspec; auto.
Qed.

Lemma n_levels_obs : forall obs n_types, NoDup (map fst obs) ->
  map (n_levels obs n_types) (map DObs (map fst obs)) = map snd obs.
Proof.
  intros obs n_types N. rewrite !map_map.
  assert (G : forall p, In p obs -> n_levels obs n_types (DObs (fst p)) = snd p).
  { intros [x l] Hp. simpl. destruct (find (fun p => Nat.eqb x (fst p)) obs) as [[y m]|] eqn:F.
    - apply find_some in F. destruct F as [F1 F2]. apply Nat.eqb_eq in F2. simpl in F2. subst y. simpl.
      pose proof (dict_get_In_NoDup Nat.eq_dec _ _ _ N F1).
      pose proof (dict_get_In_NoDup Nat.eq_dec _ _ _ N Hp). congruence.
    - apply (find_none _ _ F) in Hp. simpl in Hp. rewrite Nat.eqb_refl in Hp. discriminate. }
  apply map_ext_in. intros p Hp. apply G. exact Hp.
Qed.

Lemma filter_all : forall A (f : A -> bool) l, (forall x, In x l -> f x = true) -> filter f l = l.
Proof.
  induction l as [|a l IH]; intros H; simpl; [reflexivity|].
  rewrite H by (left; reflexivity). f_equal. apply IH. intros; apply H; simpl; auto.
Qed.
Lemma filter_nothing : forall A (f : A -> bool) l, (forall x, In x l -> f x = false) -> filter f l = [].
Proof.
  induction l as [|a l IH]; intros H; simpl; [reflexivity|].
  rewrite H by (left; reflexivity). apply IH. intros; apply H; simpl; auto.
Qed.

Lemma right_labels_no_exog : forall obs n_types, wf_dense obs [] n_types ->
  right_labels obs [] n_types.
Proof.
  intros obs n_types W. apply right_labels_iff; [exact W|].
  destruct W as [N _]. unfold dense_columns, dims.
  rewrite filter_all by reflexivity. rewrite !map_app, app_nil_r, n_levels_obs by exact N.
  f_equal. destruct (Nat.leb 2 n_types); reflexivity.
Qed.

Lemma right_labels_static_first : forall static exog n_types,
  n_types < 2 -> wf_dense (static ++ exog) (map fst exog) n_types ->
  right_labels (static ++ exog) (map fst exog) n_types.
Proof.
  intros static exog n_types Ht W. apply right_labels_iff; [exact W|].
  destruct W as [N [Ne [S _]]]. unfold dense_columns, dims.
  assert (T : Nat.leb 2 n_types = false) by (apply Nat.leb_gt; lia). rewrite T. simpl.
  rewrite (map_app fst), filter_app.
  rewrite (filter_all _ _ (map fst static)), (filter_nothing _ _ (map fst exog)).
  - rewrite app_nil_r, app_nil_r, <- map_app, <- map_app, n_levels_obs by exact N. reflexivity.
  - intros x Hx. apply negb_false_iff. apply existsb_exists. exists x. split; auto. apply Nat.eqb_refl.
  - intros x Hx. apply negb_true_iff. apply not_true_iff_false. intro E.
    apply existsb_exists in E. destruct E as [y [Hy E]]. apply Nat.eqb_eq in E. subst y.
    rewrite map_app in N. clear - N Hx Hy. induction (map fst static) as [|a l IH]; [destruct Hx|].
    simpl in N. inversion N; subst. destruct Hx as [<-|Hx]; [|auto].
    apply H1. apply in_app_iff. auto.
Qed.
