(** Proofs: the preparation of the data of Keane and Wolpin. *)
From Coq Require Import List Arith ZArith Bool String Reals Lia Sorted.
From Verif Require Import Base Model_Strings Model_Choices Model_Data Model_KW97 Spec_Data Spec_KW97
  Proof_Base Proof_Data Proof_DataCheck Proof_DataColumns Proof_DatasetCheck.
Import ListNotations.
Open Scope string_scope.
Open Scope list_scope.
Open Scope Z_scope.

Lemma decode_ok : forall w, is_choice_of w (decode (w_code w)).
Proof.
  intros w choice. unfold chose, stands_for, decode. destruct (w_code w) as [code|].
  - split.
    + intros H. exists code. split; [reflexivity|]. apply dict_get_Some_In in H. cbn in H.
      destruct H as [H|[H|[H|[H|[H|[]]]]]]; injection H as <- <-; tauto.
    + intros [c [E H]]. injection E as <-. destruct H as [[-> ->]|[[-> ->]|[[-> ->]|[[-> ->]|[-> ->]]]]]; reflexivity.
  - split; [discriminate|]. intros [c [E _]]. discriminate.
Qed.
Lemma choice_unique : forall w c d, is_choice_of w c -> is_choice_of w d -> c = d.
Proof.
  intros w [c|] [d|] C D; try reflexivity.
  - assert (X : Some d = Some c) by (apply D, C; reflexivity). congruence.
  - assert (X : @None string = Some c) by (apply D, C; reflexivity). discriminate.
  - assert (X : @None string = Some d) by (apply C, D; reflexivity). discriminate.
Qed.

Lemma filter_le : forall A (f : A -> bool) l, (List.length (filter f l) <= List.length l)%nat.
Proof. intros A f l. induction l as [|x l IH]; cbn; [lia|]. destruct (f x); cbn; lia. Qed.

(** ** Identifiers *)
Lemma sorted_strict : forall l, NoDup l -> StronglySorted Z.lt (isort Z.leb l).
Proof.
  intros l N.
  assert (S : StronglySorted (fun a b => Z.leb a b = true) (isort Z.leb l)).
  { apply Sorted_isort.
    - intros a b. destruct (Z.leb_spec a b); [left; reflexivity|right; apply Z.leb_le; lia].
    - intros a b c A B. apply Z.leb_le in A, B. apply Z.leb_le. lia. }
  assert (M : NoDup (isort Z.leb l)) by (apply NoDup_isort; exact N).
  induction S as [|x r S IH F]; [constructor|]. inversion M; subst. constructor; [auto|].
  rewrite Forall_forall in *. intros y Y. specialize (F y Y). cbv beta in F. apply Z.leb_le in F. assert (x <> y) by congruence. lia.
Qed.
Definition below (l : list Z) (i : Z) : list Z := filter (fun j => Z.ltb j i) l.
Lemma below_none : forall l i, (forall j, In j l -> i <= j) -> below l i = [].
Proof.
  induction l as [|x l IH]; intros i H; [reflexivity|]. cbn. destruct (Z.ltb_spec x i) as [L|L].
  - specialize (H x (or_introl eq_refl)). lia.
  - apply IH. intros j J. apply H. right. exact J.
Qed.
Lemma find_position : forall l i s, StronglySorted Z.lt l -> In i l ->
  find (fun p => Z.eqb (snd p) i) (enumerate_from s l) = Some ((s + List.length (below l i))%nat, i).
Proof.
  induction l as [|x l IH]; intros i s St I; [contradiction|]. inversion St as [|? ? S1 F]; subst. rewrite Forall_forall in F.
  cbn [enumerate_from find snd]. destruct (Z.eqb_spec x i) as [E|E].
  - subst x. rewrite below_none; [cbn; rewrite Nat.add_0_r; reflexivity|].
    intros j [<-|J]; [lia|]. specialize (F j J). lia.
  - destruct I as [I|I]; [contradiction|]. rewrite (IH i (S s) S1 I). cbn [below filter].
    specialize (F i I). destruct (Z.ltb_spec x i) as [L|L]; [|lia]. cbn [List.length]. f_equal. f_equal. unfold below. lia.
Qed.

Section File.
  Variable file : list raw.
  Hypothesis FEW : few_people file.
  Let people : list Z := isort Z.leb (drop_duplicates Z.eq_dec (map w_id file)).
  Let gn : Z -> Z := group_number (map w_id file).

  Lemma In_people : forall i, In i people <-> exists w, In w file /\ w_id w = i.
  Proof.
    intros i. unfold people. rewrite In_isort, In_drop_duplicates, in_map_iff. split; intros [w H]; exists w; tauto.
  Qed.
  Lemma people_sorted : StronglySorted Z.lt people.
  Proof. apply sorted_strict. apply NoDup_drop_duplicates. Qed.
  Lemma people_nodup : NoDup people.
  Proof. apply NoDup_isort, NoDup_drop_duplicates. Qed.
  Lemma people_few : Z.of_nat (List.length people) <= 65536.
  Proof. apply FEW; [exact people_nodup|]. intros i I. apply In_people. exact I. Qed.
  Lemma below_lt : forall i, In i people -> (List.length (below people i) < List.length people)%nat.
  Proof.
    intros i I. unfold below. assert (L : (List.length (filter (fun j => (j <? i)%Z) people) <= List.length people)%nat) by apply filter_le.
    destruct (Nat.eq_dec (List.length (filter (fun j => j <? i) people)) (List.length people)) as [E|E]; [|lia]. exfalso.
    assert (X : filter (fun j => j <? i) people = people).
    { clear - E. induction people as [|x l IH]; [reflexivity|]. cbn in *. destruct (x <? i); cbn in *; [f_equal; apply IH; lia|].
      pose proof (filter_le _ (fun j => j <? i) l). lia. }
    rewrite <- X in I. apply filter_In in I. destruct I as [_ I]. apply Z.ltb_lt in I. lia.
  Qed.
  Lemma gn_is : forall i, In i people -> gn i = Z.of_nat (List.length (below people i)).
  Proof.
    intros i I. unfold gn, group_number. fold people. unfold enumerate. rewrite (find_position people i 0 people_sorted I).
    cbn [fst]. pose proof (below_lt i I). pose proof people_few. rewrite Nat.add_0_l.
    unfold wrap, d_min. cbn [d_signed d_bits]. rewrite Z.sub_0_r, Z.add_0_r. apply Z.mod_small. change (2 ^ 16) with 65536. lia.
  Qed.
  Lemma gn_smaller : forall i, In i people -> smaller_identifiers file i (List.length (below people i)).
  Proof.
    intros i I. exists (below people i). split; [apply NoDup_filter; exact people_nodup|]. split; [reflexivity|].
    intros j. unfold below. rewrite filter_In, In_people, Z.ltb_lt. tauto.
  Qed.
  Lemma gn_lt : forall i j, In i people -> In j people -> i < j -> gn i < gn j.
  Proof.
    intros i j I J L. rewrite !gn_is by assumption.
    assert (X : (List.length (i :: below people i) <= List.length (below people j))%nat).
    { apply NoDup_incl_length.
      - constructor; [|apply NoDup_filter; exact people_nodup]. unfold below. rewrite filter_In, Z.ltb_lt. lia.
      - intros x [<-|X]; unfold below in *; rewrite filter_In, Z.ltb_lt in *; [tauto|]. split; [tauto|lia]. }
    cbn in X. lia.
  Qed.
  Lemma gn_eqb : forall i j, In i people -> In j people -> Z.eqb (gn i) (gn j) = Z.eqb i j.
  Proof.
    intros i j I J. destruct (Z.eqb_spec i j) as [E|E]; [subst; apply Z.eqb_refl|]. apply Z.eqb_neq.
    destruct (Z.lt_total i j) as [L|[L|L]]; [|contradiction|].
    - pose proof (gn_lt i j I J L). lia.
    - pose proof (gn_lt j i J I L). lia.
  Qed.
  Lemma gn_onto : forall t, 0 <= t < Z.of_nat (List.length people) -> exists i, In i people /\ gn i = t.
  Proof.
    intros t T. destruct (nth_error people (Z.to_nat t)) as [i|] eqn:E.
    - pose proof (nth_error_In _ _ E) as I. exists i. split; [exact I|]. rewrite (gn_is i I).
      assert (X : List.length (below people i) = Z.to_nat t); [|lia].
      clear - E. pose proof people_sorted as S. revert E. generalize (Z.to_nat t) as k. clear t. revert i.
      induction S as [|x l S IH F]; intros i k E; [destruct k; discriminate|]. rewrite Forall_forall in F.
      destruct k as [|k]; cbn in E.
      + injection E as <-. rewrite below_none; [reflexivity|]. intros j [<-|J]; [lia|]. specialize (F j J). lia.
      + pose proof (F i (nth_error_In _ _ E)) as L. cbn [below filter]. destruct (Z.ltb_spec x i) as [_|X]; [|lia].
        cbn [List.length]. f_equal. apply (IH i k E).
    - apply nth_error_None in E. lia.
  Qed.

  (** ** Columns *)
  Let ids := map (fun w => gn (w_id w)) file.
  Let choices := map (fun w => decode (w_code w)) file.
  Let panel := combine ids choices.
  Lemma panel_map : panel = map (fun w => (gn (w_id w), decode (w_code w))) file.
  Proof. unfold panel, ids, choices. generalize gn as g. intros g. clear. induction file as [|w l IH]; [reflexivity|]. cbn. f_equal. exact IH. Qed.
  Lemma in_file_people : forall w, In w file -> In (w_id w) people.
  Proof. intros w I. apply In_people. exists w. auto. Qed.

  Lemma earlier_years : forall k w c, nth_error file k = Some w ->
    years_before file k c (earlier_choices panel c k).
  Proof.
    intros k w c K.
    set (f := fun j => match nth_error file j with
       | Some v => Z.eqb (w_id v) (w_id w) && match decode (w_code v) with Some d => String.eqb d c | None => false end | None => false end).
    exists w, (filter f (seq 0 k)). split; [exact K|]. split; [apply NoDup_filter, seq_NoDup|]. split.
    - unfold earlier_choices. rewrite panel_map, nth_error_map, K. cbn [option_map fst].
      rewrite firstn_map.
      assert (KL : (k < List.length file)%nat) by (apply nth_error_Some; congruence).
      assert (G : forall n, (n <= k)%nat -> List.length (filter f (seq 0 n)) =
        List.length (filter (fun q => Z.eqb (fst q) (gn (w_id w)) && match snd q with Some d => String.eqb d c | None => false end)
          (map (fun v => (gn (w_id v), decode (w_code v))) (firstn n file)))).
      { induction n as [|n IH]; intros L; [reflexivity|]. rewrite seq_S, filter_app, app_length, IH by lia. cbn [plus filter].
        destruct (nth_error file n) as [v|] eqn:N; [|apply nth_error_None in N; lia].
        assert (FS : firstn (S n) file = firstn n file ++ [v]).
        { clear - N. revert n N. induction file as [|x l IH]; intros [|n] N; cbn in *; try discriminate; [injection N as ->; reflexivity|].
          f_equal. apply IH. exact N. }
        rewrite FS, map_app, filter_app, app_length. cbn [map filter fst snd]. f_equal. unfold f. rewrite N.
        rewrite (gn_eqb _ _ (in_file_people v (nth_error_In _ _ N)) (in_file_people w (nth_error_In _ _ K))).
        destruct (_ && _); reflexivity. }
      apply G. lia.
    - intros j. rewrite filter_In, in_seq. unfold f. split.
      + intros [J H]. split; [lia|]. destruct (nth_error file j) as [v|] eqn:N; [|discriminate]. exists v. split; [reflexivity|].
        apply andb_true_iff in H. destruct H as [H1 H2]. split; [apply Z.eqb_eq; exact H1|].
        apply (decode_ok v). destruct (decode (w_code v)); [|discriminate]. apply String.eqb_eq in H2. congruence.
      + intros [J [v [N [E C]]]]. split; [lia|]. rewrite N, E, Z.eqb_refl. apply (decode_ok v) in C. rewrite C. apply String.eqb_refl.
  Qed.

  Lemma last_choice_nth : forall l before k, nth_error (last_choice before l) k =
    match nth_error l k with
    | Some (i, _) => Some match find (fun p => Z.eqb (fst p) i) (rev (firstn k l) ++ before) with Some p => snd p | None => None end
    | None => None
    end.
  Proof.
    induction l as [|[i x] l IH]; intros before k; [destruct k; reflexivity|]. destruct k as [|k]; cbn [last_choice nth_error firstn rev app]; [reflexivity|].
    rewrite IH. destruct (nth_error l k) as [[j y]|]; [|reflexivity]. rewrite <- app_assoc. reflexivity.
  Qed.
  Lemma lagged_ok : forall k w, nth_error file k = Some w ->
    (forall v, row_before file k v -> exists c, nth_error (last_choice [] panel) k = Some c /\ is_choice_of v c) /\
    ((forall v, ~ row_before file k v) -> nth_error (last_choice [] panel) k = Some None).
  Proof.
    intros k w K. pose proof (in_file_people w (nth_error_In _ _ K)) as PW.
    assert (E : nth_error (last_choice [] panel) k = Some match find (fun p => Z.eqb (fst p) (gn (w_id w))) (rev (firstn k panel)) with Some p => snd p | None => None end).
    { rewrite last_choice_nth, panel_map, nth_error_map, K. cbn [option_map]. rewrite app_nil_r. reflexivity. }
    assert (FP : forall j p, nth_error (firstn k panel) j = Some p <-> (j < k)%nat /\ exists v, nth_error file j = Some v /\ p = (gn (w_id v), decode (w_code v))).
    { intros j p. rewrite nth_firstn, panel_map, nth_error_map. split; intros [J H]; (split; [exact J|]).
      - destruct (nth_error file j) as [v|]; [|discriminate]. injection H as <-. exists v. auto.
      - destruct H as [v [-> ->]]. reflexivity. }
    destruct (find _ (rev (firstn k panel))) as [p|] eqn:F.
    - apply find_rev_last in F. destruct F as [a [A [T L]]]. apply FP in A. destruct A as [AK [v [V ->]]]. cbn [fst snd] in *.
      rewrite (gn_eqb _ _ (in_file_people v (nth_error_In _ _ V)) PW) in T. apply Z.eqb_eq in T.
      assert (O : forall i u, (a < i < k)%nat -> nth_error file i = Some u -> w_id u <> w_id w).
      { intros i u I U. assert (X : Z.eqb (gn (w_id u)) (gn (w_id w)) = false).
        { apply (L i (gn (w_id u), decode (w_code u))); [lia|]. apply FP. split; [lia|]. exists u. auto. }
        rewrite (gn_eqb _ _ (in_file_people u (nth_error_In _ _ U)) PW) in X. apply Z.eqb_neq. exact X. }
      split.
      + intros v' [w' [j [K' [JK [J [I O']]]]]]. rewrite K in K'. injection K' as <-.
        assert (j = a). { destruct (Nat.lt_total j a) as [X|[X|X]]; [|exact X|].
          - exfalso. apply (O' a v); [lia|exact V|exact T].
          - exfalso. apply (O j v'); [lia|exact J|exact I]. }
        subst j. rewrite V in J. injection J as <-. exists (decode (w_code v)). split; [exact E|apply decode_ok].
      + intros N. exfalso. apply (N v). exists w, a. repeat split; auto.
    - rewrite find_rev_none in F. split; [|intros _; exact E].
      intros v [w' [j [K' [JK [J [I _]]]]]]. exfalso. rewrite K in K'. injection K' as <-.
      assert (X : Z.eqb (gn (w_id v)) (gn (w_id w)) = false).
      { apply (F (gn (w_id v), decode (w_code v))). apply (nth_error_In _ j). apply FP. split; [exact JK|]. exists v. auto. }
      rewrite I, Z.eqb_refl in X. discriminate.
  Qed.
End File.
