(** Lemmas about the regular expressions. *)
From Coq Require Import List Arith Bool Lia String Ascii Sorted Permutation NArith.
From Verif Require Import Base Proof_Base Model_Strings Proof_Strings Model_Choices Spec_Choices.
Import ListNotations.
Open Scope string_scope.

Lemma all_chars_append : forall cls a b, all_chars cls (a ++ b) = all_chars cls a && all_chars cls b.
Proof.
  induction a as [|c a IH]; intros b; cbn; [reflexivity|]. rewrite IH, andb_assoc. reflexivity.
Qed.

Lemma after_prefix_iff : forall p s r, after_prefix p s = Some r <-> s = p ++ r.
Proof.
  induction p as [|x p IH]; intros s r; cbn.
  - split; [intros H; inversion H; reflexivity | intros ->; reflexivity].
  - destruct s as [|y s]; [split; discriminate|].
    destruct (Ascii.eqb_spec x y) as [->|N].
    + rewrite IH. split; [intros ->; reflexivity | intros H; inversion H; reflexivity].
    + split; [discriminate | intros H; inversion H; congruence].
Qed.

Lemma span_app : forall cls s, let '(g, rest) := span cls s in
  s = g ++ rest /\ all_chars cls g = true /\
  (rest = "" \/ exists c r, rest = String c r /\ cls c = false).
Proof.
  intros cls s. induction s as [|c s IH]; cbn.
  - auto.
  - destruct (cls c) eqn:C.
    + destruct (span cls s) as [g rest]. destruct IH as [-> [A R]]. cbn. rewrite C. auto.
    + cbn. split; [reflexivity|]. split; [reflexivity|]. right. eauto.
Qed.

Lemma span_unique : forall cls g rest, all_chars cls g = true ->
  (rest = "" \/ exists c r, rest = String c r /\ cls c = false) ->
  span cls (g ++ rest) = (g, rest).
Proof.
  intros cls g rest A R. induction g as [|c g IH]; cbn.
  - destruct R as [->|[c [r [-> C]]]]; cbn; [reflexivity | rewrite C; reflexivity].
  - cbn in A. apply andb_true_iff in A. destruct A as [C A]. rewrite C, IH by exact A. reflexivity.
Qed.

(** Before and after a word. *)
Definition ends_non_word (a : string) : Prop := exists a' x, a = a' ++ String x "" /\ is_word x = false.
Definition begins_non_word (b : string) : Prop := exists x b', b = String x b' /\ is_word x = false.

Lemma word_ends_iff : forall b, word_ends b = true <-> (b = "" \/ begins_non_word b).
Proof.
  intros [|c b]; cbn.
  - split; auto.
  - rewrite negb_true_iff. split.
    + intros C. right. exists c, b. auto.
    + intros [H|[x [b' [E X]]]]; [discriminate|]. inversion E; subst. exact X.
Qed.

Section Findall.
  Variable p : string.
  Variable cls : ascii -> bool.
  Hypothesis P1 : p <> "".
  Hypothesis P2 : all_chars is_word p = true.
  Hypothesis C1 : forall c, cls c = true -> is_word c = true.

  Definition good (g : string) : Prop := g <> "" /\ all_chars cls g = true.

  Lemma all_word : forall g, all_chars cls g = true -> all_chars is_word g = true.
  Proof.
    induction g as [|c g IH]; cbn; [reflexivity|]. intros H. apply andb_true_iff in H.
    destruct H as [H1 H2]. rewrite (C1 c H1). auto.
  Qed.

  Lemma match_here_iff : forall s g rest, match_here p cls s = Some (g, rest) <->
    s = p ++ g ++ rest /\ good g /\ word_ends rest = true.
  Proof.
    intros s g rest. unfold match_here, good. split.
    - destruct (after_prefix p s) as [r|] eqn:A; [|discriminate].
      apply after_prefix_iff in A. subst s.
      pose proof (span_app cls r) as S. destruct (span cls r) as [g' rest'].
      destruct S as [-> [G _]].
      destruct (String.eqb_spec g' "") as [E|E]; cbn [negb andb]; [discriminate|].
      destruct (word_ends rest') eqn:W; [|discriminate].
      intros H. inversion H; subst. auto.
    - intros [-> [[G1 G2] W]].
      replace (after_prefix p (p ++ g ++ rest)) with (Some (g ++ rest))
        by (symmetry; apply after_prefix_iff; reflexivity).
      rewrite span_unique; [|exact G2|].
      + destruct (String.eqb_spec g "") as [E|E]; [contradiction|]. cbn. rewrite W. reflexivity.
      + apply word_ends_iff in W. destruct W as [->|[c [r [-> C]]]]; [auto|]. right.
        exists c, r. split; [reflexivity|]. destruct (cls c) eqn:K; [|reflexivity].
        apply C1 in K. congruence.
  Qed.

  Lemma in_word_skips : forall u r, all_chars is_word u = true ->
    findall_from p cls true 0 (u ++ r) = findall_from p cls true 0 r.
  Proof.
    induction u as [|c u IH]; intros r H; cbn; [reflexivity|].
    cbn in H. apply andb_true_iff in H. destruct H as [C H]. rewrite C. apply IH. exact H.
  Qed.

  Lemma skip_word : forall u r, all_chars is_word u = true ->
    findall_from p cls true (String.length u) (u ++ r) = findall_from p cls true 0 r.
  Proof.
    induction u as [|c u IH]; intros r H; [reflexivity|].
    cbn in H. apply andb_true_iff in H. destruct H as [C H].
    cbn [String.length append findall_from]. rewrite C. apply IH. exact H.
  Qed.

  Lemma findall_step : forall w c r, findall_from p cls w 0 (String c r) =
    ((if w then [] else match match_here p cls (String c r) with Some (g, _) => [g] | None => [] end)
    ++ findall_from p cls (is_word c) 0 r)%list.
  Proof.
    intros w c r. cbn [findall_from]. destruct w; [reflexivity|].
    destruct (match_here p cls (String c r)) as [[g rest]|] eqn:M; [|reflexivity].
    cbn [app]. f_equal. apply match_here_iff in M. destruct M as [E [[G1 G2] _]].
    assert (Ep : exists x p', p = String x p') by (destruct p; [contradiction | eauto]).
    destruct Ep as [x [p' Ep]].
    assert (P3 := P2). rewrite Ep in E, P3. cbn in E, P3. inversion E; subst c r.
    apply andb_true_iff in P3. destruct P3 as [X P'].
    rewrite X.
    replace (String.length p + String.length g - 1) with (String.length (p' ++ g))
      by (rewrite Ep, length_append; cbn [String.length]; lia).
    rewrite <- append_assoc_s.
    rewrite skip_word.
    - rewrite in_word_skips; [reflexivity|]. rewrite all_chars_append, P'. apply all_word. exact G2.
    - rewrite all_chars_append, P'. apply all_word. exact G2.
  Qed.

  Lemma findall_from_iff : forall s w g, In g (findall_from p cls w 0 s) <->
    exists a b, s = a ++ p ++ g ++ b /\ good g /\ word_ends b = true /\
      ((a = "" /\ w = false) \/ ends_non_word a).
  Proof.
    induction s as [|c s IH]; intros w g.
    - cbn. split; [intros []|]. intros [a [b [E _]]].
      destruct a; [|discriminate]. destruct p; [contradiction | discriminate].
    - rewrite findall_step. rewrite in_app_iff, IH. split.
      + intros [H|[a [b [-> [G [W A]]]]]].
        * destruct w; [destruct H|].
          destruct (match_here p cls (String c s)) as [[g' rest]|] eqn:M; [|destruct H].
          destruct H as [->|[]]. apply match_here_iff in M. destruct M as [E [G W]].
          exists "", rest. split; [exact E|]. auto.
        * exists (String c a), b. split; [reflexivity|]. split; [exact G|]. split; [exact W|].
          right. destruct A as [[-> A]|[a' [x [-> X]]]].
          -- exists "", c. split; [reflexivity | exact A].
          -- exists (String c a'), x. split; [reflexivity | exact X].
      + intros [a [b [E [G [W A]]]]]. destruct a as [|y a].
        * left. destruct A as [[_ ->]|[a' [x [A _]]]]; [|destruct a'; discriminate].
          cbn [append] in E. assert (M : match_here p cls (String c s) = Some (g, b))
            by (apply match_here_iff; auto).
          rewrite M. left. reflexivity.
        * right. cbn in E. inversion E; subst. exists a, b.
          split; [reflexivity|]. split; [exact G|]. split; [exact W|].
          destruct A as [[A _]|[a' [x [A X]]]]; [discriminate|].
          destruct a' as [|z a'].
          -- cbn in A. inversion A; subst. left. auto.
          -- cbn in A. inversion A; subst. right. exists a', x. auto.
  Qed.

  Lemma findall_iff : forall s g, In g (findall p cls s) <-> good g /\ word_of (p ++ g) s.
  Proof.
    intros s g. unfold findall. rewrite findall_from_iff. unfold word_of. split.
    - intros [a [b [E [G [W A]]]]]. split; [exact G|]. exists a, b.
      rewrite append_assoc_s. split; [exact E|]. split; [|apply word_ends_iff in W; exact W].
      destruct A as [[-> _]|A]; [left; reflexivity | right; exact A].
    - intros [G [a [b [E [A B]]]]]. exists a, b. rewrite append_assoc_s in E.
      split; [exact E|]. split; [exact G|]. split; [apply word_ends_iff; exact B|].
      destruct A as [->|A]; [left; auto | right; exact A].
  Qed.

  (** In a word there is at most the word itself. *)
  Lemma word_of_word : forall t s, word s -> word_of t s -> s = t.
  Proof.
    intros t s W [a [b [-> [A B]]]]. unfold word in W. rewrite !all_chars_append in W.
    apply andb_true_iff in W. destruct W as [Wa W]. apply andb_true_iff in W. destruct W as [_ Wb].
    destruct A as [->|[a' [x [-> X]]]].
    - destruct B as [->|[x [b' [-> X]]]].
      + cbn [append]. apply append_nil_r.
      + cbn in Wb. rewrite X in Wb. discriminate.
    - rewrite all_chars_append in Wa. cbn in Wa. rewrite X in Wa.
      rewrite andb_false_r in Wa. discriminate.
  Qed.

  Lemma word_of_refl : forall s, word_of s s.
  Proof.
    intros s. exists "", "". split; [cbn [append]; rewrite append_nil_r; reflexivity|]. auto.
  Qed.

  Lemma extract_word_iff : forall s g, word s ->
    (extract p cls s = Some g <-> good g /\ s = p ++ g).
  Proof.
    intros s g W. unfold extract. split.
    - intros H. assert (I : In g (findall p cls s)).
      { destruct (findall p cls s); [discriminate|]. cbn in H. inversion H. left. reflexivity. }
      apply findall_iff in I. destruct I as [G I]. split; [exact G|]. apply word_of_word; assumption.
    - intros [G E].
      assert (I : In g (findall p cls s)).
      { apply findall_iff. split; [exact G|]. subst s. apply word_of_refl. }
      destruct (findall p cls s) as [|g' l] eqn:F; [destruct I|]. cbn. f_equal.
      assert (I' : In g' (findall p cls s)) by (rewrite F; left; reflexivity).
      apply findall_iff in I'. destruct I' as [_ I']. apply word_of_word in I'; [|exact W].
      subst s. apply append_inj_l in I'. congruence.
  Qed.
End Findall.

Lemma name_is_word : forall c, is_name c = true -> is_word c = true.
Proof.
  intros c H. unfold is_name, is_word in *. apply orb_true_iff in H. apply orb_true_iff.
  destruct H as [H|H]; [left; rewrite H; reflexivity | right; exact H].
Qed.

(** ** Sorted sets of strings *)

Lemma leb_iff : forall a b, String.leb a b = true <-> String.compare a b <> Gt.
Proof.
  intros a b. unfold String.leb. destruct (String.compare a b); split; congruence.
Qed.

Lemma ascii_compare_trans : forall a b c : ascii,
  Ascii.compare a b = Lt -> Ascii.compare b c = Lt -> Ascii.compare a c = Lt.
Proof.
  intros a b c. unfold Ascii.compare. rewrite !N.compare_lt_iff. lia.
Qed.

Lemma compare_trans : forall a b c, String.compare a b = Lt -> String.compare b c = Lt -> String.compare a c = Lt.
Proof.
  induction a as [|x a IH]; intros [|y b] [|z c]; cbn; try congruence.
  destruct (Ascii.compare x y) eqn:XY; try discriminate;
  destruct (Ascii.compare y z) eqn:YZ; try discriminate.
  - apply Ascii.compare_eq_iff in XY. subst. rewrite YZ. apply IH.
  - apply Ascii.compare_eq_iff in XY. subst. rewrite YZ. auto.
  - apply Ascii.compare_eq_iff in YZ. subst. rewrite XY. auto.
  - rewrite (ascii_compare_trans _ _ _ XY YZ). auto.
Qed.
