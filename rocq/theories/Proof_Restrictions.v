(** Proofs about formulas of the negative choice set that have no effect. *)
From Coq Require Import List Arith Bool Lia.
From Verif Require Import Base Model_CoreStateSpace Spec_CoreStateSpace Proof_CoreStateSpace.
Import ListNotations.

(** The restrictions of [neg] are among those of [neg']. *)
Lemma more_restrictions : forall sp neg neg' ctx s k k',
  wf_spec sp ->
  (forall c fs f g, c < sp_nchoices sp -> neg c = Some fs -> In f fs -> f ctx = Some g ->
     exists fs', neg' c = Some fs' /\ In f fs') ->
  forall c, nth_error (choice_set_of sp (process sp (S k') neg') ctx s) c = Some true ->
    nth_error (choice_set_of sp (process sp (S k) neg) ctx s) c = Some true.
Proof.
  intros sp neg neg' ctx s k k' W H c. rewrite !availability by exact W. intros [A [B C]].
  split; [exact A|]. split; [|exact C]. intros [fs [f [g [E1 [E2 [E3 E4]]]]]]. apply B.
  destruct (H c fs f g A E1 E2 E3) as [fs' [F1 F2]]. exists fs', f, g. auto.
Qed.

Lemma choice_set_ext : forall sp n1 n2 ctx s,
  (forall c, nth_error (choice_set_of sp n1 ctx s) c = Some true <-> nth_error (choice_set_of sp n2 ctx s) c = Some true) ->
  choice_set_of sp n1 ctx s = choice_set_of sp n2 ctx s.
Proof.
  intros sp n1 n2 ctx s H. unfold choice_set_of in *. apply map_ext_in. intros c Hc. apply in_seq in Hc.
  specialize (H c).
  assert (E : forall n, nth_error (map (fun c => negb (is_inadmissible n ctx s c)) (seq 0 (sp_nchoices sp))) c =
              Some (negb (is_inadmissible n ctx s c))).
  { intros n. rewrite (map_nth_error _ c (seq 0 (sp_nchoices sp)) (d := c)); [reflexivity|].
    rewrite (nth_error_nth' _ 0) by (rewrite seq_length; lia). rewrite seq_nth by lia. reflexivity. }
  rewrite !E in H. destruct (negb (is_inadmissible n1 ctx s c)), (negb (is_inadmissible n2 ctx s c)); try reflexivity.
  - destruct H as [H _]. specialize (H eq_refl). discriminate.
  - destruct H as [_ H]. specialize (H eq_refl). discriminate.
Qed.

Lemma ignored_restrictions : forall sp neg neg' ctx s k k',
  wf_spec sp ->
  (forall c f g, c < sp_nchoices sp -> f ctx = Some g ->
     ((exists fs, neg c = Some fs /\ In f fs) <-> (exists fs, neg' c = Some fs /\ In f fs))) ->
  choice_set_of sp (process sp (S k) neg) ctx s = choice_set_of sp (process sp (S k') neg') ctx s.
Proof.
  intros sp neg neg' ctx s k k' W H. apply choice_set_ext. intros c. split; apply more_restrictions; try exact W;
    intros d fs f g D E I F; apply (H d f g D F); exists fs; auto.
Qed.
