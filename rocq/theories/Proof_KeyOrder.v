(** Proofs about the order of core keys and the options in effect. *)
From Coq Require Import List Arith Bool String Lia Sorted.
From Verif Require Import Base Proof_Base Model_CoreStateSpace Model_StateSpace Proof_Types Model_Options Spec_KeyOrder.
Import ListNotations.

Lemma ko_tuple : forall a b, bools_leb a b = true -> a <> b -> tuple_before a b.
Proof.
  induction a as [|x a IH]; intros [|y b] H N; cbn in H; try discriminate.
  - contradiction.
  - right. exists y, b. reflexivity.
  - destruct (Bool.eqb x y) eqn:E.
    + apply eqb_prop in E. subst y. destruct (IH b H) as [[c [u [v [-> ->]]]]|[u [v ->]]]; [congruence|..].
      * left. exists (x :: c), u, v. auto.
      * right. exists u, v. reflexivity.
    + destruct x, y; try discriminate. left. exists [], a, b. auto.
Qed.
Lemma ko_total : forall a b, bools_leb a b = true \/ bools_leb b a = true.
Proof. induction a as [|x a IH]; intros [|y b]; cbn; auto. destruct x, y; cbn; auto. Qed.
Lemma ko_trans : forall a b c, bools_leb a b = true -> bools_leb b c = true -> bools_leb a c = true.
Proof.
  induction a as [|x a IH]; intros [|y b] [|z c] H G; cbn in *; try discriminate; auto.
  destruct x, y, z; cbn in *; try discriminate; auto; eapply IH; eassumption.
Qed.
Lemma ko_ckey_total : forall a b, ckey_leb a b = true \/ ckey_leb b a = true.
Proof.
  intros [p a] [q b]. unfold ckey_leb. cbn [fst snd]. destruct (Nat.eqb_spec p q) as [->|N].
  - destruct (Nat.eqb_spec q q); [|contradiction]. apply ko_total.
  - destruct (Nat.eqb_spec q p); [lia|]. rewrite !Nat.ltb_lt. lia.
Qed.
Lemma ko_ckey_trans : forall a b c, ckey_leb a b = true -> ckey_leb b c = true -> ckey_leb a c = true.
Proof.
  intros [p a] [q b] [r c]. unfold ckey_leb. cbn [fst snd].
  destruct (Nat.eqb_spec p q) as [->|N]; destruct (Nat.eqb_spec q r) as [->|M]; intros H G.
  - destruct (Nat.eqb_spec r r); [|contradiction]. eapply ko_trans; eassumption.
  - destruct (Nat.eqb_spec q r); [contradiction|exact G].
  - destruct (Nat.eqb_spec p r); [contradiction|exact H].
  - apply Nat.ltb_lt in H. apply Nat.ltb_lt in G. destruct (Nat.eqb_spec p r); [lia|]. apply Nat.ltb_lt. lia.
Qed.

Lemma ko_sorted_nth : forall A (P : A -> A -> Prop) l, StronglySorted P l -> forall i j a b, i < j ->
  nth_error l i = Some a -> nth_error l j = Some b -> P a b.
Proof.
  intros A P l H. induction H as [|x l S1 IH F]; intros i j a b L Hi Hj; [destruct i; discriminate|].
  destruct j as [|j]; [lia|]. cbn in Hj. destruct i as [|i]; cbn in Hi.
  - injection Hi as <-. rewrite Forall_forall in F. apply F. apply (nth_error_In _ _ Hj).
  - apply (IH i j); auto. lia.
Qed.

Lemma keys_in_order : forall core csf i j a b, i < j ->
  nth_error (core_key_to_complex core csf) i = Some a -> nth_error (core_key_to_complex core csf) j = Some b -> key_before a b.
Proof.
  intros core csf i j a b L Hi Hj.
  assert (N : NoDup (core_key_to_complex core csf)) by (apply NoDup_isort, NoDup_drop_duplicates).
  assert (D : a <> b).
  { intros E. subst b. rewrite NoDup_nth_error in N. assert (i = j); [|lia]. apply N; [apply nth_error_Some; congruence|congruence]. }
  assert (S1 : ckey_leb a b = true).
  { apply (ko_sorted_nth _ (fun a b => ckey_leb a b = true) (core_key_to_complex core csf)) with (i := i) (j := j); auto.
    apply Sorted_isort; [exact ko_ckey_total|exact ko_ckey_trans]. }
  destruct a as [p a], b as [q b]. unfold ckey_leb in S1. unfold key_before. cbn [fst snd] in *.
  destruct (Nat.eqb_spec p q) as [->|M].
  - right. split; [reflexivity|]. apply ko_tuple; [exact S1|congruence].
  - left. apply Nat.ltb_lt. exact S1.
Qed.

Open Scope string_scope.
Lemma options_in_effect : forall user name, NoDup (dict_keys user) ->
  dict_get string_dec name (with_defaults user) =
  match dict_get string_dec name user with Some v => Some v | None => dict_get string_dec name default_options end.
Proof.
  intros user name N. unfold with_defaults. destruct (dict_get string_dec name user) as [v|] eqn:E.
  - rewrite dict_get_update_in; [exact E|exact N|]. apply dict_get_Some_In in E. unfold dict_keys. apply in_map_iff. exists (name, v). auto.
  - apply dict_get_update. intros I. apply in_map_iff in I. destruct I as [[n v] [X I]]. cbn in X. subst n.
    rewrite (dict_get_In_NoDup string_dec name v user N I) in E. discriminate.
Qed.
