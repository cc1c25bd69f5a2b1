(** The matrix of the shocks and discounting. *)
From Coq Require Import List Arith Bool Lia String Ascii Reals Lra ZArith.
From Verif Require Import Base Model_Strings Model_Choices Spec_Choices Model_CoreStateSpace Spec_CoreStateSpace
  Model_StateSpace Model_Solve Spec_Solve Model_Simulate Model_Params Spec_Params Proof_Params Proof_Shocknames Model_Processing Spec_Processing.
Import ListNotations.
Local Open Scope nat_scope.
Open Scope string_scope.

Lemma before_row_until : forall i, before_row i = entries_until i.
Proof.
  intros i. unfold before_row. rewrite Nat.div2_div.
  assert (H : i * S i = entries_until i * 2). { induction i as [|i IH]; [reflexivity|]. cbn [entries_until]. lia. }
  rewrite H. apply Nat.div_mul. lia.
Qed.
Lemma before_row_strict_below : forall i, before_row_strict i = entries_below i.
Proof.
  intros i. unfold before_row_strict. rewrite Nat.div2_div.
  assert (H : i * (i - 1) = entries_below i * 2).
  { induction i as [|i IH]; [reflexivity|]. cbn [entries_below]. destruct i as [|i]; [reflexivity|].
    replace (S (S i) - 1) with (S i) by lia. replace (S i - 1) with i in IH by lia. nia. }
  rewrite H. apply Nat.div_mul. lia.
Qed.

Lemma shock_at : forall (params : list param) k m name, nth_error (shock_names params k) m = Some name ->
  shock_parameter params k name (nth m (shock_values k params) 0%R).
Proof.
  intros params k m name H. unfold shock_names in H. rewrite nth_error_map in H.
  assert (E : shock_values k params = map snd (filter (fun p => String.eqb (p_category p) ("shocks_" ++ kind_name k)) params)).
  { destruct k; reflexivity. }
  rewrite E. clear E.
  destruct (nth_error (filter _ params) m) as [[[c n] v]|] eqn:G; [|discriminate]. cbn in H. injection H as <-.
  rewrite (nth_indep _ 0%R (snd (("", ""), 0%R))) by (rewrite map_length; eapply nth_error_lt; exact G).
  rewrite map_nth, (nth_error_nth _ _ _ G). cbn [snd].
  apply nth_error_In in G. apply filter_In in G. destruct G as [G Q]. apply String.eqb_eq in Q. cbv [p_category fst] in Q.
  unfold shock_parameter. rewrite <- Q. exact G.
Qed.

Lemma shock_matrix_ok : forall choices (params : list param) k, NoDup choices -> shocks_of_kind params k ->
  validate_shocks choices params = Ok tt ->
  matrix_of k params choices (shock_matrix k (List.length choices) params).
Proof.
  intros choices params k N S V. apply (shocks_valid _ _ _ N S) in V. destruct k; cbn in V.
  - destruct V as [_ [A B]]. split.
    + intros i c H. exists (nth i (shock_values Sdcorr params) 0%R). split; [apply shock_at; apply A; exact H|].
      unfold shock_matrix, sdcorr_entry, corr_entry. rewrite Nat.eqb_refl. ring.
    + intros i j c d L H H'.
      exists (nth i (shock_values Sdcorr params) 0%R), (nth j (shock_values Sdcorr params) 0%R),
        (nth (List.length choices + entries_below i + j) (shock_values Sdcorr params) 0%R).
      split; [apply shock_at; apply A; exact H|]. split; [apply shock_at; apply A; exact H'|].
      split; [apply shock_at; apply B; assumption|].
      unfold shock_matrix, sdcorr_entry, corr_entry. rewrite !before_row_strict_below.
      replace (Nat.eqb i j) with false by (symmetry; apply Nat.eqb_neq; lia).
      replace (Nat.eqb j i) with false by (symmetry; apply Nat.eqb_neq; lia).
      replace (Nat.ltb j i) with true by (symmetry; apply Nat.ltb_lt; lia).
      replace (Nat.ltb i j) with false by (symmetry; apply Nat.ltb_ge; lia).
      split; ring.
  - destruct V as [_ [A B]]. split.
    + intros i c H. exists (nth (entries_until i + i) (shock_values Cov params) 0%R).
      split; [apply shock_at; apply A; exact H|].
      unfold shock_matrix, cov_entry. rewrite Nat.leb_refl, before_row_until. reflexivity.
    + intros i j c d L H H'. exists (nth (entries_until i + j) (shock_values Cov params) 0%R).
      split; [apply shock_at; apply B; assumption|].
      unfold shock_matrix, cov_entry. rewrite !before_row_until.
      replace (Nat.leb j i) with true by (symmetry; apply Nat.leb_le; lia).
      replace (Nat.leb i j) with false by (symmetry; apply Nat.leb_gt; lia). auto.
  - destruct V as [_ [A B]]. split.
    + intros i c H. exists (nth (entries_until i + i) (shock_values Chol params) 0%R).
      split; [apply shock_at; apply A; exact H|].
      unfold shock_matrix, chol_entry. rewrite Nat.leb_refl, before_row_until. reflexivity.
    + intros i j c d L H H'. exists (nth (entries_until i + j) (shock_values Chol params) 0%R).
      split; [apply shock_at; apply B; assumption|].
      unfold shock_matrix, chol_entry. rewrite !before_row_until.
      replace (Nat.leb j i) with true by (symmetry; apply Nat.leb_le; lia).
      replace (Nat.leb i j) with false by (symmetry; apply Nat.leb_gt; lia). auto.
Qed.

(** ** Discounting *)
Lemma discounting_ok : forall params delta beta, value_is params "delta" "delta" delta ->
  (value_is params "beta" "beta" beta \/ (beta = 1%R /\ forall v, ~ In ("beta", "beta", v) params)) ->
  parse_discounting params = Ok (delta, beta, (beta * delta)%R).
Proof.
  intros params delta beta D B. unfold parse_discounting. rewrite (param_value_is _ _ _ _ D). cbn [result_bind].
  destruct B as [B|[E B]].
  - rewrite (param_value_is _ _ _ _ B). reflexivity.
  - rewrite (param_value_none _ _ _ B). rewrite E. reflexivity.
Qed.
Lemma discounting_missing : forall params : list param, (forall v, ~ In ("delta", "delta", v) params) ->
  parse_discounting params = KeyError.
Proof. intros params H. unfold parse_discounting. rewrite (param_value_none _ _ _ H). reflexivity. Qed.

Local Open Scope R_scope.
Lemma value_functions_nth : forall w n c draws b j, (j < List.length w)%nat ->
  nth j (value_functions w n c draws b) 0 = nth j w 0 * nth j draws 0 + nth j n 0 + b * nth j c 0.
Proof.
  intros w n c draws b j L. unfold value_functions.
  apply nth_error_nth. rewrite nth_error_map, (nth_error_nth' _ 0%nat) by (rewrite seq_length; exact L).
  rewrite seq_nth by exact L. reflexivity.
Qed.

(** If present bias changes the order of two choices, then towards the immediate reward. *)
Lemma bias_towards_present : forall w n c draws beta delta j k,
  (j < List.length w)%nat -> (k < List.length w)%nat -> 0 <= beta <= 1 ->
  let flow i := nth i w 0 * nth i draws 0 + nth i n 0 in
  nth k (value_functions w n c draws (beta * delta)) 0 <= nth j (value_functions w n c draws (beta * delta)) 0 ->
  nth j (value_functions w n c draws delta) 0 < nth k (value_functions w n c draws delta) 0 ->
  flow k <= flow j.
Proof.
  intros w n c draws beta delta j k Lj Lk B flow H1 H2.
  rewrite !value_functions_nth in H1, H2 by assumption. unfold flow.
  set (D := delta * nth k c 0 - delta * nth j c 0).
  assert (X : D > (nth j w 0 * nth j draws 0 + nth j n 0) - (nth k w 0 * nth k draws 0 + nth k n 0)) by (unfold D; lra).
  assert (Y : beta * D <= (nth j w 0 * nth j draws 0 + nth j n 0) - (nth k w 0 * nth k draws 0 + nth k n 0)).
  { unfold D. lra. }
  destruct (Rle_dec D 0) as [Z|Z].
  - assert (beta * D >= D) by nra. lra.
  - assert (0 <= beta * D) by nra. lra.
Qed.
