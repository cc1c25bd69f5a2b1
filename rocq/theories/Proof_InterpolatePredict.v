(** Proofs about the predictions of the interpolation. *)
From Coq Require Import List Arith Bool Reals Lra Lia.
From Verif Require Import Base Proof_Base Proof_CoreStateSpace Model_StateSpace Model_Solve Spec_Solve Proof_Solve Model_ConditionalDraws
  Model_Interpolate Spec_Interpolate Proof_Likelihood Proof_Interpolate.
Import ListNotations.
Open Scope R_scope.

Lemma dotp_rsum : forall a b, dotp a b = rsum (map (fun p => fst p * snd p) (combine a b)).
Proof.
  induction a as [|x a IH]; intros [|y b]; try reflexivity.
  cbn [dotp combine map]. rewrite IH. reflexivity.
Qed.

Lemma rhs_spec : forall wages nonpecs conts shocks delta, wages <> [] ->
  compute_rhs_variables wages nonpecs conts shocks delta =
  Ok (regressors wages nonpecs conts shocks delta, deterministic_value wages nonpecs conts shocks delta).
Proof.
  intros wages nonpecs conts shocks delta H. unfold compute_rhs_variables.
  change (map _ (seq 0 (length wages))) with (choice_values wages nonpecs conts delta shocks).
  rewrite search_maximum_spec.
  - cbn [result_bind]. unfold regressors, deterministic_value. rewrite map_map. reflexivity.
  - unfold choice_values. destruct wages; [congruence|]. discriminate.
Qed.

Lemma interpolate_key_predicts : forall ols wages nonpecs conts draws shocks delta mask n,
  length wages = n -> length nonpecs = n -> length conts = n -> length mask = n ->
  (forall w, In w wages -> w <> []) ->
  let det r := deterministic_value (nth r wages []) (nth r nonpecs []) (nth r conts []) shocks delta in
  let x r := regressors (nth r wages []) (nth r nonpecs []) (nth r conts []) shocks delta in
  let y r := emax (nth r wages []) (nth r nonpecs []) (nth r conts []) draws delta - det r in
  let beta := ols (map y (positions mask)) (map x (positions mask)) in
  exists arr, interpolate_key ols wages nonpecs conts draws shocks delta mask = Ok arr /\
    forall r, (r < n)%nat -> nth r mask false = false ->
      nth r arr 0 = det r + Rmax 0 (rsum (map (fun p => fst p * snd p) (combine (x r) beta))).
Proof.
  intros ols wages nonpecs conts draws shocks delta mask n Lw Ln Lc Lm Hne det x y beta.
  unfold interpolate_key. rewrite Ln, Lc, Lm, Lw, Nat.eqb_refl. cbn [andb].
  set (rows := combine wages (combine nonpecs conts)).
  assert (Lrows : length rows = n) by (unfold rows; rewrite !combine_length; lia).
  assert (NR : forall r, (r < n)%nat -> nth r rows ([], ([], [])) = (nth r wages [], (nth r nonpecs [], nth r conts []))).
  { intros r Hr. unfold rows. rewrite !combine_nth by (rewrite ?combine_length; lia). reflexivity. }
  rewrite (result_all_map_value _ _ _
    (fun t => (regressors (fst t) (fst (snd t)) (snd (snd t)) shocks delta,
               deterministic_value (fst t) (fst (snd t)) (snd (snd t)) shocks delta))).
  2:{ intros [w t] Ht. apply rhs_spec. apply in_combine_l in Ht. apply Hne. exact Ht. }
  cbn [result_bind]. rewrite !map_map. cbn [fst snd].
  assert (Rows : rows = map (fun r => (nth r wages [], (nth r nonpecs [], nth r conts []))) (seq 0 n)).
  { apply nth_ext with (d := ([], ([], []))) (d' := (nth 0 wages [], (nth 0 nonpecs [], nth 0 conts []))).
    - rewrite map_length, seq_length. exact Lrows.
    - intros i Hi. rewrite Lrows in Hi. rewrite NR by exact Hi.
      rewrite (map_nth (fun r => (nth r wages [], (nth r nonpecs [], nth r conts [])))).
      rewrite seq_nth by exact Hi. reflexivity. }
  rewrite Rows, !map_map. cbn [fst snd]. fold det. fold x.
  change (map (fun r => deterministic_value (nth r wages []) (nth r nonpecs []) (nth r conts []) shocks delta) (seq 0 n))
    with (map det (seq 0 n)).
  change (map (fun r => regressors (nth r wages []) (nth r nonpecs []) (nth r conts []) shocks delta) (seq 0 n))
    with (map x (seq 0 n)).
  assert (CP : forall A (d : A) l, length l = n -> compress mask l = map (fun r => nth r l d) (positions mask)).
  { intros A d l Hl. apply compress_positions. lia. }
  assert (CM : forall A (f : nat -> A), compress mask (map f (seq 0 n)) = map f (positions mask)).
  { intros A f. rewrite (CP _ (f 0%nat)) by (rewrite map_length, seq_length; reflexivity).
    apply map_ext_in. intros i Hi. rewrite (map_nth f), seq_nth; [reflexivity|].
    apply In_positions in Hi. apply nth_error_lt in Hi. lia. }
  unfold calculate_expected_value_functions.
  rewrite (CP _ [] wages Lw), (CP _ [] nonpecs Ln), (CP _ [] conts Lc), !map_length, Nat.eqb_refl.
  cbn [andb result_bind].
  assert (EM : forall l : list nat,
    map (fun t => emax (fst t) (fst (snd t)) (snd (snd t)) draws delta)
      (combine (map (fun r => nth r wages []) l)
         (combine (map (fun r => nth r nonpecs []) l) (map (fun r => nth r conts []) l))) =
    map (fun r => emax (nth r wages []) (nth r nonpecs []) (nth r conts []) draws delta) l).
  { induction l as [|i l IH]; [reflexivity|]. cbn. f_equal. exact IH. }
  rewrite EM. clear EM. rewrite CM.
  assert (EY : forall l : list nat,
    map (fun p => fst p - snd p)
      (combine (map (fun r => emax (nth r wages []) (nth r nonpecs []) (nth r conts []) draws delta) l)
               (map det l)) = map y l).
  { induction l as [|i l IH]; [reflexivity|]. cbn. f_equal. exact IH. }
  rewrite EY. clear EY. eexists. split; [reflexivity|].
  unfold predict_with_linear_model. rewrite !CM. fold beta.
  intros r Hr Hm. rewrite fill_spec.
  - rewrite Hm. rewrite nth_map_combine by (rewrite ?map_length, ?seq_length; try reflexivity; exact Hr).
    cbn [fst snd]. rewrite map_map.
    rewrite (nth_map_lt _ (fun i => Rmax 0 (dotp (x i) beta)) (seq 0 n) r 0%nat) by (rewrite seq_length; exact Hr).
    rewrite (nth_map_lt _ det (seq 0 n) r 0%nat) by (rewrite seq_length; exact Hr).
    rewrite seq_nth by exact Hr. rewrite dotp_rsum. simpl. lra.
  - rewrite map_length, combine_length, !map_length, seq_length. lia.
  - rewrite map_length, combine_length, !map_length.
    rewrite Nat.min_id. symmetry.
    rewrite <- (length_compress _ mask (seq 0 n)) by (rewrite seq_length; lia).
    rewrite <- (map_id (seq 0 n)), CM, map_length. reflexivity.
  - lia.
Qed.

Lemma regressors_nonneg : forall wages nonpecs conts shocks delta v,
  In v (regressors wages nonpecs conts shocks delta) -> 0 <= v.
Proof.
  intros wages nonpecs conts shocks delta v H. unfold regressors in H.
  set (values := choice_values wages nonpecs conts delta shocks) in *.
  assert (U : forall x, In x values -> x <= maximum values).
  { destruct values as [|a l]; [intros x []|]. apply (proj1 (maximum_spec a l)). }
  apply in_app_or in H. destruct H as [H|H]; [|apply in_app_or in H; destruct H as [H|[<-|[]]]].
  - apply in_map_iff in H. destruct H as [x [<- I]]. specialize (U x I). lra.
  - apply in_map_iff in H. destruct H as [x [<- I]]. apply sqrt_pos.
  - lra.
Qed.
