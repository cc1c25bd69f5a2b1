(** Further proofs about the data for the comparison plot of the likelihood. *)
From Coq Require Import List Arith Bool String Reals Lra Lia Sorting.Permutation Sorting.Sorted.
From Verif Require Import Base Proof_Base Model_CoreStateSpace Model_Parallel Model_Solve Model_ConditionalDraws Model_Likelihood Spec_Likelihood
  Model_LikelihoodDraws Model_ComparisonPlot Spec_ComparisonPlot Proof_LikelihoodPanel Proof_Likelihood Proof_ComparisonPlot Proof_LikelihoodDraws.
Import ListNotations.
Open Scope list_scope.
Open Scope nat_scope.

Lemma plot_row_of : forall choices w df r, In r (plot_rows choices w df) ->
  exists x, In x df /\ pr_identifier r = as_uint 16 (fst (lr_index (fst x))) /\ pr_period r = as_uint 8 (snd (lr_index (fst x))) /\
    pr_choice r = choice_label choices (ob_code (lr_obs (fst x))).
Proof.
  intros choices w df r H. unfold plot_rows in H. apply in_app_iff in H. destruct H as [H|H].
  - apply in_map_iff in H. destruct H as [x [<- Hx]]. exists x. split; [exact Hx|]. split; [reflexivity|]. split; reflexivity.
  - apply in_flat_map in H. destruct H as [x [Hx H]]. destruct (wage_value choices w x); [destruct H as [<-|[]]|destruct H].
    exists x. split; [exact Hx|]. split; [reflexivity|]. split; reflexivity.
Qed.

Lemma rows_of_observations : forall rc qr lk locate env n_types params x order order_t choices w data v cs rows types,
  1 <= n_types -> (forall l, Permutation (order l) l) ->
  log_like_data rc qr lk locate env n_types params x order order_t choices w data = Ok ((v, cs), (rows, types)) ->
  forall r, In r rows -> exists id p ob, In ((id, p), ob) data /\ pr_identifier r = id mod 2 ^ 16 /\ pr_period r = p mod 2 ^ 8 /\
    match pr_choice r with
    | inl label => nth_error choices (ob_code ob) = Some label
    | inr code => code = ob_code ob /\ List.length choices <= code
    end.
Proof.
  intros rc qr lk locate env n_types params x order order_t choices w data v cs rows types NT PO H r Hr. unfold log_like_data in H.
  destruct (duplicate_for_types locate n_types data) as [l| | | | |] eqn:D; try discriminate. cbn [result_bind] in *.
  destruct (compute_contributions rc qr lk env l) as [c| | | | |] eqn:C; try discriminate. cbn [result_bind] in *.
  destruct (contributions n_types params x _ _) as [cs'| | | | |]; try discriminate. cbn [result_bind] in *.
  destruct (if Nat.leb 2 n_types then _ else _) as [tb| | | | |]; try discriminate. cbn [result_bind] in *. injection H as _ _ <- _.
  apply plot_row_of in Hr. destruct Hr as [y [Hy [E1 [E2 E3]]]].
  eapply Permutation_in in Hy; [|apply PO]. apply (computed_In rc qr lk _ _ _ y C) in Hy. destruct Hy as [n [Hn E]].
  apply contributions_row_Ok in E. destruct E as [Ey _].
  assert (I : In (snd n) l) by (eapply Permutation_in; [apply number_rows_perm|]; apply in_map; exact Hn).
  destruct (duplicate_rows locate n_types data l NT D) as [E4 _].
  apply (in_map (fun r => (lr_index r, lr_type r, lr_obs r))) in I. rewrite E4 in I. apply In_types in I. destruct I as [_ I].
  cbn [fst snd] in I. rewrite Ey in E1, E2, E3. destruct (lr_index (snd n)) as [a b]. exists a, b, (lr_obs (snd n)).
  split; [exact I|]. split; [exact E1|]. split; [exact E2|]. rewrite E3. unfold choice_label.
  destruct (nth_error choices (ob_code (lr_obs (snd n)))) as [s|] eqn:En; [reflexivity|].
  split; [reflexivity|]. apply nth_error_None. exact En.
Qed.

Lemma one_type : forall rc qr lk locate env params x order order_t choices w data v cs rows types,
  log_like_data rc qr lk locate env 1 params x order order_t choices w data = Ok ((v, cs), (rows, types)) -> types = [].
Proof.
  intros rc qr lk locate env params x order order_t choices w data v cs rows types H. unfold log_like_data in H.
  destruct (duplicate_for_types locate 1 data) as [l| | | | |] eqn:D; try discriminate. cbn [result_bind] in *.
  destruct (compute_contributions rc qr lk env l) as [c| | | | |] eqn:C; try discriminate. cbn [result_bind Nat.leb] in *.
  destruct (contributions 1 params x _ _) as [cs'| | | | |]; try discriminate. cbn [result_bind] in *. injection H as _ _ _ E. symmetry. exact E.
Qed.
