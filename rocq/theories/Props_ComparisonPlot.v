(** C100: data for the comparison plot of the likelihood. *)
From Coq Require Import List Arith Bool String Reals Lra Lia Sorting.Permutation Sorting.Sorted.
From Verif Require Import Base Model_CoreStateSpace Model_Parallel Model_Solve Model_ConditionalDraws Model_Likelihood Spec_Likelihood
  Model_LikelihoodDraws Model_ComparisonPlot Spec_ComparisonPlot Proof_ComparisonPlot Examples_Likelihood Examples_LikelihoodDraws
  Examples_ComparisonPlot Proof_LikelihoodPanel Proof_ComparisonPlotMore.
Import ListNotations.
Open Scope list_scope.
Open Scope nat_scope.

(** The value and the contributions do not depend on whether the data for the plot are requested. *)
Theorem C100_same_value : forall robust_cholesky qr lk locate env n_types params x order_rows order_types choices choices_w_wage data vc,
  log_like robust_cholesky qr lk locate env n_types params x order_rows order_types data = Ok vc <->
  exists plot, log_like_data robust_cholesky qr lk locate env n_types params x order_rows order_types choices choices_w_wage data
    = Ok (vc, plot).
Proof.
  intros. split; [apply data_succeeds|]. intros [plot H]. exact (data_value _ _ _ _ _ _ _ _ _ _ _ _ _ _ _ H).
Qed.
Print Assumptions C100_same_value.

Example C100_same_value_applies : exists vc,
  log_like (fun _ m => m) (fun _ m => m) ex_lk ex_locate ex_env 2 ex_params ex_x (fun l => l) (fun l => l) ex_data = Ok vc.
Proof.
  destruct (log_like_succeeds (fun _ m => m) (fun _ m => m) ex_lk ex_locate ex_env 2 ex_params ex_x (fun l => l) (fun l => l) ex_data)
    as [v [cs E]]; [lia|reflexivity|cbn; lra|cbn; lia|exact ex_evaluable|]. exists (v, cs). exact E.
Qed.

(** The values of an individual add up to its contribution. *)
Theorem C100_values_add_up : forall robust_cholesky qr lk locate env params x order_rows order_types choices choices_w_wage data v cs rows types,
  (forall l, Permutation (order_rows l) l) -> (forall id p ob, In ((id, p), ob) data -> id < 2 ^ 16) ->
  log_like_data robust_cholesky qr lk locate env 1 params x order_rows order_types choices choices_w_wage data
    = Ok ((v, cs), (rows, types)) ->
  exists ids, StronglySorted lt ids /\ (forall id, In id ids <-> exists p ob, In ((id, p), ob) data) /\
    cs = map (fun id => clip (- 10 ^ 200) (10 ^ 200) (total_of id rows)) ids.
Proof. exact values_add_up. Qed.
Print Assumptions C100_values_add_up.

Example C100_values_add_up_applies : exists v cs rows types,
  cp_data 1 [[]] dr_same cp_env [dr_first 0; dr_first 1] = Ok ((v, cs), (rows, types)) /\ List.length rows = 4 /\
  forall id p ob, In ((id, p), ob) [dr_first 0; dr_first 1] -> id < 2 ^ 16.
Proof.
  destruct (cp_two 1 (le_n 1)) as [v E]. exists v. do 3 eexists. split; [exact E|]. split; [reflexivity|].
  intros id p ob H. apply Nat.lt_le_trans with (2 ^ 1); [|apply Nat.pow_le_mono_r; lia].
  destruct H as [H|[H|[]]]; injection H as <- _ _; cbn; lia.
Qed.

(** Identifiers are stored with 16 bits, with larger ones the values are attributed to other individuals. *)
Theorem C100_large_identifiers_refuted :
  exists robust_cholesky qr lk locate env params x order_rows order_types choices choices_w_wage data v cs rows types ids,
  (forall l, Permutation (order_rows l) l) /\ NoDup (map fst data) /\
  log_like_data robust_cholesky qr lk locate env 1 params x order_rows order_types choices choices_w_wage data
    = Ok ((v, cs), (rows, types)) /\
  StronglySorted lt ids /\ (forall id, In id ids <-> exists p ob, In ((id, p), ob) data) /\
  cs <> map (fun id => clip (- 10 ^ 200) (10 ^ 200) (total_of id rows)) ids.
Proof.
  destruct cp_large as [n [Hn W]]. destruct (cp_two n Hn) as [v E].
  exists (fun _ m => m), (fun _ m => m), dr_lk, dr_same, cp_env, [[]], (fun _ _ _ => 1%R), (fun l => l), (fun l => l), cp_choices, [],
    [dr_first 0; dr_first n]. do 4 eexists. exists [0; n].
  split; [intros l; reflexivity|]. split; [repeat constructor; cbn; intuition (try congruence); injection H0; lia|].
  split; [exact E|]. split; [repeat constructor; exact Hn|]. split; [|exact (cp_wrong n W)].
  intros id. split.
  - intros [<-|[<-|[]]]; do 2 eexists; [left|right; left]; reflexivity.
  - intros [p [ob [H|[H|[]]]]]; injection H as <- _ _; [left|right; left]; reflexivity.
Qed.
Print Assumptions C100_large_identifiers_refuted.

(** One row for the choice of each observation and type, and one for the wage unless the wage
    of a choice with wage is missing. *)
Theorem C100_row_counts : forall robust_cholesky qr lk locate env n_types params x order_rows order_types choices n_wages data v cs rows types,
  1 <= n_types -> (forall l, Permutation (order_rows l) l) -> NoDup choices ->
  (forall i ob, In (i, ob) data -> ob_code ob < List.length choices) ->
  log_like_data robust_cholesky qr lk locate env n_types params x order_rows order_types choices (firstn n_wages choices) data
    = Ok ((v, cs), (rows, types)) ->
  List.length (filter is_choice_row rows) = n_types * List.length data /\
  List.length (filter is_wage_row rows) = n_types * List.length (filter (fun d => wage_or_none n_wages (snd d)) data).
Proof. exact row_counts. Qed.
Print Assumptions C100_row_counts.

Example C100_row_counts_applies : exists v cs rows types,
  log_like_data (fun _ m => m) (fun _ m => m) ex_lk ex_locate ex_env 2 ex_params ex_x (fun l => l) (fun l => l) cp_choices
    (firstn 1 cp_choices) ex_data = Ok ((v, cs), (rows, types)) /\ NoDup cp_choices /\
  (forall i ob, In (i, ob) ex_data -> ob_code ob < List.length cp_choices) /\
  List.length (filter is_choice_row rows) = 6.
Proof.
  destruct C100_same_value_applies as [vc E].
  destruct (proj1 (C100_same_value _ _ _ _ _ _ _ _ _ _ cp_choices (firstn 1 cp_choices) _ _) E) as [[rows types] F].
  destruct vc as [v cs]. exists v, cs, rows, types. split; [exact F|].
  assert (N : NoDup cp_choices) by (unfold cp_choices; repeat constructor; cbn; intuition discriminate).
  assert (C : forall i ob, In (i, ob) ex_data -> ob_code ob < List.length cp_choices).
  { intros i ob H. destruct H as [H|[H|[H|[]]]]; injection H as _ <-; cbn; lia. }
  split; [exact N|]. split; [exact C|].
  exact (proj1 (C100_row_counts _ _ _ _ _ _ _ _ _ _ _ 1 _ _ _ _ _ (le_S _ _ (le_n 1)) (fun l => Permutation_refl l) N C F)).
Qed.

(** Every row belongs to an observation and has the label of the observed choice, or the code
    if there is no label for it. *)
Theorem C100_rows_of_observations : forall robust_cholesky qr lk locate env n_types params x order_rows order_types choices choices_w_wage
    data v cs rows types,
  1 <= n_types -> (forall l, Permutation (order_rows l) l) ->
  log_like_data robust_cholesky qr lk locate env n_types params x order_rows order_types choices choices_w_wage data
    = Ok ((v, cs), (rows, types)) ->
  forall r, In r rows -> exists id p ob, In ((id, p), ob) data /\ pr_identifier r = id mod 2 ^ 16 /\ pr_period r = p mod 2 ^ 8 /\
    match pr_choice r with
    | inl label => nth_error choices (ob_code ob) = Some label
    | inr code => code = ob_code ob /\ List.length choices <= code
    end.
Proof. exact rows_of_observations. Qed.
Print Assumptions C100_rows_of_observations.

(** Without types there are no rows for their probabilities. *)
Theorem C100_without_types : forall robust_cholesky qr lk locate env params x order_rows order_types choices choices_w_wage data v cs rows types,
  log_like_data robust_cholesky qr lk locate env 1 params x order_rows order_types choices choices_w_wage data
    = Ok ((v, cs), (rows, types)) -> types = [].
Proof. exact one_type. Qed.
Print Assumptions C100_without_types.

(** There are rows for wages though no wage is observed. *)
Theorem C100_only_observed_wages_refuted :
  exists robust_cholesky qr lk locate env params x order_rows order_types choices n_wages data v cs rows types r,
  (forall l, Permutation (order_rows l) l) /\ NoDup choices /\
  (forall i ob, In (i, ob) data -> ob_code ob < List.length choices /\ ob_wage ob = None) /\
  log_like_data robust_cholesky qr lk locate env 1 params x order_rows order_types choices (firstn n_wages choices) data
    = Ok ((v, cs), (rows, types)) /\
  In r rows /\ pr_kind r = wage_kind.
Proof.
  destruct (cp_two 1 (le_n 1)) as [v E].
  exists (fun _ m => m), (fun _ m => m), dr_lk, dr_same, cp_env, [[]], (fun _ _ _ => 1%R), (fun l => l), (fun l => l), cp_choices, 0,
    [dr_first 0; dr_first 1]. do 4 eexists. exists (cp_row 0 wage_kind 0).
  split; [intros l; reflexivity|]. split; [unfold cp_choices; repeat constructor; cbn; intuition discriminate|].
  split; [intros i ob H; destruct H as [H|[H|[]]]; injection H as _ <-; cbn; split; [lia|reflexivity|lia|reflexivity]|].
  split; [exact E|]. split; [right; right; left; reflexivity|reflexivity].
Qed.
Print Assumptions C100_only_observed_wages_refuted.

(** Logarithms of the type probabilities, each as often as there are types. *)
Theorem C100_type_probabilities : forall robust_cholesky qr lk locate env n_types params x order_rows order_types choices choices_w_wage
    data v cs rows types,
  2 <= n_types -> List.length params = n_types -> NoDup (map fst data) -> (forall l, Permutation (order_types l) l) ->
  (forall id p, In id (individuals data) -> In p (logits (type_indices params (x id))) -> (- 10 ^ 200 <= ln p)%R) ->
  log_like_data robust_cholesky qr lk locate env n_types params x order_rows order_types choices choices_w_wage data
    = Ok ((v, cs), (rows, types)) ->
  (forall id t, In id (individuals data) -> t < n_types -> times id t types = n_types) /\
  (forall r, In r types -> In (tr_identifier r) (individuals data) /\ tr_type r < n_types /\
     tr_value r = ln (nth (tr_type r) (logits (type_indices params (x (tr_identifier r)))) 0%R)).
Proof. exact type_rows_spec. Qed.
Print Assumptions C100_type_probabilities.

Example C100_type_probabilities_applies : exists v cs rows types,
  log_like_data (fun _ m => m) (fun _ m => m) ex_lk ex_locate ex_env 2 ex_params ex_x (fun l => l) (fun l => l) cp_choices
    (firstn 1 cp_choices) ex_data = Ok ((v, cs), (rows, types)) /\ times 1 0 types = 2.
Proof.
  destruct C100_same_value_applies as [vc E].
  destruct (proj1 (C100_same_value _ _ _ _ _ _ _ _ _ _ cp_choices (firstn 1 cp_choices) _ _) E) as [[rows types] F].
  destruct vc as [v cs]. exists v, cs, rows, types. split; [exact F|].
  refine (proj1 (C100_type_probabilities _ _ _ _ _ _ ex_params _ _ _ _ _ _ _ _ _ _ (le_n 2) eq_refl ex_unique (fun l => Permutation_refl l)
           ex_probabilities F) 1 0 _ _); [right; left; reflexivity|lia].
Qed.

(** The rows do not tell to which type they belong: the same data for the plot with
    different contributions. *)
Theorem C100_types_of_rows_refuted :
  exists robust_cholesky qr lk locate env env' params x order_rows order_types choices choices_w_wage data v cs rows v' cs' rows' types,
  (forall l, Permutation (order_rows l) l) /\ (forall l, Permutation (order_types l) l) /\ NoDup (map fst data) /\
  log_like_data robust_cholesky qr lk locate env 2 params x order_rows order_types choices choices_w_wage data
    = Ok ((v, cs), (rows, types)) /\
  log_like_data robust_cholesky qr lk locate env' 2 params x order_rows order_types choices choices_w_wage data
    = Ok ((v', cs'), (rows', types)) /\
  Permutation rows rows' /\ cs <> cs'.
Proof.
  destruct (cp_types (fun k _ => [[INR k; 0%R]]) 0 1) as [v [lps [E L]]]; [reflexivity|reflexivity|lra|lra|].
  destruct (cp_types (fun k _ => [[(1 - INR k)%R; 0%R]]) 1 0) as [v' [lps' [E' L']]];
    [cbn; repeat f_equal; lra|cbn; repeat f_equal; lra|lra|lra|].
  rewrite <- L in L'. subst lps'.
  exists (fun _ m => m), (fun _ m => m), dr_lk, cp_locate, cp_env1, cp_env2, ex_params, (fun _ _ _ => 1%R), (fun l => l), (fun l => l),
    cp_choices, [], [dr_first 0].
  do 7 eexists. split; [intros l; reflexivity|]. split; [intros l; reflexivity|].
  split; [repeat constructor; cbn; intuition congruence|]. split; [exact E|]. split; [exact E'|].
  split; [apply perm_swap|]. intros H. injection H as H _. exact (cp_different H).
Qed.
Print Assumptions C100_types_of_rows_refuted.
