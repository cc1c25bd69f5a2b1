(** C99: contributions to the likelihood and other individuals. *)
From Coq Require Import List Arith ZArith Bool Reals Lra Lia Sorting.Permutation.
From Verif Require Import Base Model_CoreStateSpace Model_Parallel Model_Solve Model_ConditionalDraws
  Model_Likelihood Spec_Likelihood Model_LikelihoodDraws Spec_LikelihoodDraws Proof_LikelihoodDraws Examples_Likelihood
  Examples_LikelihoodDraws.
Import ListNotations.
Open Scope nat_scope.

Theorem C99_appending_individuals : forall generate seed robust_cholesky qr lk locate env n_types params x order_rows order_rows'
    data extra v cs v' cs',
  extendable generate -> types_separated locate n_types -> 1 <= n_types -> NoDup (map fst (data ++ extra)) ->
  later_individuals data extra -> later_keys locate n_types data extra ->
  (forall l, Permutation (order_rows l) l) -> (forall l, Permutation (order_rows' l) l) ->
  estimate generate seed robust_cholesky qr lk locate env n_types params x order_rows data = Ok (v, cs) ->
  estimate generate seed robust_cholesky qr lk locate env n_types params x order_rows' (data ++ extra) = Ok (v', cs') ->
  exists more, cs' = cs ++ more.
Proof. exact estimate_extended. Qed.
Print Assumptions C99_appending_individuals.

Example C99_appending_individuals_applies :
  exists v cs v' cs' more,
  estimate dr_generate2 0 (fun _ m => m) (fun _ m => m) ex_lk ex_locate ex_env 2 ex_params ex_x (fun l => l) ex_data = Ok (v, cs) /\
  estimate dr_generate2 0 (fun _ m => m) (fun _ m => m) ex_lk ex_locate ex_env 2 ex_params ex_x (fun l => l) (ex_data ++ dr_extra)
    = Ok (v', cs') /\ cs' = cs ++ more.
Proof.
  destruct dr_case as [S [N [LI LK]]].
  destruct (estimate_succeeds dr_generate2 0 (fun _ m => m) (fun _ m => m) ex_lk ex_locate ex_env 2 ex_params ex_x (fun l => l) ex_data)
    as [v [cs E]]; [exact dr_generates|lia|reflexivity|cbn; lra|cbn; lia| |].
  { intros idx ob t I T. apply dr_evaluable; [apply in_or_app; left; exact I|exact T]. }
  destruct (estimate_succeeds dr_generate2 0 (fun _ m => m) (fun _ m => m) ex_lk ex_locate ex_env 2 ex_params ex_x (fun l => l)
              (ex_data ++ dr_extra)) as [v' [cs' E']]; [exact dr_generates|lia|reflexivity|cbn; lra|cbn; lia|exact dr_evaluable|].
  destruct (C99_appending_individuals _ _ _ _ _ _ _ _ _ _ _ _ _ _ _ _ _ _ dr_extendable2 S (le_S _ _ (le_n 1)) N LI LK
              (fun l => Permutation_refl l) (fun l => Permutation_refl l) E E') as [more M].
  exists v, cs, v', cs', more. auto.
Qed.

(** The data of an individual with a smaller identifier, all with the same dense key. *)
Theorem C99_inserting_individuals_refuted :
  exists generate seed robust_cholesky qr lk locate env n_types params x order_rows data extra v cs v' cs',
  extendable generate /\ types_separated locate n_types /\ 1 <= n_types /\ NoDup (map fst (extra ++ data)) /\
  later_individuals extra data /\ later_keys locate n_types data extra /\ (forall l, Permutation (order_rows l) l) /\
  estimate generate seed robust_cholesky qr lk locate env n_types params x order_rows data = Ok (v, cs) /\
  estimate generate seed robust_cholesky qr lk locate env n_types params x order_rows (extra ++ data) = Ok (v', cs') /\
  ~ exists more, cs' = more ++ cs.
Proof.
  exists dr_generate, 0%Z, (fun _ m => m), (fun _ m => m), dr_lk, dr_same, dr_env, 1, [[]], (fun _ _ _ => 0%R), (fun l => l),
    [dr_first 1], [dr_first 0].
  destruct (dr_one dr_same (or_introl eq_refl) 1 (le_n 1)) as [v E]. destruct dr_two_same as [v' E'].
  exists v, [dr_value 0], v', [dr_value 0; dr_value 1].
  split; [exact dr_extendable|]. split; [intros i o t j o' t' k p p' H H' _ _; lia|]. split; [lia|].
  split; [repeat constructor; cbn; intuition congruence|].
  split; [intros i o j o' [H|[]] [H'|[]]; injection H as <- _; injection H' as <- _; cbn; lia|].
  split; [intros k k' H [i [o [t [p [_ [_ E2]]]]]]; left; injection E2 as <- _; destruct H as [i' [o' [t' [p' [I [T E3]]]]]];
          exists i', o', t', 0; repeat split; assumption|].
  split; [intros l; reflexivity|]. split; [exact E|]. split; [exact E'|exact dr_not_suffix].
Qed.
Print Assumptions C99_inserting_individuals_refuted.

(** The data of an individual with a larger identifier, whose dense key is smaller. *)
Theorem C99_smaller_key_refuted :
  exists generate seed robust_cholesky qr lk locate env n_types params x order_rows data extra v cs v' cs',
  extendable generate /\ types_separated locate n_types /\ 1 <= n_types /\ NoDup (map fst (data ++ extra)) /\
  later_individuals data extra /\ (forall l, Permutation (order_rows l) l) /\
  estimate generate seed robust_cholesky qr lk locate env n_types params x order_rows data = Ok (v, cs) /\
  estimate generate seed robust_cholesky qr lk locate env n_types params x order_rows (data ++ extra) = Ok (v', cs') /\
  ~ exists more, cs' = cs ++ more.
Proof.
  exists dr_generate, 0%Z, (fun _ m => m), (fun _ m => m), dr_lk, dr_smaller, dr_env, 1, [[]], (fun _ _ _ => 0%R), (fun l => l),
    [dr_first 0], [dr_first 1].
  destruct (dr_one dr_smaller (or_intror eq_refl) 0 (le_S _ _ (le_n 0))) as [v E]. destruct dr_two_smaller as [v' E'].
  exists v, [dr_value 0], v', [dr_value 1; dr_value 0].
  split; [exact dr_extendable|]. split; [intros i o t j o' t' k p p' H H' _ _; lia|]. split; [lia|].
  split; [repeat constructor; cbn; intuition congruence|].
  split; [intros i o j o' [H|[]] [H'|[]]; injection H as <- _; injection H' as <- _; cbn; lia|].
  split; [intros l; reflexivity|]. split; [exact E|]. split; [exact E'|exact dr_not_prefix].
Qed.
Print Assumptions C99_smaller_key_refuted.
