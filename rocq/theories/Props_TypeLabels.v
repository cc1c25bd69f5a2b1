(** C108: labels of types. *)
From Coq Require Import List Arith ZArith Bool Reals Lra Lia Sorting.Permutation.
From Verif Require Import Base Model_CoreStateSpace Model_Parallel Model_Solve Model_ConditionalDraws Model_Likelihood Spec_Likelihood
  Model_LikelihoodDraws Spec_LikelihoodDraws Examples_LikelihoodDraws Spec_TypeLabels Proof_TypeLabels Examples_TypeLabels.
Import ListNotations.
Open Scope nat_scope.

(** With draws which do not depend on seeds, the value and all contributions are the same. *)
Theorem C108_other_labels : forall generate seed rc qr lk locate env env' n pi params params' x x' order order' data v cs,
  2 <= n -> relabelling n pi -> types_separated locate n -> same_groups n pi locate data -> without_seed generate ->
  relabelled_env n pi locate data env env' -> NoDup (map fst data) ->
  (forall id, In id (individuals data) -> relabelled_indices n pi (type_indices params (x id)) (type_indices params' (x' id))) ->
  (forall l, Permutation (order l) l) -> (forall l, Permutation (order' l) l) ->
  estimate generate seed rc qr lk locate env n params x order data = Ok (v, cs) ->
  estimate generate seed rc qr lk locate env' n params' x' order' data = Ok (v, cs).
Proof. exact estimate_relabelled. Qed.
Print Assumptions C108_other_labels.

(** Parameters for the probabilities of types which fit other labels exist, also if the
    parameters of the first type have to be zero. *)
Theorem C108_parameters_of_other_labels : forall m beta n pi (x : nat -> R), relabelling n pi ->
  relabelled_indices n pi (type_indices (map (fun t => coefficients m (beta t)) (seq 0 n)) (fun _ => x))
                          (type_indices (normalised m beta n pi) (fun _ => x)).
Proof. exact normalised_relabelled. Qed.
Print Assumptions C108_parameters_of_other_labels.

Theorem C108_first_type_is_normalised : forall m beta n pi, 1 <= n ->
  nth_error (normalised m beta n pi) 0 = Some (coefficients m (fun _ => 0%R)).
Proof. exact normalised_first. Qed.
Print Assumptions C108_first_type_is_normalised.

(** With random numbers, which differ between seeds, the contributions change. *)
Theorem C108_random_draws_refuted :
  exists generate seed rc qr lk locate env env' n pi params x data v cs v' cs',
  2 <= n /\ relabelling n pi /\ types_separated locate n /\ same_groups n pi locate data /\ extendable generate /\
  relabelled_env n pi locate data env env' /\ NoDup (map fst data) /\
  (forall id, In id (individuals data) -> relabelled_indices n pi (type_indices params (x id)) (type_indices params (x id))) /\
  estimate generate seed rc qr lk locate env n params x (fun l => l) data = Ok (v, cs) /\
  estimate generate seed rc qr lk locate env' n params x (fun l => l) data = Ok (v', cs') /\ cs <> cs'.
Proof.
  destruct tl_random as [v [cs [v' [cs' [E [E' N]]]]]].
  exists dr_generate, 0%Z, (fun _ m => m), (fun _ m => m), dr_lk, tl_locate, (tl_env 1), (tl_env 0), 2, tl_swap, [[]; []], (fun _ _ _ => 0%R), tl_data, v, cs, v', cs'.
  split; [lia|]. split; [exact tl_relabelling|]. split; [exact tl_separated|]. split; [exact tl_groups|]. split; [exact dr_extendable|].
  split; [exact tl_env_swapped|]. split; [exact tl_unique|]. split; [intros id _; exact tl_indices|]. split; [exact E|]. split; [exact E'|exact N].
Qed.
Print Assumptions C108_random_draws_refuted.

(** Two types which exchange their labels. *)
Example C108_example :
  exists v cs, cs <> [] /\
  estimate tl_generate 0 (fun _ m => m) (fun _ m => m) dr_lk tl_locate (tl_env 1) 2 [[]; []] (fun _ _ _ => 0%R) (fun l => l) tl_data = Ok (v, cs) /\
  estimate tl_generate 0 (fun _ m => m) (fun _ m => m) dr_lk tl_locate (tl_env 0) 2 [[]; []] (fun _ _ _ => 0%R) (fun l => l) tl_data = Ok (v, cs) /\
  le_nonpec (tl_env 1) 0 0 = [0; 0]%R /\ le_nonpec (tl_env 0) 0 0 = [1; 0]%R.
Proof.
  destruct tl_deterministic as [v [cs [E N]]]. exists v, cs. split; [exact N|]. split; [exact E|]. split; [|split; reflexivity].
  eapply C108_other_labels; [| | | | | | | | | |exact E].
  - lia.
  - exact tl_relabelling.
  - exact tl_separated.
  - exact tl_groups.
  - intros s s' n c. reflexivity.
  - exact tl_env_swapped.
  - exact tl_unique.
  - intros id _. exact tl_indices.
  - intros l. apply Permutation_refl.
  - intros l. apply Permutation_refl.
Qed.
