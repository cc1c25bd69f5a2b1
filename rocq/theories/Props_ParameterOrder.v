(** C109: the order of parameters and covariates. *)
From Coq Require Import List Arith Bool String Ascii Reals Sorting.Permutation.
From Verif Require Import Base Model_Choices Model_Params Spec_Params Model_ParseParameters Spec_ParameterOrder Proof_ParameterOrder
  Examples_ParameterOrder.
Import ListNotations.
Open Scope string_scope.

(** The result, or the error, is the same if the parameters are in another order and those
    of the shocks keep their order. *)
Theorem C109_order_of_parameters : forall n covs covs' params params', Permutation covs covs' -> Permutation params params' ->
  NoDup (map fst params) -> nonzero_sums params -> filter is_shock params = filter is_shock params' ->
  same_result same_parameters (process_parameters n covs params) (process_parameters n covs' params').
Proof. exact process_perm. Qed.
Print Assumptions C109_order_of_parameters.

(** Two accepted orders mean the same, and the shocks are in the same order. *)
Theorem C109_accepted_orders : forall n covs covs' params params' k m m', Permutation covs covs' -> Permutation params params' ->
  NoDup (map fst params) -> nonzero_sums params -> shocks_of_kind params k ->
  process_parameters n covs params = Ok m -> process_parameters n covs' params' = Ok m' ->
  same_parameters m m' /\ filter is_shock params = filter is_shock params'.
Proof. exact process_orders. Qed.
Print Assumptions C109_accepted_orders.

Example C109_example :
  Permutation pe_params pe_sorted /\ Permutation pe_params pe_wrong /\ NoDup (map fst pe_params) /\ nonzero_sums pe_params /\
  shocks_of_kind pe_params Sdcorr /\
  (exists m m', process_parameters 3 pe_covariates pe_params = Ok m /\
    process_parameters 3 (rev pe_covariates) pe_sorted = Ok m' /\ same_parameters m m' /\
    pc_choices (mp_choices m) = ["a"; "home"] /\
    mp_observables m = [("edu", [(Label "high", [("constant", 1%R)]); (Label "low", [("constant", 0%R)])])] /\
    List.length (mp_lagged m) = 1 /\ coefficients_of "wage_a" pe_params <> coefficients_of "wage_a" pe_sorted) /\
  process_parameters 3 pe_covariates pe_wrong = OtherError.
Proof.
  split; [exact pe_perm|]. split; [exact pe_wrong_perm|]. split; [exact pe_unique|]. split; [exact pe_sums|].
  split; [exact pe_kind|]. split; [|exact pe_rejected].
  destruct pe_processed as [m [m' [A [B C]]]]. exists m, m'. split; [exact A|]. split; [exact B|]. split; [|exact C].
  apply (C109_accepted_orders _ _ _ _ _ _ _ _ pe_cov_perm pe_perm pe_unique pe_sums pe_kind A B).
Qed.
