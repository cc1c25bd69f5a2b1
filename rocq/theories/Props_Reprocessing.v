(** Properties of options that are processed again. *)
From Coq Require Import List Arith Bool String Ascii Reals.
From Verif Require Import Base Model_Strings Model_Cache Model_Choices Spec_Choices Model_Params Model_Processing Model_Covariates
  Spec_Covariates Model_Reprocessing Spec_Reprocessing Proof_Reprocessing Examples_Reprocessing.
Import ListNotations.
Open Scope string_scope.

(** ** C103 *)

(** The options are processed once before a model is solved, three times in order to
    solve it for a simulation or an estimation. *)
Theorem C103_processing_again : forall k cls params observables covs p1,
  (forall c, cls c = true -> is_quote c = false) ->
  NoDup (map fst covs) ->
  (forall c f, In (c, f) covs -> identifier c /\ proper_formula cls f /\
     forall i, 1 <= i < infer_number_of_types params -> c = "type_" ++ dec i -> f = "type == " ++ dec i) ->
  process_covariates params observables covs = Some p1 ->
  (forall l, In l (labels_of (pc_choices (pr_choices p1)) observables) ->
     all_chars cls l = true /\
     plain_label (map fst covs ++ type_names (infer_number_of_types params))%list l) ->
  exists p, processed_again params observables k p1 = Some p /\ same_model p1 p.
Proof. exact processing_many_times. Qed.
Print Assumptions C103_processing_again.

Example C103_processing_again_applies :
  (forall c, is_name c = true -> is_quote c = false) /\ NoDup (map fst rp_covariates) /\
  (forall c f, In (c, f) rp_covariates -> identifier c /\ proper_formula is_name f /\
     forall i, 1 <= i < infer_number_of_types rp_params -> c = "type_" ++ dec i -> f = "type == " ++ dec i) /\
  process_covariates rp_params [] rp_covariates = Some rp_processed /\
  (forall l, In l (labels_of (pc_choices (pr_choices rp_processed)) []) ->
     all_chars is_name l = true /\
     plain_label (map fst rp_covariates ++ type_names (infer_number_of_types rp_params))%list l).
Proof. exact (conj rp_quotes (conj rp_names (conj rp_formulas (conj rp_first rp_labels)))). Qed.

(** The covariate "fish" is only used as the quoted label of a choice: the options have two
    lagged choices when they are processed first and one afterwards. *)
Theorem C103_labels_with_names_of_covariates_refuted : exists params covs p1 p2,
  NoDup (map fst covs) /\ process_covariates params [] covs = Some p1 /\
  process_covariates params [] (pr_covariates p1) = Some p2 /\ pr_lags p1 = 2 /\ pr_lags p2 = 1.
Proof.
  exists rq_params, rq_covariates. eexists. eexists. split; [repeat constructor; cbn; intuition congruence|].
  split; [vm_compute; reflexivity|]. split; [vm_compute; reflexivity|]. split; reflexivity.
Qed.
Print Assumptions C103_labels_with_names_of_covariates_refuted.

(** A covariate with a name of a type is replaced, so that what it is made of is dropped. *)
Theorem C103_covariates_with_names_of_types_refuted : exists params covs p1 p2,
  NoDup (map fst covs) /\ process_covariates params [] covs = Some p1 /\
  process_covariates params [] (pr_covariates p1) = Some p2 /\ pr_lags p1 = 1 /\ pr_lags p2 = 0.
Proof.
  exists rt_params, rt_covariates. eexists. eexists. split; [repeat constructor; cbn; intuition congruence|].
  split; [vm_compute; reflexivity|]. split; [vm_compute; reflexivity|]. split; reflexivity.
Qed.
Print Assumptions C103_covariates_with_names_of_types_refuted.
