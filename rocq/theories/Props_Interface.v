(** Property theorems: example models and their constraints. *)
From Coq Require Import List Arith Bool String.
From Verif Require Import Base Model_Strings Model_Interface Spec_Interface Proof_Interface.
Import ListNotations.
Open Scope string_scope.
Open Scope list_scope.

(** ** C105 *)

(** The constraints of a model are the same before and after changes which do not concern
    it, whatever happened before. *)
Theorem C105_unrelated_changes : forall m before es, Forall (harmless m) es ->
  constraints_of (run_events at_import (before ++ es)) m = constraints_of (run_events at_import before) m.
Proof. exact constraints_separate. Qed.
Print Assumptions C105_unrelated_changes.

Theorem C105_repeated_calls : forall m es, Forall only_looks es ->
  constraints_of (run_events at_import es) m = constraints_of at_import m.
Proof. exact constraints_looks. Qed.
Print Assumptions C105_repeated_calls.

(** A constraint appended to the returned list is returned by all later calls for models
    with the same list. *)
Theorem C105_appended_constraints_stay : forall m m' before c cs,
  get_parameter_constraints m = get_parameter_constraints m' ->
  constraints_of (run_events at_import before) m' = Ok cs ->
  constraints_of (run_events at_import (before ++ [Append m c])) m' = Ok (cs ++ [c]).
Proof. exact constraints_appended. Qed.
Print Assumptions C105_appended_constraints_stay.

Theorem C105_independent_of_other_models_refuted : exists es m,
  In m example_models /\ (forall e, In e es -> match e with Look a | Append a _ | Remove a _ | SetEntry a _ _ _ => a <> m end) /\
  constraints_of (run_events at_import es) m <> constraints_of at_import m.
Proof. exact changed_by_other_model. Qed.
Print Assumptions C105_independent_of_other_models_refuted.

(** The lists of the two groups of models of Keane and Wolpin (1997) are different, but they
    share the common constraints. *)
Theorem C105_different_lists_refuted : exists es m m',
  In m example_models /\ In m' example_models /\ get_parameter_constraints m <> get_parameter_constraints m' /\
  es = [SetEntry m 0 "type" (Text "fixed")] /\
  constraints_of (run_events at_import es) m' <> constraints_of at_import m'.
Proof. exact changed_single_constraint. Qed.
Print Assumptions C105_different_lists_refuted.

Theorem C105_all_example_models : forall m, In m example_models ->
  exists cs, constraints_of at_import m = Ok ([("loc", Text "shocks_sdcorr"); ("type", Text "sdcorr")] :: cs).
Proof. exact constraints_exist. Qed.
Print Assumptions C105_all_example_models.

Theorem C105_unknown_models_rejected_refuted : exists m, ~ In m example_models /\ exists cs, constraints_of at_import m = Ok cs.
Proof. exact unknown_name. Qed.
Print Assumptions C105_unknown_models_rejected_refuted.

Example C105_example :
  Forall (harmless "kw_97_extended")
    [Append "kw_97_basic" (text_pair "loc" "delta" "type" "fixed"); Remove "kw_97_basic_respy" 0;
     SetEntry "kw_2000" 0 "type" (Text "fixed")] /\
  (exists cs, constraints_of at_import "kw_97_extended" = Ok cs /\ List.length cs = 8) /\
  get_parameter_constraints "kw_97" = OtherError.
Proof.
  split; [|split; [vm_compute; eexists; split; reflexivity|reflexivity]].
  repeat constructor; try (vm_compute; discriminate). intros [_ H]. vm_compute in H. discriminate.
Qed.

(** Data of example models. *)
Theorem C105_data_of_example_models : forall m,
  (In m example_models -> m <> "kw_2000" -> exists s, get_example_model m true = Ok (Some s, false)) /\
  (In m example_models -> get_example_model m false = Ok (None, false)) /\
  (~ In m example_models -> forall b, get_example_model m b = OtherError).
Proof. exact example_data. Qed.
Print Assumptions C105_data_of_example_models.

Theorem C105_data_of_all_models_refuted : In "kw_2000" example_models /\ get_example_model "kw_2000" true = Ok (None, true).
Proof. exact no_data. Qed.
Print Assumptions C105_data_of_all_models_refuted.

Example C105_example_data :
  get_example_model "kw_97_basic" true = Ok (Some OriginalData, false) /\
  get_example_model "kw_94_one" true = Ok (Some SimulatedData, false) /\
  get_example_model "kw_94" true = OtherError.
Proof. repeat split. Qed.
