(** Property theorems: models that are specified in one session. *)
From Coq Require Import List Arith Bool String.
From Verif Require Import Base Model_Session Spec_Session Proof_Session Proof_SessionRun Examples_Session.
Import ListNotations.
Open Scope string_scope.
Open Scope list_scope.

(** ** C118 *)
(** Specifying models leaves every object unchanged that existed before: the options of the user with everything they contain, the default
    options and the processed options of other models. *)
Theorem C118_inputs_are_not_changed : forall defaults events h, Forall specifies events ->
  firstn (List.length h) (session defaults events h) = h.
Proof. exact session_keeps. Qed.
Print Assumptions C118_inputs_are_not_changed.

(** A model does not depend on the models that have been specified before, even if their processed options are changed. *)
Theorem C118_history_does_not_matter : forall h defaults cd user cu q events,
  seen h defaults = Ok cd -> seen h user = Ok cu -> c_filters cd <> None -> c_restr cd <> None ->
  Forall (new_object (List.length h)) events ->
  observed (process defaults q user (session defaults events h)) = observed (process defaults q user h).
Proof. exact history. Qed.
Print Assumptions C118_history_does_not_matter.

(** The processed options of a model do not change if other models are specified or if the user changes own options or the default options
    afterwards. *)
Theorem C118_later_changes_do_not_matter : forall defaults q user h a c events, snd (process defaults q user h) = Ok a ->
  seen (fst (process defaults q user h)) a = Ok c -> Forall (old_object (List.length h)) events ->
  seen (session defaults events (fst (process defaults q user h))) a = Ok c.
Proof. exact later. Qed.
Print Assumptions C118_later_changes_do_not_matter.

(** What the processed options contain: relevant covariates and those of types, filters and other options where the user takes precedence over
    the defaults, and as restrictions for a choice with experience the given ones followed by exactly one default, for a choice without experience
    the given ones or ["False"], and for anything else what has been given. *)
Theorem C118_processed_options : forall h defaults cd user cu q h' a,
  seen h defaults = Ok cd -> seen h user = Ok cu -> c_filters cd <> None -> c_restr cd <> None ->
  process defaults q user h = (h', Ok a) ->
  exists cov rel p fs fs' c,
    either (c_cov cu) (c_cov cd) = Some cov /\ q_relevant q cov = Ok rel /\ q_parse q (merged cu cd rel) = Ok p /\
    either (c_filters cu) (c_filters cd) = Some fs /\ pa_filters p fs = Ok fs' /\ seen h' a = Ok c /\
    c_cov c = Some (map (fun nf => (fst nf, pa_codes p (snd nf))) (dict_update string_dec rel (pa_types p))) /\
    c_filters c = Some fs' /\ c_rest c = dict_update string_dec (c_rest cd) (c_rest cu) /\
    exists R, c_restr c = Some R /\
    (NoDup (map fst (pa_with_exp p) ++ pa_without_exp p) ->
     (forall x g, In (x, g) (pa_with_exp p) ->
        dict_get string_dec x R = Some (map (pa_codes p) (or_else (given cu cd x) [] ++ [g]))) /\
     (forall x, In x (pa_without_exp p) ->
        dict_get string_dec x R = Some (map (pa_codes p) (or_else (given cu cd x) ["False"]))) /\
     (forall x, ~ In x (map fst (pa_with_exp p) ++ pa_without_exp p) -> dict_get string_dec x R = given cu cd x)).
Proof. exact processed. Qed.
Print Assumptions C118_processed_options.

(** Two users with different restrictions of the same choices. *)
Example C118_example : seen ss_heap 2 = Ok ss_defaults /\ seen ss_heap 4 = Ok ss_user /\
  observed (process 2 ss_params 4 ss_heap) = Ok ss_first /\ observed (process 2 ss_params 7 ss_heap) = Ok ss_second /\
  Forall (new_object (List.length ss_heap)) [Specify ss_school 4; Specify ss_params 7; Change ss_address (Texts [])] /\
  Forall (old_object (List.length ss_heap)) [Change 3 (Formulas []); Specify ss_school 7; Change 1 (Restrictions [("work", 0)])].
Proof. exact (conj (proj1 ss_inputs) (conj (proj2 ss_inputs) (conj (proj1 ss_observed) (conj (proj2 ss_observed) (conj ss_events ss_old))))). Qed.
