(** Templates of filters: C91. *)
From Coq Require Import List Arith Bool String Ascii.
From Verif Require Import Base Model_Strings Model_Choices Spec_Choices Proof_Labels Spec_Templates
  Proof_Templates.
Import ListNotations.
Open Scope string_scope.

(** ** C91 *)
Theorem C91_templates_stand_for_filters : forall cls pc observables ts,
  (forall c, cls c = true -> is_quote c = false) ->
  (forall l, In l (labels_of (pc_choices pc) observables) -> all_chars cls l = true) ->
  (forall g t, In (g, t) ts -> wf_template cls pc g t) ->
  convert_filters pc observables (map (fun gt => render_template (fst gt) (snd gt)) ts) =
  Ok (List.concat (map (fun gt => stands_for pc observables (fst gt) (snd gt)) ts)).
Proof. exact filters_converted. Qed.
Print Assumptions C91_templates_stand_for_filters.

(** The options are processed once before a model is solved (solve.py:46-48) and twice
    before it is solved in order to be simulated or estimated (simulate.py:74-82,
    likelihood.py:93-99). *)
Theorem C91_processing_again_changes_nothing : forall cls pc observables ts fs,
  (forall c, cls c = true -> is_quote c = false) ->
  (forall l, In l (labels_of (pc_choices pc) observables) -> all_chars cls l = true) ->
  (forall g t, In (g, t) ts -> wf_template cls pc g t) ->
  convert_filters pc observables (map (fun gt => render_template (fst gt) (snd gt)) ts) = Ok fs ->
  convert_filters pc observables fs = Ok fs.
Proof. exact filters_converted_again. Qed.
Print Assumptions C91_processing_again_changes_nothing.

Theorem C91_old_placeholders_are_errors : forall pc observables f x,
  In x ["{i}"; "{j}"; "{k}"] -> contains x f = true ->
  convert_filter pc observables f = ValueError.
Proof. exact old_placeholders. Qed.
Print Assumptions C91_old_placeholders_are_errors.

(** With placeholders of two groups in one filter the model is solved with one filter and
    simulated with another. *)
Theorem C91_two_groups_in_a_filter_refuted : exists pc f f1 f2,
  convert_filters pc [] [f] = Ok [f1] /\ convert_filters pc [] [f1] = Ok [f2] /\ f1 <> f2 /\
  contains (placeholder WithoutExperience) f1 = true.
Proof.
  exists (mkParsedChoices ["fish"] ["fish"] ["rest"] ["fish"; "rest"]),
    "exp_{choices_w_exp} == period and lagged_choice_1 == '{choices_wo_exp}'",
    "exp_fish == period and lagged_choice_1 == '{choices_wo_exp}'",
    "exp_fish == period and lagged_choice_1 == 1".
  split; [vm_compute; reflexivity|]. split; [vm_compute; reflexivity|].
  split; [discriminate|]. vm_compute. reflexivity.
Qed.
Print Assumptions C91_two_groups_in_a_filter_refuted.

(** The placeholder in the documentation of the function (model_processing.py:845-848) is
    not known. *)
Theorem C91_documented_placeholder_refuted : exists pc f,
  contains "{choice_w_wage}" f = true /\ pc_choices_w_wage pc <> [] /\
  convert_filters pc [] [f] = Ok [f].
Proof.
  exists (mkParsedChoices ["fish"] ["fish"] ["rest"] ["fish"; "rest"]),
    "lagged_choice_1 == '{choice_w_wage}' and exp_{choice_w_wage} == 0".
  split; [vm_compute; reflexivity|]. split; [discriminate|]. vm_compute. reflexivity.
Qed.
Print Assumptions C91_documented_placeholder_refuted.

Definition c91_choices : parsed_choices :=
  mkParsedChoices ["a"; "b"] ["a"; "b"; "edu"] ["home"] ["a"; "b"; "edu"; "home"].
Definition c91_templates : list (group * list piece) :=
  [ (WithExperience, [Plain "period > 0 and exp_"; Slot; Plain " == period and lagged_choice_1 != "; QuotedSlot true]);
    (WithoutExperience, [Plain "period > 0 and exp_a + exp_b + exp_edu == period and lagged_choice_1 == "; QuotedSlot true]);
    (WithWage, [Plain "period > 0 and lagged_choice_1 == "; Labelled true "edu"; Plain " and exp_edu == 0"]) ].

(** Filters of kw_94_one.yaml:14-20. *)
Example C91_example :
  (forall l, In l (labels_of (pc_choices c91_choices) []) -> all_chars is_name l = true) /\
  (forall g t, In (g, t) c91_templates -> wf_template is_name c91_choices g t) /\
  map (fun gt => render_template (fst gt) (snd gt)) c91_templates =
  [ "period > 0 and exp_{choices_w_exp} == period and lagged_choice_1 != '{choices_w_exp}'";
    "period > 0 and exp_a + exp_b + exp_edu == period and lagged_choice_1 == '{choices_wo_exp}'";
    "period > 0 and lagged_choice_1 == 'edu' and exp_edu == 0" ] /\
  convert_filters c91_choices []
    (map (fun gt => render_template (fst gt) (snd gt)) c91_templates) =
  Ok [ "period > 0 and exp_a == period and lagged_choice_1 != 0";
       "period > 0 and exp_b == period and lagged_choice_1 != 1";
       "period > 0 and exp_edu == period and lagged_choice_1 != 2";
       "period > 0 and exp_a + exp_b + exp_edu == period and lagged_choice_1 == 3";
       "period > 0 and lagged_choice_1 == 2 and exp_edu == 0" ].
Proof.
  split; [intros l H; cbn in H; repeat (destruct H as [<-|H]; [reflexivity|]); destruct H|].
  split.
  - intros g t [H|[H|[H|[]]]]; inversion H; subst; clear H;
      (split; [repeat constructor|]; split; [|intros; repeat split]);
      intros c H; cbn in H; repeat (destruct H as [<-|H]; [repeat split|]); destruct H.
  - split; vm_compute; reflexivity.
Qed.
