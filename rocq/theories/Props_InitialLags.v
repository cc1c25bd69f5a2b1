(** The distribution of lagged choices in the first period. *)
From Coq Require Import List Arith Bool String Ascii Reals Lra Lia.
From Verif Require Import Base Model_Strings Model_Choices Spec_Choices Spec_Solve Model_Cache Model_Params Spec_Params
  Spec_InitialLags Proof_InitialLags Examples_InitialLags.
Import ListNotations.
Open Scope string_scope.
Local Open Scope nat_scope.

(** ** C121 *)
Theorem C121_lags_without_parameters : forall choices params k,
  proper_lags params -> NoDup choices ->
  (forall p c, In p params -> plain_name c -> p_category p <> lag_category k c) ->
  exists c, parse_lag choices params k = Ok c /\ map fst c = map Label choices /\
    forall ch, In ch choices -> logit_probability c (Label ch) = (1 / INR (List.length choices))%R.
Proof. exact equiprobable. Qed.
Print Assumptions C121_lags_without_parameters.

Theorem C121_probabilities : forall choices params k,
  proper_lags params -> NoDup choices -> (forall c, In c choices -> plain_name c) ->
  lag_probabilities choices params k ->
  exists c, parse_lag choices params k = Ok c /\ map fst c = map Label choices /\
    let missing := INR (List.length (filter (fun ch => negb (listed params k ch)) choices)) in
    (forall p ch, In p params -> In ch choices -> p_category p = lag_category k ch ->
       logit_probability c (Label ch) = (snd p / lag_total choices params k / (1 + missing * exp (- 10 ^ 200)))%R) /\
    (forall ch, In ch choices -> (forall p, In p params -> p_category p <> lag_category k ch) ->
       logit_probability c (Label ch) = (exp (- 10 ^ 200) / (1 + missing * exp (- 10 ^ 200)))%R).
Proof. exact probabilities_of_lags. Qed.
Print Assumptions C121_probabilities.

Theorem C121_superfluous_lags_are_ignored : forall choices covariates before extra after,
  (forall p, In p extra -> exists i c, number_of_lags covariates < i /\ plain_name c /\ p_category p = lag_category i c) ->
  parse_lagged_choices choices covariates (before ++ extra ++ after) = parse_lagged_choices choices covariates (before ++ after).
Proof. exact superfluous_lags. Qed.
Print Assumptions C121_superfluous_lags_are_ignored.

Example C121_example : NoDup il_choices /\ (forall c, In c il_choices -> plain_name c) /\ proper_lags il_params /\
  lag_probabilities il_choices il_params 1 /\ lag_total il_choices il_params 1 = 4%R /\
  filter (fun ch => negb (listed il_params 1 ch)) il_choices = ["home"] /\
  (forall p c, In p il_params -> plain_name c -> p_category p <> lag_category 2 c) /\
  exists p, In p il_params /\ exists i c, number_of_lags [("a_last", "period + 1")] < i /\ plain_name c /\ p_category p = lag_category i c.
Proof.
  split; [repeat constructor; cbn; intuition discriminate|]. split; [exact il_plain|]. split; [exact il_proper|].
  split; [exact il_probabilities|]. split; [exact il_total|]. split; [reflexivity|]. split; [exact il_nothing|].
  eexists. split; [right; left; reflexivity|]. exists 1, "edu". split; [vm_compute; lia|]. split; [apply il_plain; right; left; reflexivity|reflexivity].
Qed.
