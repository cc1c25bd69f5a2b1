(** Property theorems: the levels of observables and their probabilities. *)
From Coq Require Import List Arith Bool String Ascii Reals ZArith.
From Verif Require Import Base Model_Strings Model_Choices Spec_Choices Spec_Solve Model_Cache Model_Params Model_Processing Spec_Params
  Model_ParseParameters Spec_ObservableLevels Proof_ObservableLevels Examples_ObservableLevels.
Import ListNotations.
Open Scope string_scope.
Open Scope list_scope.

(** ** C112 *)
(** The names are listed in alphabetical order, and every variable has exactly its levels. *)
Theorem C112_variables_have_their_levels : forall keyword params rows, variables keyword params rows ->
  forall vars, parse_variables keyword params = Ok vars ->
  lists_alphabetically (map fst vars) (fun n => In n (map fst rows)) /\
  forall n c, In (n, c) vars -> forall level, In level (map fst c) <-> exists l, In (n, l) rows /\ written_as rows n l level.
Proof. exact variables_levels. Qed.
Print Assumptions C112_variables_have_their_levels.

(** Parameters are rejected if and only if probabilities of a variable are mixed with something else. *)
Theorem C112_mixtures_are_rejected : forall keyword params rows, variables keyword params rows ->
  ((exists vars, parse_variables keyword params = Ok vars) <-> forall n, In n (map fst rows) -> ~ mixture keyword params rows n) /\
  ((exists vars, parse_variables keyword params = Ok vars) \/ parse_variables keyword params = ValueError).
Proof. exact variables_accepted. Qed.
Print Assumptions C112_mixtures_are_rejected.

(** Probabilities are divided by their sum over the levels of the variable. *)
Theorem C112_probabilities : forall keyword params rows, variables keyword params rows ->
  forall vars n c, parse_variables keyword params = Ok vars -> In (n, c) vars ->
  (forall p l, In p params -> p_category p = observable_category keyword (n, l) -> In (n, l) rows ->
     p_name p = "probability" /\ (sum_of keyword params rows n / MAX_FLOAT <= snd p)%R) ->
  (0 < sum_of keyword params rows n)%R ->
  forall p l level, In p params -> p_category p = observable_category keyword (n, l) -> In (n, l) rows -> written_as rows n l level ->
    logit_probability c level = (snd p / sum_of keyword params rows n)%R.
Proof. exact variables_probabilities. Qed.
Print Assumptions C112_probabilities.

(** Without exogenous processes these are the observables of the model. *)
Theorem C112_observables_of_the_model : forall n_periods covariates params rows mp,
  variables "observable" params rows -> (forall p, In p params -> prefix "exogenous_process_" (p_category p) = false) ->
  process_parameters n_periods covariates params = Ok mp ->
  parse_variables "observable" params = Ok (mp_observables mp) /\ mp_processes mp = [].
Proof. exact observables_processed. Qed.
Print Assumptions C112_observables_of_the_model.

(** A level with a capital letter disappears without a message. *)
Theorem C112_capital_letters_refuted : exists keyword params rows vars c,
  (forall p, In p params -> word (p_category p) /\ p_name p = "probability") /\
  filter (prefix (keyword ++ "_")) (map p_category params) = map (observable_category keyword) rows /\
  simple_rows rows /\ (forall n l, In (n, l) rows -> word l) /\ rsum (map snd params) = 1%R /\
  In ("edu", "High") rows /\
  parse_variables keyword params = Ok vars /\ In ("edu", c) vars /\ map fst c = [Label "low"].
Proof. exact ol_capital_disappears. Qed.
Print Assumptions C112_capital_letters_refuted.

Example C112_example : variables "observable" ol_params ol_rows /\ exists vars, parse_variables "observable" ol_params = Ok vars.
Proof. exact (conj ol_params_variables ol_accepted). Qed.
Example C112_example_levels : written_as ol_rows "grade" "9" (Number 9) /\ written_as ol_rows "school" "bad" (Label "bad").
Proof.
  split; [left|right]; (split; [|reflexivity]).
  - intros l I. repeat (destruct I as [I|I]; [first [discriminate | injection I as <-; reflexivity]|]). destruct I.
  - exists "bad". split; [right; left; reflexivity|reflexivity].
Qed.
