(** Property theorems: templates for parameters. *)
From Coq Require Import List Arith Bool String Ascii Reals ZArith.
From Verif Require Import Base Model_Strings Model_Cache Model_Choices Spec_Choices Spec_Solve Model_Params Model_Processing Spec_Params
  Model_ParseParameters Model_SpecificationHelpers Proof_SpecificationHelpers Examples_SpecificationHelpers.
Import ListNotations.
Local Open Scope nat_scope.
Open Scope string_scope.
Open Scope list_scope.

(** ** C113 *)
(** The template has as many types as asked for. *)
Theorem C113_types : forall base n covs,
  (forall p, In p base -> word (p_category p) /\ word (p_name p)) ->
  (forall p d, In p base -> all_digits d = true -> p_category p <> ("type_" ++ d)%string /\ p_name p <> ("type_" ++ d)%string) ->
  2 <= n ->
  exists c, parse_types (csv_template base n covs) = Ok (n, Some c) /\ map fst c = map Number (seq 0 n).
Proof. exact types_template. Qed.
Print Assumptions C113_types.

(** Initial levels of education have the given shares, and the maximum is the given one. *)
Theorem C113_initial_experience : forall base starts shares top n,
  (forall p, In p base -> word (p_category p)) ->
  (forall p d, In p base -> p_category p <> ("initial_exp_edu_" ++ d)%string) ->
  (forall v, ~ In ("maximum_exp", "edu", v) base) ->
  List.length shares = List.length starts -> starts <> [] -> NoDup starts -> rsum shares = 1%R ->
  (forall s, In s shares -> (1 / MAX_FLOAT <= s)%R) ->
  exists c, parse_experience n (base ++ initial_and_max_experience_template starts shares (INR top)) "edu" = Ok (c, Z.of_nat top) /\
    (forall l, In l (map fst c) <-> exists k, In k starts /\ l = Number k) /\
    forall i k s, nth_error starts i = Some k -> nth_error shares i = Some s -> logit_probability c (Number k) = s.
Proof. exact experience_template. Qed.
Print Assumptions C113_initial_experience.

(** A level which is listed twice is rejected. *)
Theorem C113_repeated_levels_are_rejected : forall base starts shares top n,
  (forall p, In p base -> word (p_category p)) ->
  (forall p d, In p base -> p_category p <> ("initial_exp_edu_" ++ d)%string) ->
  List.length shares = List.length starts -> ~ NoDup starts ->
  parse_experience n (base ++ initial_and_max_experience_template starts shares (INR top)) "edu" = ValueError.
Proof. exact experience_twice. Qed.
Print Assumptions C113_repeated_levels_are_rejected.

(** Up to ten observables have the given probabilities. *)
Theorem C113_observables : forall base probs,
  (forall p, In p base -> word (p_category p)) ->
  (forall p r, In p base -> p_category p <> ("observable_" ++ r)%string) ->
  (forall ps, In ps probs -> 2 <= List.length ps) -> List.length probs <= 10 ->
  (forall ps, In ps probs -> rsum ps = 1%R /\ forall p, In p ps -> (1 / MAX_FLOAT <= p)%R) ->
  exists vars, parse_variables "observable" (base ++ observable_prob_template probs) = Ok vars /\
  (forall n, In n (map fst vars) <-> exists i, i < List.length probs /\ n = ("observable_" ++ dec i)%string) /\
  forall i ps c, nth_error probs i = Some ps -> In (("observable_" ++ dec i)%string, c) vars ->
    (forall l, In l (map fst c) <-> exists j, j < List.length ps /\ l = Number j) /\
    forall j p, nth_error ps j = Some p -> logit_probability c (Number j) = p.
Proof. exact observables_template. Qed.
Print Assumptions C113_observables.

(** More than ten observables are always rejected. *)
Theorem C113_many_observables_are_rejected : forall base probs,
  (forall p r, In p base -> p_category p <> ("observable_" ++ r)%string) ->
  (forall ps, In ps probs -> 2 <= List.length ps) -> 11 <= List.length probs ->
  parse_variables "observable" (base ++ observable_prob_template probs) = ValueError.
Proof. exact so_too_many. Qed.
Print Assumptions C113_many_observables_are_rejected.

(** The labels of the coefficients of observables are all combinations, each of them once. *)
Theorem C113_labels : forall observables index, NoDup index -> NoDup (generate_obs_labels observables index) /\
  (forall r n, In (r, n) (generate_obs_labels observables index) <-> In r index /\
     exists x y m, nth_error observables x = Some m /\ y < m /\ n = ("observable_" ++ dec x ++ "_" ++ dec y)%string).
Proof. exact labels_different. Qed.
Print Assumptions C113_labels.

(** The values of the template for lagged choices are coefficients of a logit, ... *)
Theorem C113_lagged_choices : forall base probs choices,
  (forall p, In p base -> ~ substring "lagged_choice_" (p_category p)) ->
  (forall c, In c choices -> well_named c /\ ~ substring "lagged_choice_" c) -> NoDup choices -> choices <> [] ->
  forall k ps, nth_error probs (k - 1) = Some ps -> 1 <= k -> List.length ps = List.length choices ->
  exists c, parse_lag choices (base ++ lagged_choices_probs_template probs choices) k = Ok c /\ map fst c = map Label choices /\
    forall j label p, nth_error choices j = Some label -> nth_error ps j = Some p ->
      logit_probability c (Label label) = (exp p / rsum (map exp ps))%R.
Proof. exact lag_template. Qed.
Print Assumptions C113_lagged_choices.

(** ... and not, as the comments of the template say, probabilities. *)
Theorem C113_lagged_probabilities_refuted : exists probs choices ps c label p j,
  NoDup choices /\ (forall c, In c choices -> well_named c) /\ probs = [ps] /\ List.length ps = List.length choices /\
  rsum ps = 1%R /\ (forall p, In p ps -> (0 < p)%R) /\
  parse_lag choices (lagged_choices_probs_template probs choices) 1 = Ok c /\
  nth_error choices j = Some label /\ nth_error ps j = Some p /\ logit_probability c (Label label) <> p.
Proof. exact lag_probabilities_differ. Qed.
Print Assumptions C113_lagged_probabilities_refuted.

Example C113_example_base : (forall p, In p sh_base -> word (p_category p) /\ word (p_name p)) /\
  (forall p, In p sh_base -> ~ substring "lagged_choice_" (p_category p)) /\
  (forall p d, In p sh_base -> all_digits d = true -> p_category p <> ("type_" ++ d)%string /\ p_name p <> ("type_" ++ d)%string) /\
  (forall p d, In p sh_base -> p_category p <> ("initial_exp_edu_" ++ d)%string) /\
  (forall v, ~ In ("maximum_exp", "edu", v) sh_base) /\
  (forall p r, In p sh_base -> p_category p <> ("observable_" ++ r)%string) /\
  (forall c, In c ["a"; "edu"] -> well_named c /\ ~ substring "lagged_choice_" c).
Proof. exact sh_base_ok. Qed.
Example C113_example_labels : generate_obs_labels [2; 1] ["wage_a"; "nonpec_b"] =
  [("wage_a", "observable_0_0"); ("wage_a", "observable_0_1"); ("wage_a", "observable_1_0");
   ("nonpec_b", "observable_0_0"); ("nonpec_b", "observable_0_1"); ("nonpec_b", "observable_1_0")].
Proof. reflexivity. Qed.
