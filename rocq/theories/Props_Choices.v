(** Properties of the names of choices, labels and columns: C44, C45, C46, C71, C72. *)
From Coq Require Import List Arith Bool Lia String Ascii.
From Verif Require Import Base Model_Strings Model_Cache Model_Choices Spec_Choices
  Proof_Strings Proof_Choices Proof_Labels Proof_Columns.
Import ListNotations.
Open Scope string_scope.

(** ** C44 *)

Theorem C44_order_of_choices : forall idx covariates,
  (forall category, In category (map fst idx) -> word category) ->
  let pc := parse_choices idx covariates in
  lists_alphabetically (pc_choices_w_wage pc) (has_wage idx) /\
  (exists others, pc_choices_w_exp pc = (pc_choices_w_wage pc ++ others)%list /\
     lists_alphabetically others
       (fun c => uses_experience idx covariates c /\ has_nonpec idx c /\ ~ has_wage idx c)) /\
  lists_alphabetically (pc_choices_wo_exp pc)
    (fun c => has_nonpec idx c /\ ~ uses_experience idx covariates c) /\
  (exists rest, pc_choices pc = (pc_choices_w_exp pc ++ rest)%list /\
     lists_alphabetically rest
       (fun c => has_nonpec idx c /\ ~ uses_experience idx covariates c /\ ~ has_wage idx c)) /\
  NoDup (pc_choices pc).
Proof. exact parse_choices_order. Qed.
Print Assumptions C44_order_of_choices.

Theorem C44_order_of_parameters_is_irrelevant : forall idx idx' covariates covariates',
  (forall x, In x idx <-> In x idx') -> (forall x, In x covariates <-> In x covariates') ->
  parse_choices idx covariates = parse_choices idx' covariates'.
Proof. exact parse_choices_ext. Qed.
Print Assumptions C44_order_of_parameters_is_irrelevant.

(** Wages for two occupations, one with experience that nobody uses and non-pecuniary
    rewards; education with experience through a covariate; staying at home. *)
Definition c44_index : index :=
  [("nonpec_home", "constant"); ("wage_b", "constant"); ("wage_a", "constant");
   ("wage_a", "exp_a"); ("nonpec_b", "constant"); ("nonpec_edu", "graduate")].
Definition c44_covariates : list (string * string) := [("graduate", "exp_edu >= 12")].
Example c44_example :
  parse_choices c44_index c44_covariates =
    mkParsedChoices ["a"; "b"] ["a"; "b"; "edu"] ["b"; "home"] ["a"; "b"; "edu"; "home"] /\
  (forall category, In category (map fst c44_index) -> word category).
Proof.
  split; [vm_compute; reflexivity|]. intros c I. cbn in I.
  repeat (destruct I as [<-|I]; [reflexivity|]). destruct I.
Qed.

(** ** C71 *)

Theorem C71_names_of_choices : forall idx covariates c,
  (forall category, In category (map fst idx) -> word category) ->
  (In c (pc_choices (parse_choices idx covariates)) <->
   well_named c /\ (In ("wage_" ++ c) (map fst idx) \/ In ("nonpec_" ++ c) (map fst idx))).
Proof. exact choices_iff. Qed.
Print Assumptions C71_names_of_choices.

Theorem C71_every_wage_is_a_choice_refuted : exists idx covariates c,
  (forall category, In category (map fst idx) -> word category) /\
  In ("wage_" ++ c) (map fst idx) /\ In ("exp_" ++ c) (map snd idx) /\
  ~ In c (pc_choices (parse_choices idx covariates)).
Proof.
  exists [("wage_a", "constant"); ("wage_b2", "constant"); ("wage_b2", "exp_b2")], [], "b2".
  split; [|split; [|split]].
  - intros c I. cbn in I. repeat (destruct I as [<-|I]; [reflexivity|]). destruct I.
  - right. left. reflexivity.
  - right. right. left. reflexivity.
  - vm_compute. intros [H|[]]. discriminate.
Qed.
Print Assumptions C71_every_wage_is_a_choice_refuted.

Example c71_example : In "edu" (pc_choices (parse_choices c44_index c44_covariates)).
Proof. vm_compute. auto. Qed.

(** ** C45 *)

Theorem C45_labels_to_codes_and_back : forall levels i l,
  NoDup levels -> List.length levels <= 256 -> nth_error levels i = Some l ->
  exists c, label_to_code levels l = Ok c /\ code_to_label levels c = l.
Proof. exact round_trip. Qed.
Print Assumptions C45_labels_to_codes_and_back.

Theorem C45_unknown_labels_are_errors : forall levels s,
  ~ In (Label s) levels -> label_to_code levels (Label s) = ValueError.
Proof. exact label_to_code_unknown. Qed.
Print Assumptions C45_unknown_labels_are_errors.

Theorem C45_many_levels_refuted : exists levels i l c,
  NoDup levels /\ nth_error levels i = Some l /\
  label_to_code levels l = Ok c /\ code_to_label levels c <> l.
Proof. exact many_levels. Qed.
Print Assumptions C45_many_levels_refuted.

Theorem C45_labels_in_formulas : forall cls choices observables formula,
  (forall c, cls c = true -> is_quote c = false) ->
  (forall l, In l (labels_of choices observables) -> all_chars cls l = true) ->
  separated cls false formula ->
  replace_choices_and_observables choices observables (render formula) =
  render (map (coded (formula_code choices observables)) formula).
Proof. exact formula_coded. Qed.
Print Assumptions C45_labels_in_formulas.

(** A level of an observable which is also the name of a choice, or of a level of another
    observable, gets the code of the other one; numeric levels are not replaced at all. *)
Theorem C45_level_named_like_a_choice_refuted : exists choices o levels l i,
  NoDup choices /\ NoDup levels /\ nth_error levels i = Some (Label l) /\
  replace_choices_and_observables choices [(o, levels)] (o ++ " == '" ++ l ++ "'") <>
  o ++ " == " ++ dec i.
Proof.
  exists ["home"; "school"], "place", [Label "school"; Label "work"], "school", 0.
  split; [repeat constructor; cbn; intuition discriminate|].
  split; [repeat constructor; cbn; intuition discriminate|]. split; [reflexivity|].
  vm_compute. discriminate.
Qed.
Print Assumptions C45_level_named_like_a_choice_refuted.

Theorem C45_level_of_two_observables_refuted : exists choices o1 levels1 o2 levels2 l i,
  NoDup levels1 /\ NoDup levels2 /\ nth_error levels2 i = Some (Label l) /\ ~ In l choices /\
  replace_choices_and_observables choices [(o1, levels1); (o2, levels2)] (o2 ++ " == '" ++ l ++ "'") <>
  o2 ++ " == " ++ dec i.
Proof.
  exists ["home"], "ability", [Label "high"; Label "low"], "income", [Label "high"; Label "medium"; Label "low"], "low", 2.
  split; [repeat constructor; cbn; intuition discriminate|].
  split; [repeat constructor; cbn; intuition discriminate|]. split; [reflexivity|].
  split; [cbn; intuition discriminate|].
  vm_compute. discriminate.
Qed.
Print Assumptions C45_level_of_two_observables_refuted.

Theorem C45_numeric_levels_refuted : exists choices o levels n i,
  NoDup levels /\ nth_error levels i = Some (Number n) /\ label_to_code levels (Number n) = Ok i /\
  replace_choices_and_observables choices [(o, levels)] (o ++ " == " ++ dec n) <>
  o ++ " == " ++ dec i.
Proof.
  exists ["home"], "fishing", [Number 10; Number 20], 20, 1.
  split; [repeat constructor; cbn; intuition discriminate|].
  split; [reflexivity|]. split; [vm_compute; reflexivity|]. vm_compute. discriminate.
Qed.
Print Assumptions C45_numeric_levels_refuted.

Definition c45_formula : list segment :=
  [Text "choice == "; Quoted true "fish"; Text " and island == "; Quoted false "rich";
   Text " or name == "; Quoted true "other"].
Definition c45_observables : list (string * list level) := [("island", [Label "poor"; Label "rich"])].
Example c45_example :
  separated is_name false c45_formula /\
  (forall l, In l (labels_of ["hunt"; "fish"] c45_observables) -> all_chars is_name l = true) /\
  replace_choices_and_observables ["hunt"; "fish"] c45_observables (render c45_formula) =
    "choice == 1 and island == 1 or name == 'other'".
Proof.
  split; [cbn; repeat (split || reflexivity)|]. split; [|vm_compute; reflexivity].
  intros l I. cbn in I. repeat (destruct I as [<-|I]; [reflexivity|]). destruct I.
Qed.
Example c45_example_codes :
  label_to_code [Label "poor"; Label "rich"] (Label "rich") = Ok 1 /\
  label_to_code [Label "poor"; Label "rich"] (Label "richer") = ValueError.
Proof. vm_compute. auto. Qed.

(** ** C46 *)

Theorem C46_columns_to_data_and_back : forall x, no_upper x ->
  (rename_labels_to_internal (rename_labels_from_internal x) = x <-> exp_starts_words x).
Proof. exact columns_round_trip. Qed.
Print Assumptions C46_columns_to_data_and_back.

Example c46_example :
  rename_labels_from_internal "exp_white_collar" = "Experience_White_Collar" /\
  rename_labels_to_internal "Experience_White_Collar" = "exp_white_collar" /\
  rename_labels_to_internal (rename_labels_from_internal "aexp") = "aexperience" /\
  no_upper "exp_white_collar".
Proof. vm_compute. auto. Qed.

(** ** C72 *)

Theorem C72_observables_in_the_output : forall columns observables,
  (forall o, In o observables -> In o columns) ->
  (forall o, In o observables -> contains "exp" o = false) ->
  find_observables columns observables = Ok tt.
Proof. exact observables_found. Qed.
Print Assumptions C72_observables_in_the_output.

Theorem C72_every_observable_refuted : exists columns observables,
  (forall o, In o observables -> In o columns) /\ NoDup columns /\
  find_observables columns observables = KeyError.
Proof.
  exists ["identifier"; "period"; "choice"; "expectation"], ["expectation"].
  split; [intros o [<-|[]]; cbn; tauto|].
  split; [repeat constructor; cbn; intuition discriminate | vm_compute; reflexivity].
Qed.
Print Assumptions C72_every_observable_refuted.

(** The name of the column that is searched for is exactly the name of the column in the
    output when the name does not contain "exp". *)
Theorem C72_same_name_iff : forall o,
  rename_labels_from_internal o = title o <-> ~ (exists a b, o = a ++ "exp" ++ b).
Proof. exact same_name_iff. Qed.
Print Assumptions C72_same_name_iff.

Example c72_example :
  find_observables ["identifier"; "period"; "choice"; "fishing_grounds"] ["fishing_grounds"] = Ok tt /\
  rename_labels_from_internal "fishing_grounds" = "Fishing_Grounds".
Proof. vm_compute. auto. Qed.
