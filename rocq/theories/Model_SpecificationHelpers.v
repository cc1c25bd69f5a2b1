(** Model of the templates for parameters, pre_processing/specification_helpers.py.  A row of a template is
    a parameter; the comments of rows are left out, and random probabilities are arguments. *)
From Coq Require Import List Arith Bool String Ascii Reals.
From Verif Require Import Base Model_Strings Model_Cache Model_Choices Model_Params.
Import ListNotations.
Open Scope string_scope.
Open Scope list_scope.

(** Lines 46-72 (_type_prob_template): every type but the first one has the covariates of its probability. *)
Definition type_prob_template (n_types n_type_covariates : nat) : list param :=
  flat_map (fun t =>
    (if Nat.eqb n_type_covariates 3 then [(("type_" ++ dec t)%string, "constant", 0%R)] else []) ++
    [(("type_" ++ dec t)%string, "up_to_nine_years_edu", (1 / INR n_types)%R);
     (("type_" ++ dec t)%string, "at_least_ten_years_edu", 0%R)]) (seq 1 (n_types - 1)).

(** Lines 75-86 (_type_shift_template): every type but the first one has a shift of all rewards. *)
Definition type_shift_template (n_types : nat) : list param :=
  flat_map (fun t =>
    map (fun c => (((if mem c ["a"; "b"] then "wage_" else "nonpec_") ++ c)%string, ("type_" ++ dec t)%string, 0%R))
        ["a"; "b"; "edu"; "home"]) (seq 1 (n_types - 1)).

(** Lines 10-35 (csv_template); the template without types is an argument (the file base_params.csv). *)
Definition csv_template (base : list param) (n_types n_type_covariates : nat) : list param :=
  if Nat.ltb 1 n_types
  then base ++ type_prob_template n_types n_type_covariates ++ type_shift_template n_types
  else base.

(** Lines 89-101 (initial_and_max_experience_template); [zip] stops at the end of the shorter list. *)
Definition initial_and_max_experience_template (starts : list nat) (shares : list R) (max : R) : list param :=
  map (fun sp => (("initial_exp_edu_" ++ dec (fst sp))%string, "probability", snd sp)) (combine starts shares) ++
  [("maximum_exp", "edu", max)].

(** Lines 104-114 (lagged_choices_probs_template); one list of probabilities for each lag. *)
Definition lagged_choices_probs_template (probs : list (list R)) (choices : list string) : list param :=
  flat_map (fun ip => map (fun cp => (("lagged_choice_" ++ dec (fst ip) ++ "_" ++ fst cp)%string, "constant", snd cp))
                          (combine choices (snd ip)))
    (combine (seq 1 (List.length probs)) probs).

(** Lines 138-151 (observable_prob_template); one list of probabilities for each observable. *)
Definition observable_prob_template (probs : list (list R)) : list param :=
  flat_map (fun ip => map (fun jp => (("observable_observable_" ++ dec (fst ip) ++ "_" ++ dec (fst jp))%string, "probability", snd jp))
                          (enumerate (snd ip)))
    (enumerate probs).

(** Lines 167-175 (generate_obs_labels): all pairs of a reward and a level of an observable. *)
Definition generate_obs_labels (observables : list nat) (index : list string) : list (string * string) :=
  list_prod index
    (flat_map (fun xn => map (fun y => ("observable_" ++ dec (fst xn) ++ "_" ++ dec y)%string) (seq 0 (snd xn)))
       (enumerate observables)).
