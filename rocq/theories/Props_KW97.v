(** Property theorems: the preparation of the data of Keane and Wolpin. *)
From Coq Require Import List ZArith Bool String Reals.
From Verif Require Import Base Model_Choices Model_Data Model_KW97 Spec_Data Spec_KW97 Proof_KW97More Proof_KW97Check Examples_KW97.
Import ListNotations.
Open Scope string_scope.
Open Scope Z_scope.

(** ** C117 *)
(** One row for each row of the file from the age of 16 on. *)
Theorem C117_prepared_rows : forall wage_choices exp_choices n_lags file,
  usual_choices wage_choices exp_choices -> few_people file -> (n_lags <= 1)%nat ->
  exists data, create_kw_97 wage_choices exp_choices n_lags [] file = Ok data /\
    Forall2 (prepared wage_choices exp_choices n_lags file) (from_sixteen file) data.
Proof. exact rows_prepared. Qed.
Print Assumptions C117_prepared_rows.

(** The prepared data of a regular file pass the check of the data for the estimation. *)
Theorem C117_regular_files_are_accepted : forall m file categories,
  regular_file m file -> usual_choices (i_wage_choices m) (i_exp_choices m) ->
  (i_lags m <= 1)%nat -> i_levels m = [] -> categories 1%nat = categories 0%nat -> incl (i_choices m) (categories 0%nat) ->
  exists data, create_kw_97 (i_wage_choices m) (i_exp_choices m) (i_lags m) [] file = Ok data /\
    check_estimation_data m categories data = Ok tt.
Proof. exact regular_files_accepted. Qed.
Print Assumptions C117_regular_files_are_accepted.

(** Models with more lagged choices or with observables cannot be used. *)
Theorem C117_missing_columns : forall wage_choices exp_choices n_lags observables file, (2 <= n_lags)%nat \/ observables <> [] ->
  create_kw_97 wage_choices exp_choices n_lags observables file = KeyError.
Proof. exact missing_columns. Qed.
Print Assumptions C117_missing_columns.

(** Adding an individual who is only observed before the age of 16 makes the data useless. *)
Theorem C117_only_observed_before_sixteen_refuted : exists m file data, (forall categories, check_estimation_data m categories data = OtherError) /\
  usual_choices (i_wage_choices m) (i_exp_choices m) /\
  create_kw_97 (i_wage_choices m) (i_exp_choices m) (i_lags m) [] file = Ok data /\
  (exists w rest, file = w :: rest /\ w_age w = 15 /\ exists data', create_kw_97 (i_wage_choices m) (i_exp_choices m) (i_lags m) [] rest = Ok data' /\
     check_estimation_data m kw_categories data' = Ok tt).
Proof. exact only_fifteen. Qed.
Print Assumptions C117_only_observed_before_sixteen_refuted.

(** Leaving out the row at the age of 15 makes the data useless for a model with a lagged choice. *)
Theorem C117_not_observed_at_fifteen_refuted : exists m file data, i_lags m = 1%nat /\ (forall categories, check_estimation_data m categories data = OtherError) /\
  usual_choices (i_wage_choices m) (i_exp_choices m) /\
  create_kw_97 (i_wage_choices m) (i_exp_choices m) (i_lags m) [] file = Ok data /\
  (exists w file', w_age w = 15 /\ file' = w :: file /\ regular_file m file').
Proof. exact without_fifteen. Qed.
Print Assumptions C117_not_observed_at_fifteen_refuted.

(** Two individuals who go to school and work for a year. *)
Example C117_example : regular_file kw_info kw_file /\ usual_choices (i_wage_choices kw_info) (i_exp_choices kw_info) /\
  (forall t, incl (i_choices kw_info) (kw_categories t)) /\
  exists data, create_kw_97 (i_wage_choices kw_info) (i_exp_choices kw_info) 1 [] kw_file = Ok data /\
  map (fun r => (r_id r, r_period r, r_choice r, r_lags r, r_exps r)) data =
  [(0, 0, Some "school", [Some "school"], [Some 0; Some 11]); (0, 1, Some "white_collar", [Some "school"], [Some 0; Some 12]);
   (0, 2, Some "home", [Some "white_collar"], [Some 1; Some 12]);
   (1, 0, Some "school", [Some "school"], [Some 0; Some 9]); (1, 1, Some "white_collar", [Some "school"], [Some 0; Some 10]);
   (1, 2, Some "home", [Some "white_collar"], [Some 1; Some 10])].
Proof. exact (conj kw_regular (conj kw_usual (conj (fun _ => incl_refl _) kw_prepared))). Qed.
