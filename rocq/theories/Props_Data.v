(** Properties of data sets: C55, C56, C57, C78, C79. *)
From Coq Require Import List ZArith Bool String Reals Lia.
From Verif Require Import Base Model_Choices Model_Data Spec_Data Proof_Data Proof_DataCheck Proof_DataColumns Examples_Data.
Import ListNotations.
Open Scope string_scope.
Open Scope Z_scope.

(** ** C55 *)

Theorem C55_values_are_kept_in_the_smallest_type : forall c, is_type (fst c) -> fits (fst c) (snd c) ->
  let out := downcast c in
  snd out = snd c /\ is_type (fst out) /\ fits (fst out) (snd c) /\
  ((forall x, In x (snd c) -> 0 <= x) -> d_signed (fst out) = false /\
     forall d, is_type d -> d_signed d = false -> fits d (snd c) -> d_bits (fst out) <= d_bits d) /\
  ((exists x, In x (snd c) /\ x < 0) -> d_signed (fst out) = true /\
     forall d, is_type d -> d_signed d = true -> fits d (snd c) -> d_bits (fst out) <= d_bits d).
Proof. exact downcast_ok. Qed.
Print Assumptions C55_values_are_kept_in_the_smallest_type.

Example c55_example :
  downcast (mkDtype true 64, [0; 255]) = (mkDtype false 8, [0; 255]) /\
  downcast (mkDtype true 64, [0; 256]) = (mkDtype false 16, [0; 256]) /\
  downcast (mkDtype true 64, [-128; 127]) = (mkDtype true 8, [-128; 127]) /\
  downcast (mkDtype true 64, [-129; 3]) = (mkDtype true 16, [-129; 3]) /\
  downcast (mkDtype true 32, [-1; 2147483647]) = (mkDtype true 32, [-1; 2147483647]).
Proof. vm_compute. auto. Qed.

(** ** C56 *)

Theorem C56_accepted_data_are_complete : forall m categories data, (forall r, In r data -> 0 <= r_period r) ->
  check_estimation_data m categories data = Ok tt -> complete_panel m data /\ values_ok m data.
Proof. exact accepted_complete. Qed.
Print Assumptions C56_accepted_data_are_complete.

Theorem C56_accepted_iff : forall m categories data,
  (forall r, In r data -> 0 <= r_period r) -> individuals_in_order data -> in_order data ->
  categories 1%nat = categories 0%nat -> incl (i_choices m) (categories 0%nat) ->
  (check_estimation_data m categories data = Ok tt <->
   values_ok m data /\ complete_panel m data /\ experience_follows m data /\
   ((2 <= i_lags m)%nat -> first_lag_follows data) /\
   ((3 <= i_lags m)%nat -> forall r, In r data -> r_period r = 0)).
Proof. exact accepted_iff. Qed.
Print Assumptions C56_accepted_iff.

Theorem C56_single_lag_refuted : exists m categories data r q,
  (forall r, In r data -> 0 <= r_period r) /\ individuals_in_order data /\ in_order data /\
  categories 1%nat = categories 0%nat /\ incl (i_choices m) (categories 0%nat) /\ i_lags m = 1%nat /\
  check_estimation_data m categories data = Ok tt /\ next_period data r q /\ choice_column 1 q <> r_choice r.
Proof. exact single_lag_refuted. Qed.
Print Assumptions C56_single_lag_refuted.

Theorem C56_rows_in_another_order_refuted : exists m categories data,
  (forall r, In r data -> 0 <= r_period r) /\ individuals_in_order data /\
  categories 1%nat = categories 0%nat /\ incl (i_choices m) (categories 0%nat) /\
  check_estimation_data m categories data = Ok tt /\ ~ experience_follows m data.
Proof. exact order_refuted. Qed.
Print Assumptions C56_rows_in_another_order_refuted.

Theorem C56_negative_periods_refuted : exists m categories data,
  individuals_in_order data /\ in_order data /\ categories 1%nat = categories 0%nat /\ incl (i_choices m) (categories 0%nat) /\
  check_estimation_data m categories data = Ok tt /\
  exists r, In r data /\ r_period r < 0 /\ ~ exists q, In q data /\ r_period q = 0.
Proof. exact negative_refuted. Qed.
Print Assumptions C56_negative_periods_refuted.

Example c56_example : (forall r, In r good -> 0 <= r_period r) /\ individuals_in_order good /\ in_order good /\
  same 1 = same 0 /\ incl (i_choices (the_info 2)) (same 0) /\
  check_estimation_data (the_info 2) same good = Ok tt.
Proof. exact good_accepted. Qed.

(** ** C57 *)

Theorem C57_experience_counts_earlier_choices : forall rows choice k,
  nth_error (working_experience rows choice) k =
  match nth_error rows k with Some _ => Some (Z.of_nat (earlier_choices rows choice k)) | None => None end.
Proof. exact experience_counts. Qed.
Print Assumptions C57_experience_counts_earlier_choices.

Example c57_example :
  working_experience [(0, Some "a"); (1, Some "a"); (0, Some "b"); (1, Some "a"); (0, Some "a"); (1, None); (0, Some "a")] "a" =
  [0; 0; 1; 1; 1; 2; 2].
Proof. reflexivity. Qed.

(** ** C78 *)

Theorem C78_three_lags_are_rejected : forall m categories data, (forall r, In r data -> 0 <= r_period r) ->
  check_estimation_data m categories data = Ok tt -> (3 <= i_lags m)%nat -> forall r, In r data -> r_period r = 0.
Proof. exact three_lags. Qed.
Print Assumptions C78_three_lags_are_rejected.

Theorem C78_valid_data_with_three_lags_refuted : exists m categories data,
  (forall r, In r data -> 0 <= r_period r) /\ individuals_in_order data /\ in_order data /\
  (forall i, categories i = i_choices m) /\
  values_ok m data /\ complete_panel m data /\ experience_follows m data /\ lags_follow m data /\
  check_estimation_data m categories data = ValueError.
Proof. exact three_lags_refuted. Qed.
Print Assumptions C78_valid_data_with_three_lags_refuted.

Theorem C78_order_of_categories_refuted : exists m categories data,
  (forall r, In r data -> 0 <= r_period r) /\ individuals_in_order data /\ in_order data /\ i_lags m = 2%nat /\
  (forall i c, In c (categories i) <-> In c (i_choices m)) /\
  values_ok m data /\ complete_panel m data /\ experience_follows m data /\ first_lag_follows data /\
  check_estimation_data m categories data = OtherError.
Proof. exact categories_refuted. Qed.
Print Assumptions C78_order_of_categories_refuted.

Example c78_example : (forall r, In r good -> 0 <= r_period r) /\
  check_estimation_data (the_info 2) same good = Ok tt /\
  check_estimation_data (the_info 3) same good = ValueError /\
  check_estimation_data (the_info 3) same (map (fun r => mkRow (r_id r) 0 (r_choice r) (r_wage r) (r_lags r) (r_exps r) (r_obs r) (r_type r))
    [nth 0 good (observation 0 0 a [] 0); nth 3 good (observation 0 0 a [] 0)]) = Ok tt.
Proof. split; [apply nonneg_by; reflexivity|]. vm_compute. auto. Qed.

(** ** C79 *)

Theorem C79_simulated_data : forall m categories data, data <> [] ->
  (check_simulated_data m categories data = Ok tt <->
   check_estimation_data m categories data = Ok tt /\ types_ok m data /\ wages_ok m data).
Proof. exact simulated_iff. Qed.
Print Assumptions C79_simulated_data.

Example c79_example : check_simulated_data (the_info 2) same (working (Some 1%R)) = Ok tt /\
  check_estimation_data (the_info 2) same (working None) = Ok tt /\
  check_simulated_data (the_info 2) same (working None) = OtherError.
Proof. exact simulated_example. Qed.
