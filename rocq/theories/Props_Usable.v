(** Property theorems: data sets with which a model can be estimated. *)
From Coq Require Import List Arith ZArith Bool String Reals Lia.
From Verif Require Import Base Model_CoreStateSpace Spec_CoreStateSpace Model_StateSpace Spec_StateSpace Props_StateSpace
  Model_Choices Model_Processing Model_Parallel Model_Solve Examples_Solve Model_Simulate Model_Dataset Spec_Dataset Examples_Dataset.
From Verif Require Import Model_Data Spec_Data Spec_Usable Proof_Usable Examples_Usable.
Import ListNotations.
Open Scope list_scope.
Open Scope nat_scope.

(** ** C110 *)
(** In a model without filters, the criterion function can be created exactly if the columns
    have values of the model, the panel is complete, experience follows from choices, the
    first experience is a declared level and no experience exceeds the maximum. *)
Theorem C110_usable_data : forall sp csf grid ss nw lb categories data,
  wf_spec sp -> sp_nlags sp <= 1 -> sp_filters sp = [] -> labelled sp grid nw lb ->
  collision_free (create_core_state_space sp) csf grid ->
  create_state_space (sp_nperiods sp) (create_core_state_space sp) csf grid = Ok ss ->
  individuals_in_order data -> in_order data ->
  categories 1 = categories 0 -> incl (lb_choices lb) (categories 0) ->
  (forall r, In r data -> numbers_are_levels lb r) ->
  ((exists out, prepare_estimation lb sp csf grid categories data = Ok out) <->
   values_ok (info_of lb) data /\ complete_panel (info_of lb) data /\ experience_follows (info_of lb) data /\
   (forall r, In r data -> known_levels lb r) /\
   (forall r, In r data -> r_period r = 0%Z -> declared_start sp r) /\
   (forall r, In r data -> below_maximum sp r)).
Proof. exact usable_iff. Qed.
Print Assumptions C110_usable_data.

(** The check of the data alone accepts data which cannot be used. *)
Theorem C110_checked_data_are_usable_refuted : exists sp csf grid ss nw lb categories,
  wf_spec sp /\ sp_nlags sp <= 1 /\ sp_filters sp = [] /\ labelled sp grid nw lb /\
  collision_free (create_core_state_space sp) csf grid /\
  create_state_space (sp_nperiods sp) (create_core_state_space sp) csf grid = Ok ss /\
  (forall i, categories i = lb_choices lb) /\
  (exists data, individuals_in_order data /\ in_order data /\ (forall r, In r data -> numbers_are_levels lb r) /\
     check_estimation_data (info_of lb) categories data = Ok tt /\ (forall r, In r data -> known_levels lb r) /\
     prepare_estimation lb sp csf grid categories data = KeyError /\ exists r, In r data /\ r_period r = 0%Z /\ ~ declared_start sp r) /\
  (exists data, individuals_in_order data /\ in_order data /\ (forall r, In r data -> numbers_are_levels lb r) /\
     check_estimation_data (info_of lb) categories data = Ok tt /\ (forall r, In r data -> r_period r = 0%Z -> declared_start sp r) /\
     prepare_estimation lb sp csf grid categories data = KeyError /\ exists r, In r data /\ ~ below_maximum sp r) /\
  (exists data, individuals_in_order data /\ in_order data /\ (forall r, In r data -> numbers_are_levels lb r) /\
     check_estimation_data (info_of lb) categories data = Ok tt /\ (forall r, In r data -> r_period r = 0%Z -> declared_start sp r) /\
     (forall r, In r data -> below_maximum sp r) /\
     (forall x, prepare_estimation lb sp csf grid categories data <> Ok x) /\ exists r, In r data /\ ~ known_levels lb r).
Proof. exact us_checks_only. Qed.
Print Assumptions C110_checked_data_are_usable_refuted.

(** A choice which is not available in the last observed period is not noticed. *)
Theorem C110_observed_choices_are_available_refuted : exists sp csf grid ss nw lb categories data out r c,
  wf_spec sp /\ sp_nlags sp <= 1 /\ sp_filters sp = [] /\ labelled sp grid nw lb /\
  collision_free (create_core_state_space sp) csf grid /\
  create_state_space (sp_nperiods sp) (create_core_state_space sp) csf grid = Ok ss /\
  (forall i, categories i = lb_choices lb) /\
  prepare_estimation lb sp csf grid categories data = Ok out /\ In r data /\ In c (fst out) /\ same_meaning lb r c /\
  nth_error (csf (Some (cd_obs (snd c))) (cd_core (snd c))) (cd_choice (snd c)) = Some false.
Proof. exact us_unavailable. Qed.
Print Assumptions C110_observed_choices_are_available_refuted.

Example C110_example : wf_spec ex_sp /\ sp_nlags ex_sp <= 1 /\ sp_filters ex_sp = [] /\
  labelled ex_sp ex_grid (p_nwages (in_params ex_inp)) ex_labels /\
  collision_free (create_core_state_space ex_sp) us_csf ex_grid /\
  create_state_space (sp_nperiods ex_sp) (create_core_state_space ex_sp) us_csf ex_grid = Ok ex_ss /\
  individuals_in_order us_good /\ in_order us_good /\
  simulated_categories ex_labels 1 = simulated_categories ex_labels 0 /\
  incl (lb_choices ex_labels) (simulated_categories ex_labels 0) /\
  (forall r, In r us_good -> numbers_are_levels ex_labels r) /\
  exists out, prepare_estimation ex_labels ex_sp us_csf ex_grid (simulated_categories ex_labels) us_good = Ok out.
Proof. exact us_good_usable. Qed.
