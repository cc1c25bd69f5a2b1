(** Properties of initial experience, covariates of types, the location of observations, the
    check of a solution, the matrix of shocks and discounting: C81 to C86. *)
From Coq Require Import List Arith Bool Lia String Ascii Reals Lra ZArith Sorted.
From Verif Require Import Base Model_Strings Model_Cache Model_Choices Spec_Choices Model_CoreStateSpace Spec_CoreStateSpace
  Model_StateSpace Spec_StateSpace Spec_Solve Model_Simulate Model_Params Spec_Params
  Model_Processing Spec_Processing Proof_Processing Proof_ProcessingChecks Proof_ProcessingShocks
  Examples_Params Examples_Processing.
Import ListNotations.
Local Open Scope nat_scope.
Open Scope string_scope.

(** ** C81 *)

Theorem C81_levels_of_initial_experience : forall n params choice start m,
  (forall p, In p params -> word (p_category p)) -> well_named choice ->
  parse_experience n params choice = Ok (start, m) ->
  map fst start = map Number (numbers start) /\ StronglySorted lt (numbers start) /\
  (forall k, In k (numbers start) <-> initial_level params choice k).
Proof.
  exact (fun n params choice start m W G H =>
    match levels_ok n params choice W G start m H with conj a (conj b (conj c _)) => conj a (conj b c) end).
Qed.
Print Assumptions C81_levels_of_initial_experience.

Theorem C81_maximum_experience : forall n params choice start m,
  (forall p, In p params -> word (p_category p)) -> well_named choice ->
  parse_experience n params choice = Ok (start, m) -> maximum_of n params choice m.
Proof. exact maximum_ok. Qed.
Print Assumptions C81_maximum_experience.

Theorem C81_states_of_the_first_period : forall n lags with_exp choices params sp,
  (forall p, In p params -> word (p_category p)) ->
  (forall c, In c with_exp -> well_named c) -> List.length with_exp <= List.length choices -> 0 < n -> lags <= 1 ->
  (forall c k, In c with_exp -> initial_level params c k -> k < 256) ->
  (forall c start m, In c with_exp -> parse_experience n params c = Ok (start, m) -> (0 <= m < 256)%Z) ->
  core_spec_of n lags [] with_exp choices params = Ok sp ->
  exists maxima, Forall2 (maximum_of n params) with_exp maxima /\
  forall experience lagged,
    In (mkState 0 experience lagged) (create_core_state_space sp) <->
    Forall2 (initial_level params) with_exp experience /\
    Forall2 (fun e m => (Z.of_nat e <= m)%Z) experience maxima /\
    complete_lags lags (List.length choices) lagged.
Proof. exact first_period. Qed.
Print Assumptions C81_states_of_the_first_period.

(** Two levels and no declared maximum; a declared maximum of 2.5. *)
Example C81_example :
  (forall p, In p edu_params -> word (p_category p)) /\ well_named "edu" /\
  (exists start, parse_experience 3 edu_params "edu" = Ok (start, 3%Z) /\ numbers start = [0; 1]) /\
  core_spec_of 3 1 [] ["edu"] ["edu"; "home"] edu_params = Ok edu_spec /\
  (forall c k, In c ["edu"] -> initial_level edu_params c k -> k < 256) /\
  (forall c start m, In c ["edu"] -> parse_experience 3 edu_params c = Ok (start, m) -> (0 <= m < 256)%Z) /\
  parse_experience 10 max_params "edu" = Ok ([(Number 0, constant 0)], 2%Z).
Proof.
  split; [exact edu_word|]. split; [exact edu_named|]. split; [exact edu_parsed|]. split; [exact edu_core|].
  split; [|split; [exact edu_bounds|exact max_parsed]].
  intros c k [<-|[]] H. apply edu_level in H. lia.
Qed.

(** ** C82 *)

Theorem C82_covariates_of_types : forall n covariates,
  (forall i, 1 <= i < n -> dict_get string_dec ("type_" ++ dec i) (add_type_covariates n covariates) =
                           Some ("type == " ++ dec i)) /\
  (forall x, (forall i, 1 <= i < n -> x <> "type_" ++ dec i) ->
     dict_get string_dec x (add_type_covariates n covariates) = dict_get string_dec x covariates).
Proof. exact type_covariates_ok. Qed.
Print Assumptions C82_covariates_of_types.

Example C82_example :
  add_type_covariates 3 [("constant", "1"); ("type_1", "mine")] =
    [("constant", "1"); ("type_1", "type == 1"); ("type_2", "type == 2")] /\
  add_type_covariates 1 [("type_1", "mine")] = [("type_1", "mine")].
Proof. split; reflexivity. Qed.

(** ** C83 *)

Theorem C83_data_is_located_iff_in_the_model : forall sp csf grid ss data,
  collision_free (create_core_state_space sp) csf grid ->
  create_state_space (sp_nperiods sp) (create_core_state_space sp) csf grid = Ok ss ->
  ((exists x, locate_data sp csf grid data = Ok x) <->
   forall s dense, In (s, dense) data -> In s (create_core_state_space sp) /\ dense_known grid dense) /\
  ((exists x, locate_data sp csf grid data = Ok x) \/ locate_data sp csf grid data = KeyError).
Proof. exact locate_data_iff. Qed.
Print Assumptions C83_data_is_located_iff_in_the_model.

Theorem C83_undeclared_initial_experience_fails :
  forall n lags with_exp choices params sp csf grid ss data experience lagged dense,
  (forall p, In p params -> word (p_category p)) ->
  (forall c, In c with_exp -> well_named c) -> List.length with_exp <= List.length choices -> 0 < n -> lags <= 1 ->
  (forall c k, In c with_exp -> initial_level params c k -> k < 256) ->
  (forall c start m, In c with_exp -> parse_experience n params c = Ok (start, m) -> (0 <= m < 256)%Z) ->
  core_spec_of n lags [] with_exp choices params = Ok sp ->
  collision_free (create_core_state_space sp) csf grid ->
  create_state_space (sp_nperiods sp) (create_core_state_space sp) csf grid = Ok ss ->
  In (mkState 0 experience lagged, dense) data ->
  ~ Forall2 (initial_level params) with_exp experience ->
  locate_data sp csf grid data = KeyError.
Proof. exact undeclared_level. Qed.
Print Assumptions C83_undeclared_initial_experience_fails.

Theorem C83_warning_iff_levels_differ : forall sp csf grid data w locs i levels,
  locate_data sp csf grid data = Ok (w, locs) ->
  nth_error (sp_starts sp) i = Some levels -> StronglySorted lt levels ->
  (In i w <-> ~ (forall k, observed_level data i k <-> In k levels)).
Proof. exact warned_iff. Qed.
Print Assumptions C83_warning_iff_levels_differ.

(** Observations with one of the two levels, with both, and with an undeclared one. *)
Example C83_example :
  collision_free (create_core_state_space edu_spec) edu_csf [] /\
  create_state_space (sp_nperiods edu_spec) (create_core_state_space edu_spec) edu_csf [] = Ok edu_ss /\
  (exists locs, locate_data edu_spec edu_csf [] [(mkState 0 [1] [Some 0], []); (mkState 1 [1] [Some 1], [])] = Ok ([0], locs)) /\
  (exists locs, locate_data edu_spec edu_csf [] [(mkState 0 [1] [Some 0], []); (mkState 0 [0] [Some 0], [])] = Ok ([], locs)) /\
  ~ Forall2 (initial_level edu_params) ["edu"] [2] /\
  locate_data edu_spec edu_csf [] [(mkState 0 [2] [Some 0], [])] = KeyError.
Proof.
  split; [intros vec s1 s2 []|]. split; [exact edu_created|].
  split; [eexists; vm_compute; reflexivity|]. split; [eexists; vm_compute; reflexivity|].
  split; [|vm_compute; reflexivity].
  intros F. inversion F as [|? ? ? ? H _]; subst. apply edu_level in H. lia.
Qed.

(** ** C84 *)

Theorem C84_accepted_solutions : forall sp core indices finite,
  (forall s, In s core -> List.length (cs_lag s) = sp_nlags sp /\ List.length (cs_exp s) = List.length (sp_max sp)) ->
  (check_model_solution sp core indices finite = Ok tt <-> sound_solution sp core indices finite).
Proof. exact check_solution_iff. Qed.
Print Assumptions C84_accepted_solutions.

Theorem C84_created_state_spaces_are_accepted : forall sp csf grid ss, wf_spec sp -> sp_nlags sp <= 1 ->
  create_state_space (sp_nperiods sp) (create_core_state_space sp) csf grid = Ok ss ->
  check_model_solution sp (create_core_state_space sp) (List.length (ss_indexer ss)) true = Ok tt.
Proof. exact created_accepted. Qed.
Print Assumptions C84_created_state_spaces_are_accepted.

Theorem C84_two_lagged_choices_are_rejected : forall sp indices finite, wf_spec sp -> 2 <= sp_nlags sp ->
  create_core_state_space sp <> [] ->
  check_model_solution sp (create_core_state_space sp) indices finite <> Ok tt.
Proof. exact two_lags_rejected. Qed.
Print Assumptions C84_two_lagged_choices_are_rejected.

Example C84_example :
  wf_spec edu_spec /\ create_core_state_space edu_spec <> [] /\
  check_model_solution edu_spec [mkState 0 [4] [Some 0]] 1 true <> Ok tt /\
  check_model_solution edu_spec [mkState 0 [1] [Some 0]; mkState 0 [1] [Some 0]] 2 true <> Ok tt /\
  wf_spec two_lags /\ create_core_state_space two_lags <> [].
Proof.
  split; [unfold edu_spec; solve_wf|]. split; [vm_compute; discriminate|].
  split; [vm_compute; discriminate|]. split; [vm_compute; discriminate|].
  split; [unfold two_lags; solve_wf|vm_compute; discriminate].
Qed.

(** ** C85 *)

Theorem C85_matrix_of_the_shocks : forall choices params k, NoDup choices -> shocks_of_kind params k ->
  validate_shocks choices params = Ok tt ->
  matrix_of k params choices (shock_matrix k (List.length choices) params).
Proof. exact shock_matrix_ok. Qed.
Print Assumptions C85_matrix_of_the_shocks.

Example C85_example :
  NoDup ["a"; "b"; "c"] /\ shocks_of_kind shock_params Sdcorr /\ validate_shocks ["a"; "b"; "c"] shock_params = Ok tt /\
  shock_matrix Sdcorr 3 shock_params 1 1 = 4%R /\ shock_matrix Sdcorr 3 shock_params 2 1 = 0%R.
Proof.
  split; [repeat constructor; cbn; intuition discriminate|]. split; [exact shock_params_kind|].
  split; [reflexivity|].
  replace (shock_matrix Sdcorr 3 shock_params 1 1) with (2 * 1 * 2)%R by reflexivity.
  replace (shock_matrix Sdcorr 3 shock_params 2 1) with (3 * 0 * 2)%R by reflexivity. split; lra.
Qed.

(** ** C86 *)

Theorem C86_discount_factors : forall params delta beta, value_is params "delta" "delta" delta ->
  (value_is params "beta" "beta" beta \/ (beta = 1%R /\ forall v, ~ In ("beta", "beta", v) params)) ->
  parse_discounting params = Ok (delta, beta, (beta * delta)%R).
Proof. exact discounting_ok. Qed.
Print Assumptions C86_discount_factors.

Theorem C86_discount_factor_is_required : forall params, (forall v, ~ In ("delta", "delta", v) params) ->
  parse_discounting params = KeyError.
Proof. exact discounting_missing. Qed.
Print Assumptions C86_discount_factor_is_required.

Theorem C86_present_bias_favours_immediate_rewards : forall wages nonpecs conts draws beta delta j k,
  j < List.length wages -> k < List.length wages -> (0 <= beta <= 1)%R ->
  let flow i := (nth i wages 0 * nth i draws 0 + nth i nonpecs 0)%R in
  (nth k (value_functions wages nonpecs conts draws (beta * delta)) 0 <=
   nth j (value_functions wages nonpecs conts draws (beta * delta)) 0)%R ->
  (nth j (value_functions wages nonpecs conts draws delta) 0 <
   nth k (value_functions wages nonpecs conts draws delta) 0)%R ->
  (flow k <= flow j)%R.
Proof. exact bias_towards_present. Qed.
Print Assumptions C86_present_bias_favours_immediate_rewards.

(** Without present bias the second choice is better, with beta = 1/2 the first one. *)
Example C86_example :
  parse_discounting [("delta", "delta", (1/2)%R)] = Ok ((1/2)%R, 1%R, (1 * (1/2))%R) /\
  parse_discounting [("beta", "beta", (1/2)%R)] = KeyError /\
  let v b := (value_functions [3; 1] [0; 0] [0; 3] [1; 1] b)%R in
  (nth 1 (v (1/2 * 1)) 0 <= nth 0 (v (1/2 * 1)) 0 /\ nth 0 (v 1) 0 < nth 1 (v 1) 0)%R.
Proof.
  split; [reflexivity|]. split; [reflexivity|].
  cbv zeta. rewrite !value_functions_nth by (cbn; lia). cbn [nth]. lra.
Qed.
