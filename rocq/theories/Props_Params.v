(** Properties of the parsing of parameters: C51, C52, C53, C61, C75, C76, C77. *)
From Coq Require Import List Arith Bool Lia String Ascii Reals Lra Sorted.
From Verif Require Import Base Model_Strings Model_Cache Model_Choices Spec_Choices Spec_Solve Model_Params Spec_Params
  Proof_Params Proof_Types Proof_Names Proof_Shocknames Proof_ParamsMore Examples_Params.
Import ListNotations.
Open Scope string_scope.
Local Open Scope nat_scope.

(** ** C51 *)

Theorem C51_probabilities_are_reproduced : forall ext params,
  (exists p s, describes ext params p s) ->
  (forall p s, describes ext params p s -> p_name p = "probability") ->
  distinct_levels ext params ->
  (0 < group_total ext params)%R ->
  (forall p s, describes ext params p s -> (group_total ext params / MAX_FLOAT <= snd p)%R) ->
  exists c, parse_group ext params = Ok (Some c) /\
    StronglySorted level_lt (map fst c) /\
    (forall l, In l (map fst c) <-> exists p s, describes ext params p s /\ level_of ext params s l) /\
    (forall p s l, describes ext params p s -> level_of ext params s l ->
       logit_probability c l = (snd p / group_total ext params)%R).
Proof. exact probabilities_ok. Qed.
Print Assumptions C51_probabilities_are_reproduced.

Theorem C51_mixtures_are_rejected : forall ext params, parse_group ext params = ValueError <->
  (exists p s, describes ext params p s /\ p_name p = "probability") /\
  ((exists p s, describes ext params p s /\ p_name p <> "probability") \/ ~ distinct_levels ext params).
Proof. exact mixing. Qed.
Print Assumptions C51_mixtures_are_rejected.

Theorem C51_every_level_is_possible : forall ext params,
  (forall p s, describes ext params p s -> p_name p = "probability") ->
  distinct_levels ext params ->
  forall p s l, describes ext params p s -> level_of ext params s l ->
  exists c, parse_group ext params = Ok (Some c) /\ (0 < logit_probability c l)%R.
Proof. exact always_positive. Qed.
Print Assumptions C51_every_level_is_possible.

Theorem C51_zero_probability_refuted : exists ext params p s l c,
  (forall p s, describes ext params p s -> p_name p = "probability") /\ distinct_levels ext params /\
  group_total ext params = 1%R /\ (forall p s, describes ext params p s -> (0 <= snd p)%R) /\
  describes ext params p s /\ level_of ext params s l /\ snd p = 0%R /\
  parse_group ext params = Ok (Some c) /\ (0 < logit_probability c l)%R.
Proof. exact zero_refuted. Qed.
Print Assumptions C51_zero_probability_refuted.

Theorem C51_negative_rejected_refuted : exists ext params p s c,
  group_total ext params = 1%R /\ describes ext params p s /\ (snd p < 0)%R /\ parse_group ext params = Ok (Some c).
Proof. exact negative_refuted. Qed.
Print Assumptions C51_negative_rejected_refuted.

(** Initial experience is zero with probability 1/4 and one with probability 3/4. *)
Example c51_example : let params := exp_params (1/4) (3/4) in
  (exists p s, describes exp_ext params p s) /\
  (forall p s, describes exp_ext params p s -> p_name p = "probability") /\
  distinct_levels exp_ext params /\
  (0 < group_total exp_ext params)%R /\
  (forall p s, describes exp_ext params p s -> (group_total exp_ext params / MAX_FLOAT <= snd p)%R) /\
  exists c, parse_group exp_ext params = Ok (Some c) /\
  logit_probability c (Number 0) = (1/4)%R /\ logit_probability c (Number 1) = (3/4)%R.
Proof. exact exp_ok. Qed.
Example c51_mixture_example :
  parse_group exp_ext [("initial_exp_edu_0", "probability", 1%R); ("initial_exp_edu_1", "constant", 0%R)] = ValueError.
Proof.
  apply mixing. split.
  - exists ("initial_exp_edu_0", "probability", 1%R), "0". repeat split. left. reflexivity.
  - left. exists ("initial_exp_edu_1", "constant", 0%R), "1". repeat split; [right; left; reflexivity|discriminate].
Qed.

(** ** C52 *)

Theorem C52_same_levels_have_the_same_codes : forall exog obs merged e ec, merge_observables exog obs = Ok merged ->
  NoDup (map fst exog) -> NoDup (map fst obs) -> In (e, ec) exog -> StronglySorted level_lt (map fst ec) ->
  (forall c, In (e, c) obs -> StronglySorted level_lt (map fst c) /\ forall l, In l (map fst c) -> In l (map fst ec)) ->
  exists c', dict_get string_dec e merged = Some c' /\ map fst c' = map fst ec.
Proof. exact same_levels. Qed.
Print Assumptions C52_same_levels_have_the_same_codes.

Theorem C52_levels_of_observables : forall exog obs merged, merge_observables exog obs = Ok merged ->
  NoDup (map fst exog) -> NoDup (map fst obs) ->
  (forall e ec, In (e, ec) exog -> exists c, dict_get string_dec e merged = Some c /\
     (forall l, In l (map fst ec) -> In l (map fst c)) /\
     (~ In e (map fst obs) -> map fst c = map fst ec)) /\
  (forall o c, In (o, c) obs -> exists c', dict_get string_dec o merged = Some c' /\ map fst c' = map fst c).
Proof. exact merge_ok. Qed.
Print Assumptions C52_levels_of_observables.

Theorem C52_missing_levels_are_rejected : forall exog obs, NoDup (map fst exog) -> NoDup (map fst obs) ->
  (merge_observables exog obs = ValueError <->
   exists e ec c l, In (e, ec) exog /\ In (e, c) obs /\ In l (map fst ec) /\ ~ In l (map fst c)) /\
  (merge_observables exog obs = ValueError \/ exists merged, merge_observables exog obs = Ok merged).
Proof. exact merge_rejects. Qed.
Print Assumptions C52_missing_levels_are_rejected.

Theorem C52_additional_levels_refuted : exists exog obs merged e ec c l i j,
  merge_observables exog obs = Ok merged /\ NoDup (map fst exog) /\ NoDup (map fst obs) /\
  In (e, ec) exog /\ StronglySorted level_lt (map fst ec) /\
  dict_get string_dec e merged = Some c /\ StronglySorted level_lt (map fst c) /\
  nth_error (map fst ec) i = Some l /\ nth_error (map fst c) j = Some l /\ i <> j.
Proof. exact additional_levels. Qed.
Print Assumptions C52_additional_levels_refuted.

Example c52_example :
  let ec := [(Number 0, [("constant", 1%R)]); (Number 1, [("constant", 2%R)])] in
  let levels := [(Number 0, constant 0); (Number 1, constant 0)] in
  merge_observables [("illness", ec)] [("edu", levels)] = Ok [("edu", levels); ("illness", levels)] /\
  merge_observables [("illness", ec)] [("illness", [(Number 0, constant 0); (Number 2, constant 0)])] = ValueError.
Proof. split; reflexivity. Qed.

(** ** C53 *)

Theorem C53_accepted_iff_in_order : forall choices params k, NoDup choices -> shocks_of_kind params k ->
  (validate_shocks choices params = Ok tt <-> required_order k choices (shock_names params k)).
Proof. exact shocks_valid. Qed.
Print Assumptions C53_accepted_iff_in_order.

Theorem C53_the_order_is_unique : forall k choices names names',
  required_order k choices names -> required_order k choices names' -> names = names'.
Proof. exact order_unique. Qed.
Print Assumptions C53_the_order_is_unique.

Theorem C53_every_list_of_choices_has_an_order : forall choices k, NoDup choices -> exists names, required_order k choices names.
Proof. intros choices k N. eexists. exact (required_ok choices N k). Qed.
Print Assumptions C53_every_list_of_choices_has_an_order.

Theorem C53_kind_of_matrix : forall params k, shocks_of_kind params k -> shocks_kind (map p_category params) = Ok k.
Proof. exact shocks_kind_ok. Qed.
Print Assumptions C53_kind_of_matrix.

Theorem C53_two_kinds_are_rejected : forall categories k k', k <> k' -> In ("shocks_" ++ kind_name k) categories ->
  In ("shocks_" ++ kind_name k') categories -> shocks_kind categories = ValueError.
Proof. exact two_kinds. Qed.
Print Assumptions C53_two_kinds_are_rejected.

(** Three choices; the correlation of the first pair is misnamed in the second case. *)
Example c53_example :
  shocks_of_kind shock_params Sdcorr /\ NoDup ["a"; "b"; "c"] /\
  validate_shocks ["a"; "b"; "c"] shock_params = Ok tt /\
  validate_shocks ["b"; "a"; "c"] shock_params = OtherError /\
  validate_shocks ["a"; "b"] shock_params = ValueError /\
  shocks_kind ["shocks_cov"; "shocks_chol"] = ValueError.
Proof.
  split; [exact shock_params_kind|]. split; [repeat constructor; cbn; intuition discriminate|].
  repeat split; reflexivity.
Qed.

(** ** C61 *)

Theorem C61_without_measurement_errors : forall choices w params, ~ In "meas_error" (map p_category params) ->
  parse_measurement_errors choices w params = Ok (false, map (fun _ => 0%R) choices).
Proof. exact no_meas_error. Qed.
Print Assumptions C61_without_measurement_errors.

Theorem C61_all_measurement_errors : forall wages others params sds, In "meas_error" (map p_category params) ->
  Forall2 (fun c v => value_is params "meas_error" ("sd_" ++ c) v) wages sds ->
  parse_measurement_errors (wages ++ others)%list wages params = Ok (true, (sds ++ map (fun _ => 0%R) others)%list).
Proof. exact all_meas_errors. Qed.
Print Assumptions C61_all_measurement_errors.

Theorem C61_missing_measurement_errors_are_rejected : forall choices wages (params : list param) c,
  In "meas_error" (map p_category params) ->
  In c wages -> (forall v, ~ In ("meas_error", ("sd_" ++ c)%string, v) params) ->
  parse_measurement_errors choices wages params = KeyError.
Proof. exact missing_meas_error. Qed.
Print Assumptions C61_missing_measurement_errors_are_rejected.

Example c61_example :
  parse_measurement_errors ["a"; "b"; "home"] ["a"; "b"]
    [("meas_error", "sd_b", 2%R); ("delta", "delta", 1%R); ("meas_error", "sd_a", 3%R)] = Ok (true, [3%R; 2%R; 0%R]) /\
  parse_measurement_errors ["a"; "b"; "home"] ["a"; "b"] [("meas_error", "sd_b", 2%R)] = KeyError /\
  parse_measurement_errors ["a"; "b"; "home"] ["a"; "b"] [("delta", "delta", 1%R)] = Ok (false, [0%R; 0%R; 0%R]).
Proof. repeat split; reflexivity. Qed.

(** ** C75 *)

Theorem C75_number_of_types : forall params, (forall p, In p params -> word (p_name p)) ->
  (forall i, type_named params i -> i < infer_number_of_types params) /\
  (infer_number_of_types params = 1 \/ type_named params (infer_number_of_types params - 1)).
Proof. exact number_of_types. Qed.
Print Assumptions C75_number_of_types.

Theorem C75_baseline_type_is_rejected : forall params,
  In "type_0" (map p_category params) \/ In "type_0" (map p_name params) -> parse_types params = ValueError.
Proof. exact type_0_rejected. Qed.
Print Assumptions C75_baseline_type_is_rejected.

Theorem C75_types_without_probabilities_fail : forall params,
  ~ In "type_0" (map p_category params) -> ~ In "type_0" (map p_name params) ->
  2 <= infer_number_of_types params ->
  (forall p d, In p params -> p_category p = "type_" ++ d -> all_digits d = true -> False) ->
  (forall p, In p params -> word (p_category p)) ->
  parse_types params = OtherError.
Proof. exact types_without_probabilities. Qed.
Print Assumptions C75_types_without_probabilities_fail.

Theorem C75_baseline_type_has_probability_one_half : forall params n, n = infer_number_of_types params ->
  (forall p, In p params -> word (p_category p)) ->
  ~ In "type_0" (map p_category params) -> ~ In "type_0" (map p_name params) -> 2 <= n ->
  (forall p s, describes (extract "type_" is_digit) params p s -> p_name p = "probability") ->
  distinct_levels (extract "type_" is_digit) params ->
  (forall i, 1 <= i < n <-> exists p s, describes (extract "type_" is_digit) params p s /\ digits_value 0 s = i) ->
  (0 < group_total (extract "type_" is_digit) params)%R ->
  (forall p s, describes (extract "type_" is_digit) params p s ->
     (group_total (extract "type_" is_digit) params / MAX_FLOAT <= snd p)%R) ->
  exists c, parse_types params = Ok (n, Some c) /\
    map fst c = map Number (seq 0 n) /\
    logit_probability c (Number 0) = (1 / 2)%R /\
    (forall p s, describes (extract "type_" is_digit) params p s ->
       logit_probability c (Number (digits_value 0 s)) = (snd p / group_total (extract "type_" is_digit) params / 2)%R).
Proof. exact type_probabilities. Qed.
Print Assumptions C75_baseline_type_has_probability_one_half.

(** Types 1 and 2 with probabilities 1/4 and 3/4. *)
Example c75_example :
  infer_number_of_types type_params = 3 /\
  (forall p, In p type_params -> word (p_category p)) /\
  (forall p, In p type_params -> word (p_name p)) /\
  ~ In "type_0" (map p_category type_params) /\ ~ In "type_0" (map p_name type_params) /\
  (forall p s, describes (extract "type_" is_digit) type_params p s -> p_name p = "probability") /\
  distinct_levels (extract "type_" is_digit) type_params /\
  (forall i, 1 <= i < 3 <-> exists p s, describes (extract "type_" is_digit) type_params p s /\ digits_value 0 s = i) /\
  (0 < group_total (extract "type_" is_digit) type_params)%R /\
  (forall p s, describes (extract "type_" is_digit) type_params p s ->
     (group_total (extract "type_" is_digit) type_params / MAX_FLOAT <= snd p)%R).
Proof. exact type_ok. Qed.
Example c75_errors_example :
  parse_types [("wage_a", "type_1", 2%R)] = OtherError /\
  parse_types [("wage_a", "type_0", 2%R)] = ValueError /\
  parse_types [("wage_a", "constant", 2%R)] = Ok (1, None).
Proof. repeat split; reflexivity. Qed.

(** ** C76 *)

Theorem C76_names_are_recovered : forall keyword categories rows,
  filter (prefix (keyword ++ "_")) categories = map (observable_category keyword) rows -> simple_rows rows ->
  (forall a b, In a (map fst rows) -> In b (map fst rows) -> substring a b -> a = b) ->
  exists r, parse_names keyword categories = Ok r /\ lists_alphabetically r (fun n => In n (map fst rows)).
Proof. exact names_ok. Qed.
Print Assumptions C76_names_are_recovered.

Theorem C76_names_within_names_are_rejected : forall keyword categories rows,
  filter (prefix (keyword ++ "_")) categories = map (observable_category keyword) rows -> simple_rows rows ->
  forall a b, In a (map fst rows) -> In b (map fst rows) -> a <> b -> substring a b ->
  parse_names keyword categories = ValueError.
Proof. exact substring_names_error. Qed.
Print Assumptions C76_names_within_names_are_rejected.

Theorem C76_single_levels_refuted : exists rows,
  (forall n l, In (n, l) rows -> proper_name n /\ ~ substring "_" l) /\ NoDup (map fst rows) /\
  (forall a b, In a (map fst rows) -> In b (map fst rows) -> substring a b -> a = b) /\
  exists r, parse_names "observable" (map (observable_category "observable") rows) = Ok r /\
    exists n, In n r /\ ~ In n (map fst rows).
Proof. exact single_levels. Qed.
Print Assumptions C76_single_levels_refuted.

Example c76_example :
  let rows := [("edu", "low"); ("edu", "high"); ("father_job", "0"); ("father_job", "1")] in
  simple_rows rows /\
  (forall a b, In a (map fst rows) -> In b (map fst rows) -> substring a b -> a = b) /\
  parse_names "observable" ("delta" :: map (observable_category "observable") rows) = Ok ["edu"; "father_job"] /\
  parse_names "observable" ["observable_edu_0"; "observable_edu_1"; "observable_edu_father_0"; "observable_edu_father_1"] = ValueError.
Proof. exact names_example. Qed.

(** ** C77 *)

Theorem C77_number_of_lagged_choices : forall covariates,
  (forall c f i, In (c, f) covariates -> mentions_lag f i -> i <= number_of_lags covariates) /\
  (number_of_lags covariates = 0 \/
   exists c f, In (c, f) covariates /\ mentions_lag f (number_of_lags covariates)).
Proof. exact lags_ok. Qed.
Print Assumptions C77_number_of_lagged_choices.

Theorem C77_codes_of_lagged_choices : forall choices params lag c,
  parse_lag choices params lag = Ok c -> exists l, map fst c = (map Label choices ++ l)%list.
Proof. exact lag_codes. Qed.
Print Assumptions C77_codes_of_lagged_choices.

Theorem C77_only_choices : forall choices params lag c,
  parse_lag choices params lag = Ok c ->
  (forall p s, describes (search ("lagged_choice_" ++ dec lag ++ "_") is_name) params p s -> In s choices) ->
  map fst c = map Label choices.
Proof. exact lag_known. Qed.
Print Assumptions C77_only_choices.

Theorem C77_unknown_labels_get_a_code : forall choices params lag c p s,
  parse_lag choices params lag = Ok c ->
  describes (search ("lagged_choice_" ++ dec lag ++ "_") is_name) params p s -> ~ In s choices ->
  exists i, List.length choices <= i /\ nth_error (map fst c) i = Some (Label s).
Proof. exact lag_unknown. Qed.
Print Assumptions C77_unknown_labels_get_a_code.

Theorem C77_unknown_labels_rejected_refuted : exists choices params lag c p s,
  describes (search ("lagged_choice_" ++ dec lag ++ "_") is_name) params p s /\ ~ In s choices /\
  parse_lag choices params lag = Ok c.
Proof. exact unknown_labels. Qed.
Print Assumptions C77_unknown_labels_rejected_refuted.

Example c77_example :
  number_of_lags [("not_last", "lagged_choice_1 != edu"); ("twice", "lagged_choice_1 == edu and lagged_choice_12 == edu")] = 12 /\
  (exists c, parse_lag ["a"; "edu"; "home"] [("lagged_choice_1_edu", "constant", 1%R)] 1 = Ok c /\
     map fst c = [Label "a"; Label "edu"; Label "home"]) /\
  (exists c, parse_lag ["a"; "edu"; "home"] [("lagged_choice_1_eud", "constant", 1%R)] 1 = Ok c /\
     nth_error (map fst c) 3 = Some (Label "eud")).
Proof.
  split; [vm_compute; reflexivity|]. split; eexists; (split; [reflexivity|reflexivity]).
Qed.
