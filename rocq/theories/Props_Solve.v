(** Property theorems: solution of the model. *)
From Coq Require Import List Arith Bool Reals Lra Lia.
From Verif Require Import Base Proof_Base Model_CoreStateSpace Spec_CoreStateSpace
  Proof_CoreStateSpace Model_StateSpace Spec_StateSpace Proof_StateSpace Props_StateSpace
  Model_Solve Spec_Solve Proof_Solve Proof_Value Proof_Shocks Proof_SolveProps Model_Calls Proof_Calls
  Examples_Solve.
Import ListNotations.
Open Scope R_scope.

(** ** C10 *)
Theorem C10_solution_is_recursive_value : forall sp neg k grid ss inp ev0,
  standard_model sp neg k grid ss inp -> p_delta (in_params inp) <> 0 -> ev_shape ss ev0 ->
  exists ev, solve_with_backward_induction ss inp ev0 = Ok ev /\
    forall s d ctx, In s (create_core_state_space sp) -> dense_combination grid d ctx ->
      forall v, value_at ss ev s d v <->
        v = value (problem_of sp neg k inp ctx) (p_delta (in_params inp))
                  (sp_nperiods sp - cs_period s) s.
Proof. exact solve_model. Qed.
Print Assumptions C10_solution_is_recursive_value.

(** The same for any state space (not only those of C01). *)
Theorem C10_solution_of_any_state_space : forall nchoices nperiods core csf grid ss inp,
  NoDup core -> closed_under_choices nperiods core csf -> collision_free core csf grid ->
  create_state_space nperiods core csf grid = Ok ss -> wf_inputs nchoices csf inp ->
  (forall s, In s core -> (cs_period s < nperiods)%nat) ->
  (forall p, solved_exactly ss (in_points inp) p) ->
  p_delta (in_params inp) <> 0 ->
  forall ev0, ev_shape ss ev0 ->
  exists ev, solve_with_backward_induction ss inp ev0 = Ok ev /\ ev_shape ss ev /\
    forall k r s d ctx, located ss k r s d -> dense_combination grid d ctx ->
      exists arr, nth_error ev k = Some arr /\
        nth_error arr r = Some (value (model_problem csf inp ctx) (p_delta (in_params inp))
                                      (nperiods - cs_period s) s).
Proof. exact backward_induction. Qed.
Print Assumptions C10_solution_of_any_state_space.

(** Myopic individuals: the stored expected value functions are zero. *)
Theorem C10_myopic_values_are_zero : forall nperiods core csf grid ss inp ev0,
  collision_free core csf grid -> create_state_space nperiods core csf grid = Ok ss ->
  (forall s, In s core -> (cs_period s < nperiods)%nat) ->
  p_delta (in_params inp) = 0 -> ev_shape ss ev0 ->
  exists ev, solve_with_backward_induction ss inp ev0 = Ok ev /\
    forall k arr v, nth_error ev k = Some arr -> In v arr -> v = 0.
Proof. exact solve_myopic. Qed.
Print Assumptions C10_myopic_values_are_zero.

(** The arrays created with the state space have the required shape. *)
Theorem C10_initial_arrays : forall ss, ev_shape ss (initial_ev ss).
Proof. exact initial_ev_shape. Qed.
Print Assumptions C10_initial_arrays.

Example C10_example :
  standard_model ex_sp (fun _ => None) 0 ex_grid ex_ss ex_inp /\
  p_delta (in_params ex_inp) <> 0 /\ ev_shape ex_ss (initial_ev ex_ss) /\
  In (mkState 1 [0%nat] []) (create_core_state_space ex_sp) /\
  dense_combination ex_grid (Some 1%nat) (Some [1%nat]).
Proof.
  split; [exact ex_standard|]. split; [simpl; lra|]. split; [apply initial_ev_shape|].
  split; [apply (in_by_compute _ core_state_eq_dec); vm_compute; reflexivity|].
  exists [1%nat]. split; reflexivity.
Qed.
(** In the one-period model with reward [a] the value is [a]. *)
Example C10_example_value : solve_with_backward_induction one_ss (one_inp 3) (initial_ev one_ss) = Ok [[3]].
Proof. apply one_value; [lra|apply initial_ev_shape]. Qed.

(** ** C11 *)
Theorem C11_average_of_maximum : forall wages nonpecs conts draws delta,
  same_lengths wages nonpecs conts draws -> wages <> [] ->
  (forall e, In e draws -> exists v, In v (choice_values wages nonpecs conts delta e) /\ 0 <= v) ->
  emax wages nonpecs conts draws delta =
  mean (map (fun e => maximum (choice_values wages nonpecs conts delta e)) draws).
Proof. exact emax_average. Qed.
Print Assumptions C11_average_of_maximum.

Theorem C11_strictly_larger_if_all_negative : forall wages nonpecs conts draws delta e,
  same_lengths wages nonpecs conts draws -> wages <> [] -> In e draws ->
  (forall v, In v (choice_values wages nonpecs conts delta e) -> v < 0) ->
  mean (map (fun e => maximum (choice_values wages nonpecs conts delta e)) draws) <
  emax wages nonpecs conts draws delta.
Proof. exact emax_too_large. Qed.
Print Assumptions C11_strictly_larger_if_all_negative.

Example C11_example :
  same_lengths [1; 1] [-1; -2] [0; 0] [[0; 0]] /\ In [0; 0] [[0; 0]] /\
  (forall v, In v (choice_values [1; 1] [-1; -2] [0; 0] 1 [0; 0]) -> v < 0) /\
  (forall e, In e [[2; 0]] -> exists v, In v (choice_values [1; 1] [-1; -2] [0; 0] 1 e) /\ 0 <= v).
Proof.
  split; [split; [reflexivity|split; [reflexivity|]]; intros e [<-|[]]; reflexivity|].
  split; [left; reflexivity|]. split.
  - cbn. intros v [<-|[<-|[]]]; lra.
  - intros e [<-|[]]. exists (1 * 2 + -1 + 1 * 0). split; [left; reflexivity|lra].
Qed.

(** ** C12 *)
Theorem C12_values_nonnegative : forall sp neg k grid ss inp ev0 ev s d ctx v,
  standard_model sp neg k grid ss inp -> ev_shape ss ev0 ->
  solve_with_backward_induction ss inp ev0 = Ok ev ->
  In s (create_core_state_space sp) -> dense_combination grid d ctx -> value_at ss ev s d v ->
  0 <= v.
Proof. exact stored_nonneg. Qed.
Print Assumptions C12_values_nonnegative.

Theorem C12_values_monotone : forall sp neg k grid ss inp inp' ev0 ev0' ev ev' s d ctx v v',
  standard_model sp neg k grid ss inp -> standard_model sp neg k grid ss inp' ->
  rewards_ordered inp inp' ->
  0 <= p_delta (in_params inp) <= p_delta (in_params inp') ->
  ev_shape ss ev0 -> ev_shape ss ev0' ->
  solve_with_backward_induction ss inp ev0 = Ok ev ->
  solve_with_backward_induction ss inp' ev0' = Ok ev' ->
  In s (create_core_state_space sp) -> dense_combination grid d ctx ->
  value_at ss ev s d v -> value_at ss ev' s d v' -> v <= v'.
Proof. exact stored_monotone. Qed.
Print Assumptions C12_values_monotone.

Theorem C12_values_lipschitz : forall sp neg k grid ss inp inp' ev0 ev0' ev ev' s d ctx v v' eps,
  standard_model sp neg k grid ss inp -> standard_model sp neg k grid ss inp' ->
  p_delta (in_params inp) = p_delta (in_params inp') -> 0 <= p_delta (in_params inp) -> 0 <= eps ->
  flows_within eps (problem_of sp neg k inp ctx) (problem_of sp neg k inp' ctx) ->
  ev_shape ss ev0 -> ev_shape ss ev0' ->
  solve_with_backward_induction ss inp ev0 = Ok ev ->
  solve_with_backward_induction ss inp' ev0' = Ok ev' ->
  In s (create_core_state_space sp) -> dense_combination grid d ctx ->
  value_at ss ev s d v -> value_at ss ev' s d v' ->
  Rabs (v - v') <= eps * geometric (p_delta (in_params inp)) (sp_nperiods sp - cs_period s).
Proof. exact stored_lipschitz. Qed.
Print Assumptions C12_values_lipschitz.

(** Removing choices (with the shocks of the remaining ones unchanged) never helps. *)
Theorem C12_more_choices : forall m wages nonpecs conts draws delta,
  same_lengths wages nonpecs conts draws -> length m = length wages ->
  emax (compress m wages) (compress m nonpecs) (compress m conts) (map (compress m) draws) delta <=
  emax wages nonpecs conts draws delta.
Proof. exact emax_more_choices. Qed.
Print Assumptions C12_more_choices.

Example C12_example : rewards_ordered (one_inp 1) (one_inp 2) /\
  flows_within 1 (problem_of one_sp one_neg 0 (one_inp 1) None)
                 (problem_of one_sp one_neg 0 (one_inp 2) None) /\
  standard_model one_sp one_neg 0 [] one_ss (one_inp 1) /\
  standard_model one_sp one_neg 0 [] one_ss (one_inp 2).
Proof.
  split; [|split; [|split; apply one_standard]].
  - repeat split; intros; simpl; unfold wage_of, nonpec_of, linear_index; simpl; lra || lia.
  - split; [reflexivity|]. intros s. cbn. constructor; [|constructor]. constructor; [|constructor].
    unfold wage_of, nonpec_of, linear_index. cbn.
    match goal with |- Rabs ?x <= 1 => replace x with (-1) by lra end.
    unfold Rabs. destruct (Rcase_abs (-1)); lra.
Qed.

(** ** C13 *)
Theorem C13_no_rule_is_better : forall sp neg k grid ss inp ev0 ev s d ctx v,
  standard_model sp neg k grid ss inp -> 0 < p_delta (in_params inp) -> ev_shape ss ev0 ->
  solve_with_backward_induction ss inp ev0 = Ok ev ->
  In s (create_core_state_space sp) -> dense_combination grid d ctx -> value_at ss ev s d v ->
  let n := (sp_nperiods sp - cs_period s)%nat in
  (forall pi, payoff (problem_of sp neg k inp ctx) (p_delta (in_params inp)) pi n [] s <= v) /\
  (forall pi, greedy (problem_of sp neg k inp ctx) (p_delta (in_params inp)) n pi ->
     payoff (problem_of sp neg k inp ctx) (p_delta (in_params inp)) pi n [] s = v).
Proof. exact stored_optimal. Qed.
Print Assumptions C13_no_rule_is_better.

Theorem C13_best_rule_exists : forall S (pb : problem S) delta n, exists pi, greedy pb delta n pi.
Proof. exact (fun S pb delta n => ex_intro _ _ (greedy_rule_greedy S pb delta n)). Qed.
Print Assumptions C13_best_rule_exists.

Theorem C13_best_rule_never_opts_out : forall S (pb : problem S) delta n,
  never_negative pb delta n ->
  exists pi, greedy pb delta n pi /\
    forall h s i, (length h < n)%nat -> (i < length (pb_flows pb s))%nat -> pi h s i <> None.
Proof. exact best_rule_without_opting_out. Qed.
Print Assumptions C13_best_rule_never_opts_out.

Example C13_example : standard_model ex_sp (fun _ => None) 0 ex_grid ex_ss ex_inp /\
  0 < p_delta (in_params ex_inp) /\
  never_negative (problem_of one_sp one_neg 0 (one_inp 2) None) 1 1.
Proof.
  split; [exact ex_standard|]. split; [simpl; lra|].
  intros s u m Hu Hm. cbn in Hu. destruct Hu as [<-|[]].
  assert (m = 0)%nat by lia. subst m. eexists. split; [left; reflexivity|]. cbn.
  unfold wage_of, nonpec_of, linear_index. cbn. lra.
Qed.

(** ** C14 *)
Theorem C14_history_irrelevant : forall nperiods core csf grid ss inp h1 h2 hist1 hist2,
  create_state_space nperiods core csf grid = Ok ss ->
  (forall s, In s core -> (cs_period s < nperiods)%nat) -> interp_keys ss inp ->
  let g1 := get_solve_func ss h1 in let g2 := get_solve_func ss h2 in
  let c1 := solve_call ss inp (fst (solve_calls ss hist1 (fst g1) (snd g1))) (snd g1) in
  let c2 := solve_call ss inp (fst (solve_calls ss hist2 (fst g2) (snd g2))) (snd g2) in
  (result_bind (snd c1) (fun _ => Ok tt) = result_bind (snd c2) (fun _ => Ok tt)) /\
  (forall a1 a2, snd c1 = Ok a1 -> snd c2 = Ok a2 ->
     nth_error (fst c1) a1 = nth_error (fst c2) a2).
Proof. exact history_irrelevant. Qed.
Print Assumptions C14_history_irrelevant.

Theorem C14_other_objects_untouched : forall ss inps h a b, a <> b ->
  nth_error (fst (solve_calls ss inps h a)) b = nth_error h b.
Proof. exact solve_calls_other. Qed.
Print Assumptions C14_other_objects_untouched.

Theorem C14_calls_return_the_same_object : forall ss inp1 inp2 h a r1 r2,
  snd (solve_call ss inp1 h a) = Ok r1 ->
  snd (solve_call ss inp2 (fst (solve_call ss inp1 h a)) a) = Ok r2 -> r1 = r2.
Proof. exact earlier_results_alias. Qed.
Print Assumptions C14_calls_return_the_same_object.

(** An earlier result does not keep its values: it shows those of the later call. *)
Theorem C14_earlier_results_keep_values_refuted :
  exists ss inp1 inp2, let g := get_solve_func ss [] in
    let c1 := solve_call ss inp1 (fst g) (snd g) in
    let c2 := solve_call ss inp2 (fst c1) (snd g) in
    exists r, snd c1 = Ok r /\ snd c2 = Ok r /\
      nth_error (fst c1) r = Some [[1]] /\ nth_error (fst c2) r = Some [[2]].
Proof.
  exists one_ss, (one_inp 1), (one_inp 2). cbv zeta. exists 0%nat.
  assert (E1 : solve_call one_ss (one_inp 1) (fst (get_solve_func one_ss [])) 0
               = (set_nth 0 [[1]] [initial_ev one_ss], Ok 0%nat)).
  { apply (solve_call_pure _ _ _ _ (initial_ev one_ss)); [reflexivity|].
    apply one_value; [lra|apply initial_ev_shape]. }
  change (snd (get_solve_func one_ss [])) with 0%nat. rewrite E1. cbn [fst snd].
  assert (E2 : solve_call one_ss (one_inp 2) (set_nth 0 [[1]] [initial_ev one_ss]) 0
               = (set_nth 0 [[2]] (set_nth 0 [[1]] [initial_ev one_ss]), Ok 0%nat)).
  { apply (solve_call_pure _ _ _ _ [[1]]); [reflexivity|].
    apply one_value; [lra|]. split; [reflexivity|].
    intros k arr inds H1 H2. destruct k as [|k]; [|destruct k; discriminate].
    injection H1 as <-. vm_compute in H2. injection H2 as <-. reflexivity. }
  rewrite E2. repeat split; reflexivity.
Qed.
Print Assumptions C14_earlier_results_keep_values_refuted.

Example C14_example : interp_keys ex_ss ex_inp /\
  create_state_space 3 (create_core_state_space ex_sp) ex_csf ex_grid = Ok ex_ss /\
  (forall s, In s (create_core_state_space ex_sp) -> (cs_period s < 3)%nat).
Proof.
  split; [intros p conts vals _ H; discriminate|]. split; [exact ex_ss_created|].
  intros s H. apply (core_periods ex_sp); [exact ex_sp_wf|simpl; lia|exact H].
Qed.

(** ** C17 *)
Theorem C17_wages_and_nonpecs : forall states choices cs p r x,
  length cs = length choices -> nth_error states r = Some x ->
  let wn := create_choice_rewards states choices cs p in
  nth_error (fst wn) r = Some (map (wage_of p x) (compress cs choices)) /\
  nth_error (snd wn) r = Some (map (nonpec_of p x) (compress cs choices)).
Proof. exact choice_rewards_rows. Qed.
Print Assumptions C17_wages_and_nonpecs.

Theorem C17_one_row_per_state : forall states choices cs p,
  let wn := create_choice_rewards states choices cs p in
  length (fst wn) = length states /\ length (snd wn) = length states.
Proof. exact length_choice_rewards. Qed.
Print Assumptions C17_one_row_per_state.

Example C17_example :
  snd (create_choice_rewards [fun _ => 1; fun _ => 2] [0; 1; 2]%nat [true; false; true]
         (mkParams (fun _ => None) (fun c => if Nat.eqb c 2 then Some [(0%nat, 3)] else None) 1 [] 0))
  = [[0; 0 + 3 * 1]; [0; 0 + 3 * 2]].
Proof. reflexivity. Qed.

(** ** C18 *)
Theorem C18_right_covariance_iff : forall n L cs, square n L -> length cs = n ->
  (right_covariance L cs <-> forall c u, available cs c -> unavailable cs u -> mat L c u = 0).
Proof. exact covariance_iff. Qed.
Print Assumptions C18_right_covariance_iff.

Theorem C18_unavailable_choices_last : forall n L cs, square n L -> length cs = n ->
  lower_triangular L -> (forall c u, available cs c -> unavailable cs u -> (c < u)%nat) ->
  right_covariance L cs.
Proof. exact covariance_prefix. Qed.
Print Assumptions C18_unavailable_choices_last.

Theorem C18_uncorrelated_choices : forall n L cs, square n L -> length cs = n ->
  lower_triangular L -> (forall i, (i < n)%nat -> mat L i i <> 0) ->
  (forall c u, available cs c -> unavailable cs u -> cov_entry L c u = 0) ->
  right_covariance L cs.
Proof. exact covariance_uncorrelated. Qed.
Print Assumptions C18_uncorrelated_choices.

Theorem C18_variance_never_larger : forall n L cs a i, square n L -> length cs = n ->
  nth_error (positions cs) a = Some i ->
  cov_entry (subset_cholesky L cs) a a <= cov_entry L i i.
Proof. exact variance_never_larger. Qed.
Print Assumptions C18_variance_never_larger.

Theorem C18_correlated_unavailable_choice_refuted :
  exists n L cs, square n L /\ length cs = n /\ lower_triangular L /\
    cov_entry L 1 1 = 2 /\ nth_error (positions cs) 0 = Some 1%nat /\
    cov_entry (subset_cholesky L cs) 0 0 = 1.
Proof.
  exists 2%nat, [[1; 0]; [1; 1]], [false; true].
  split; [split; [reflexivity|]; intros row [<-|[<-|[]]]; reflexivity|].
  split; [reflexivity|]. split.
  - intros [|[|i]] [|[|j]] H; try lia; unfold mat; simpl; try reflexivity;
      try (destruct i); destruct j; reflexivity.
  - unfold cov_entry. cbn. repeat split; lra.
Qed.
Print Assumptions C18_correlated_unavailable_choice_refuted.

Example C18_example : square 3 [[1; 0; 0]; [0; 1; 0]; [1; 0; 1]] /\
  right_covariance [[1; 0; 0]; [0; 1; 0]; [1; 0; 1]] [true; false; true].
Proof.
  assert (S : square 3 [[1; 0; 0]; [0; 1; 0]; [1; 0; 1]])
    by (split; [reflexivity|]; intros row [<-|[<-|[<-|[]]]]; reflexivity).
  split; [exact S|]. apply (covariance_iff 3); [exact S|reflexivity|].
  intros [|[|[|c]]] [|[|[|u]]] Hc Hu; try discriminate; try reflexivity;
    try (destruct c; discriminate); destruct u; discriminate.
Qed.

(** ** C19 *)
Theorem C19_transformed_draws : forall n p cs draws i draw j c,
  square n (p_chol p) -> length cs = n -> nth_error draws i = Some draw ->
  nth_error (positions cs) j = Some c ->
  exists e, nth_error (transform_draws draws cs p) i = Some e /\
    length e = count_true cs /\
    nth_error e j = Some (if (c <? p_nwages p)%nat
                          then exp (clip (- max_log_float) max_log_float (correlated (p_chol p) cs draw c))
                          else correlated (p_chol p) cs draw c).
Proof. exact transform_draw_spec. Qed.
Print Assumptions C19_transformed_draws.

Theorem C19_wage_shocks_positive_and_bounded : forall x,
  0 < exp (clip (- max_log_float) max_log_float x) <= exp max_log_float.
Proof. exact exp_clip_bounds. Qed.
Print Assumptions C19_wage_shocks_positive_and_bounded.

Example C19_example : positions [false; true; true] = [1; 2]%nat /\
  square 3 [[1; 0; 0]; [0; 1; 0]; [1; 0; 1]] /\
  correlated [[1; 0; 0]; [0; 1; 0]; [1; 5; 1]] [false; true; true] [2; 3] 2 = 2 * 5 + (3 * 1 + 0).
Proof.
  split; [reflexivity|].
  split; [split; [reflexivity|]; intros row [<-|[<-|[<-|[]]]]; reflexivity|]. reflexivity.
Qed.
