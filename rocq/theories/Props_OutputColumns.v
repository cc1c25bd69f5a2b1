(** Property of the columns of the simulated data: C101. *)
From Coq Require Import List Arith Bool String Reals Lia Lra Permutation.
From Verif Require Import Base Model_CoreStateSpace Model_StateSpace Model_Solve Spec_Solve
  Model_Parallel Model_Simulate Spec_Simulate Model_Choices Spec_Choices
  Model_OutputColumns Spec_OutputColumns Proof_OutputColumns Examples_OutputColumns.
Import ListNotations.
Open Scope string_scope.

(** ** C101 *)

Theorem C101_columns_of_simulated_data : forall k, NoDup (k_choices k) ->
  square (List.length (k_choices k)) (p_chol (k_params k)) -> forall periods,
  (forall groups g i e, In groups periods -> In g groups -> In (i, e) (g_rows g) -> complete k g e) ->
  kept_apart (all_columns k periods) ->
  exists out, output_columns k periods = Ok out /\
    Permutation (map fst out) (flat_map (flat_map (fun g => map fst (g_rows g))) periods) /\
    forall groups g i e, In groups periods -> In g groups -> In (i, e) (g_rows g) ->
      exists r, In (i, r) out /\
        account (k_choices k) (k_params k) (k_beta k) (g_choice_set g) (e_shocks e) (e_meas e)
          (fun n => cell_of r (rename_labels_from_internal n)) /\
        forall n, In n (map fst (e_state e)) -> cell_of r (rename_labels_from_internal n) = cell_of (e_state e) n.
Proof. exact output_spec. Qed.
Print Assumptions C101_columns_of_simulated_data.

(** Choice, wage and value functions are those of the simulated panel (C20-C22). *)
Theorem C101_columns_of_the_panel : forall k g e, NoDup (k_choices k) -> complete k g e ->
  forall si next cx i x o, si_params si = k_params k -> si_beta si = k_beta k ->
  NoDup (si_choices si) -> List.length (si_choices si) = List.length (k_choices k) -> cx_choice_set cx = g_choice_set g ->
  simulate_row si next cx (g_wages g) (g_nonpecs g) (g_conts g) i
    (mkRow x (e_key e) (e_index e) (e_shocks e) (e_meas e)) = Ok o ->
  exists r, single_row k (g_choice_set g) (g_wages g) (g_nonpecs g) (g_conts g) (prepare (k_choices k) e) = Ok r /\
    cell_of r "choice" = Code (o_choice o) /\
    cell_of r "wage" = match o_wage o with Some w => Num w | None => Missing end /\
    forall j c y, nth_error (positions (g_choice_set g)) j = Some c -> nth_error (k_choices k) c = Some y ->
      cell_of r ("value_function_" ++ y) = Num (nth j (o_values o) 0%R).
Proof. exact same_outcome. Qed.
Print Assumptions C101_columns_of_the_panel.

Theorem C101_names_stay_different : forall columns,
  (forall a, In a columns -> no_upper a /\ exp_starts_words a) -> kept_apart columns.
Proof. exact kept_apart_lower. Qed.
Print Assumptions C101_names_stay_different.

Theorem C101_wage_of_recorded_choice_refuted : exists k g e r c x,
  NoDup (k_choices k) /\ square (List.length (k_choices k)) (p_chol (k_params k)) /\ complete k g e /\
  single_row k (g_choice_set g) (g_wages g) (g_nonpecs g) (g_conts g) (prepare (k_choices k) e) = Ok r /\
  cell_of r "choice" = Code c /\ nth_error (k_choices k) c = Some x /\
  cell_of r "wage" <> cell_of r ("wage_" ++ x).
Proof.
  exact (match oc_other_wage with ex_intro _ r (ex_intro _ c (ex_intro _ x H)) =>
    ex_intro _ oc_constants (ex_intro _ oc_group (ex_intro _ oc_entrant (ex_intro _ r (ex_intro _ c (ex_intro _ x
      (conj oc_names (conj oc_square (conj (oc_complete [oc_group] oc_group _ _ (or_introl eq_refl) (or_introl eq_refl) (or_introl eq_refl)) H)))))))) end).
Qed.
Print Assumptions C101_wage_of_recorded_choice_refuted.

Theorem C101_states_with_names_of_columns_refuted : exists k cs w n c e r,
  In "wage" (map fst (e_state e)) /\
  single_row k cs w n c (prepare (k_choices k) e) = Ok r /\
  cell_of r "wage" <> cell_of (e_state e) "wage".
Proof.
  exists oc_single, [true], [[1]]%R, [[0]]%R, [[0]]%R, (mkEntrant [("wage", Code 1)] [0]%R [1]%R 0 0).
  destruct oc_overwritten as [r [E H]]. exists r. split; [left; reflexivity|]. split; [exact E|].
  rewrite H. discriminate.
Qed.
Print Assumptions C101_states_with_names_of_columns_refuted.

(** A row of a model with an unavailable choice: the shock of that choice is the draw, all
    other columns of it are missing; the wage is the monetary part of the utility times the
    measurement error. *)
Example C101_example : exists out r, output_columns oc_constants oc_periods = Ok out /\ In ((7, 0)%nat, r) out /\
  cell_of r "Shock_Reward_A" = Num 1 /\ cell_of r "Value_Function_A" = Missing /\
  cell_of r "Experience_A" = Code 1 /\ cell_of r "Type" = Code 0 /\
  (exists u n, cell_of r "Flow_Utility_B" = Num u /\ cell_of r "Nonpecuniary_Reward_B" = Num n /\ cell_of r "Wage_B" = Num ((u - n) * 3)%R) /\
  cell_of r "Wage_Home" = Missing.
Proof.
  destruct (C101_columns_of_simulated_data oc_constants oc_names oc_square oc_periods oc_complete oc_apart) as [out [E [_ H]]].
  destruct (H [oc_group] oc_group (7, 0)%nat oc_entrant (or_introl eq_refl) (or_introl eq_refl) (or_introl eq_refl)) as [r [Hr [[_ A U _] S]]].
  exists out, r. split; [exact E|]. split; [exact Hr|].
  destruct (U 0%nat "a" eq_refl eq_refl) as [[s [m [H1 [H2 [H3 _]]]]] HU]. injection H1 as <-.
  destruct (A 1%nat "b" eq_refl eq_refl) as [n [u [v [e [s [m' [N1 [F1 [_ [_ [_ [_ [_ [M [_ [W _]]]]]]]]]]]]]]]].
  destruct (A 2%nat "home" eq_refl eq_refl) as [n2 [u2 [v2 [e2 [s2 [m2 [_ [_ [_ [_ [_ [_ [_ [_ [_ [_ W2]]]]]]]]]]]]]]]].
  split; [exact H3|]. split; [apply (HU "value_function_"); cbn; auto|].
  split; [exact (S "exp_a" (or_introl eq_refl))|]. split; [exact (S "type" (or_intror (or_introl eq_refl)))|].
  split; [|exact (proj1 (W2 (le_n 2)))].
  exists u, n. split; [exact F1|]. assert (W' : _) by (exact (W (le_n 2))). unfold number in W', N1.
  change (cell_of r "Wage_B" = Num ((u - n) * m')%R) in W'.
  change (cell_of r "Nonpecuniary_Reward_B" = Num n) in N1. split; [exact N1|]. rewrite W'. injection M as <-. reflexivity.
Qed.
