(** Properties of the method of simulated moments: C58, C59, C60, C80. *)
From Coq Require Import List Arith Bool String Reals Lra Permutation.
From Verif Require Import Base Spec_Choices Model_MSM Spec_MSM Proof_MSM Proof_MSMLabels Proof_MSMStructure Examples_MSM.
Import ListNotations.
Open Scope string_scope.
Local Open Scope nat_scope.

(** ** C58 *)

Theorem C58_diagonal_weights : forall sims replace emp w e o,
  moment_errors sims replace emp (diag (map Some w)) = Ok o -> map snd (o_errors o) = map Some e ->
  (forall x, In x w -> (0 <= x)%R) ->
  List.length e = List.length w /\
  o_value o = Some (weighted_sum_of_squares w e) /\
  (exists r, o_roots o = map Some r /\ sum_of_squares r = weighted_sum_of_squares w e) /\
  (0 <= weighted_sum_of_squares w e)%R /\
  ((forall x, In x e -> x = 0%R) -> weighted_sum_of_squares w e = 0%R) /\
  ((forall x, In x w -> (0 < x)%R) -> weighted_sum_of_squares w e = 0%R -> forall x, In x e -> x = 0%R).
Proof. exact criterion. Qed.
Print Assumptions C58_diagonal_weights.

Theorem C58_missing_moments : forall sims replace emp W o, moment_errors sims replace emp W = Ok o ->
  In None (map snd (o_errors o)) -> o_value o = None.
Proof. exact missing_errors. Qed.
Print Assumptions C58_missing_moments.

Theorem C58_other_matrices_refuted : exists sims emp W o v r, same_sets sims emp /\
  moment_errors sims (keep_missing emp) emp W = Ok o /\
  o_value o = Some v /\ o_roots o = map Some r /\ v <> sum_of_squares r.
Proof. exact roots_not_diagonal. Qed.
Print Assumptions C58_other_matrices_refuted.

Example c58_example : exists sims emp o, moment_errors sims (keep_missing emp) emp (diag [Some 1%R; Some 1%R]) = Ok o /\
  o_errors o = [("a_x", Some (1 - 0)%R); ("a_y", None)] /\ o_value o = None.
Proof. exact ex_missing. Qed.

(** ** C59 *)

Theorem C59_errors_and_weights_by_label : forall P D (simulate : P -> D) calc emp ws,
  emp <> [] -> distinct_names emp -> same_sets ws emp ->
  (forall p, same_sets (calculated calc (simulate p)) emp) -> map fst calc = map fst emp -> inhabited P ->
  exists W f, get_diag_weighting_matrix (Named emp) (Some (Named ws)) = Ok W /\
    get_moment_errors_func simulate (Named calc) None (Named emp) (Some W) = Ok f /\
    forall p, exists o, f p = Ok o /\ o_errors o = errors_of emp (calculated calc (simulate p)) /\
      forall w e, map snd (over_moments emp (moment_of ws)) = map Some w ->
        map snd (errors_of emp (calculated calc (simulate p))) = map Some e ->
        (forall x, In x w -> (0 <= x)%R) -> o_value o = Some (weighted_sum_of_squares w e).
Proof. exact weighted_criterion. Qed.
Print Assumptions C59_errors_and_weights_by_label.

Theorem C59_default_weights_in_any_order : forall P D (simulate : P -> D) calc emp, emp <> [] -> distinct_names emp ->
  (forall p, same_sets (calculated calc (simulate p)) emp) -> inhabited P ->
  exists f, get_moment_errors_func simulate (Named calc) None (Named emp) None = Ok f /\
    forall p, exists o, f p = Ok o /\ Permutation (o_errors o) (errors_of emp (calculated calc (simulate p))) /\
      (o_errors o = errors_of emp (calculated calc (simulate p)) \/ alphabetical (map fst (o_errors o))) /\
      forall e, map snd (errors_of emp (calculated calc (simulate p))) = map Some e -> o_value o = Some (sum_of_squares e).
Proof. exact default_criterion. Qed.
Print Assumptions C59_default_weights_in_any_order.

Theorem C59_weights_in_another_order_refuted : exists emp sims ws W o w e v,
  same_sets sims emp /\ same_sets ws emp /\ distinct_names emp /\
  get_diag_weighting_matrix (Named emp) (Some (Named ws)) = Ok W /\ moment_errors sims (keep_missing emp) emp W = Ok o /\
  map snd (over_moments emp (moment_of ws)) = map Some w /\ (forall x, In x w -> (0 < x)%R) /\
  map snd (errors_of emp sims) = map Some e /\ o_value o = Some v /\ v <> weighted_sum_of_squares w e.
Proof. exact order_of_sets. Qed.
Print Assumptions C59_weights_in_another_order_refuted.

Example c59_example_weights : exists W f, get_diag_weighting_matrix (Named ex_emp) (Some (Named ex_weights)) = Ok W /\
  get_moment_errors_func ex_simulate (Named ex_calc) None (Named ex_emp) (Some W) = Ok f /\
  forall x, exists o, f x = Ok o /\ o_value o = Some ((10 - (x + x)) * (10 - (x + x)) + 2)%R.
Proof. exact ex_weighted. Qed.
Example c59_example_order : exists f, get_moment_errors_func ex_simulate (Named ex_calc_swapped) None (Named ex_emp) None = Ok f /\
  forall x, exists o, f x = Ok o /\ o_value o = Some ((10 - (x + x)) * (10 - (x + x)) + 1)%R.
Proof. exact ex_unweighted. Qed.

(** ** C60 *)

Theorem C60_lists_return_lists : forall P D (simulate : P -> D) fs ms W f p o,
  get_moment_errors_func simulate (Listed fs) None (Listed ms) W = Ok f -> f p = Ok o ->
  (forall m, In m ms -> well_formed m) -> (forall g, In g fs -> well_formed (g (simulate p))) ->
  (forall i g m, nth_error fs i = Some g -> nth_error ms i = Some m -> alike (g (simulate p)) m) ->
  List.length ms <> 1 ->
  exists l, returned_moments (Listed ms) o = Listed l /\ List.length l = List.length ms /\
    forall i g m, nth_error fs i = Some g -> nth_error ms i = Some m ->
      exists s, nth_error l i = Some s /\ has_structure s m (g (simulate p)).
Proof. exact lists_return_lists. Qed.
Print Assumptions C60_lists_return_lists.

Theorem C60_one_element_list_returns_one_set : forall P D (simulate : P -> D) g m W f p o,
  get_moment_errors_func simulate (Listed [g]) None (Listed [m]) W = Ok f -> f p = Ok o ->
  well_formed m -> well_formed (g (simulate p)) -> alike (g (simulate p)) m ->
  exists s, returned_moments (Listed [m]) o = Single s /\ has_structure s m (g (simulate p)).
Proof. exact one_element_list. Qed.
Print Assumptions C60_one_element_list_returns_one_set.

Theorem C60_one_set_returns_one_set : forall P D (simulate : P -> D) g m W f p o,
  get_moment_errors_func simulate (Single g) None (Single m) W = Ok f -> f p = Ok o ->
  well_formed m -> well_formed (g (simulate p)) -> alike (g (simulate p)) m ->
  exists s, returned_moments (Single m) o = Single s /\ has_structure s m (g (simulate p)).
Proof. exact single_returns_single. Qed.
Print Assumptions C60_one_set_returns_one_set.

Theorem C60_dictionaries_return_dictionaries : forall P D (simulate : P -> D) calc emp W f p o,
  get_moment_errors_func simulate (Named calc) None (Named emp) W = Ok f -> f p = Ok o ->
  same_sets (calculated calc (simulate p)) emp ->
  exists d, returned_moments (Named emp) o = Named d /\ map fst d = map fst calc /\
    forall n g m, In (n, g) calc -> In (n, m) emp -> exists s, In (n, s) d /\ has_structure s m (g (simulate p)).
Proof. exact dictionaries_return_dictionaries. Qed.
Print Assumptions C60_dictionaries_return_dictionaries.

Theorem C60_structure_of_one_element_lists_refuted : exists (fs : list (R -> moments)) ms f p o,
  get_moment_errors_func ex_simulate (Listed fs) None (Listed ms) None = Ok f /\ f p = Ok o /\
  forall l, returned_moments (Listed ms) o <> Listed l.
Proof. exact one_element_list_refuted. Qed.
Print Assumptions C60_structure_of_one_element_lists_refuted.

Theorem C60_one_replacement_in_a_list_never_works : forall P D (simulate : P -> D) calc hc r emp he W,
  harmonize calc = Ok hc -> NoDup (map fst hc) -> harmonize emp = Ok he ->
  List.length hc = List.length he -> 2 <= List.length he ->
  exists f, get_moment_errors_func simulate calc (Some (Listed [r])) emp (Some W) = Ok f /\ forall p o, f p <> Ok o.
Proof. exact one_replacement_in_a_list. Qed.
Print Assumptions C60_one_replacement_in_a_list_never_works.

Theorem C60_one_replacement_is_broadcast : forall P D (simulate : P -> D) calc g emp he W, harmonize emp = Ok he ->
  get_moment_errors_func simulate calc (Some (Single g)) emp W =
  get_moment_errors_func simulate calc (Some (Named (map (fun n => (n, g)) (map fst he)))) emp W.
Proof. exact broadcast. Qed.
Print Assumptions C60_one_replacement_is_broadcast.

Theorem C60_names_are_not_checked : forall P D (simulate : P -> D) calc hc emp he W n,
  harmonize calc = Ok hc -> harmonize emp = Ok he -> List.length hc = List.length he ->
  In n (map fst hc) -> ~ In n (map fst he) ->
  exists f, get_moment_errors_func simulate calc None emp (Some W) = Ok f /\ forall p o, f p <> Ok o.
Proof. exact unknown_set. Qed.
Print Assumptions C60_names_are_not_checked.

Theorem C60_numbers_are_checked : forall P D (simulate : P -> D) calc hc emp he W,
  harmonize calc = Ok hc -> harmonize emp = Ok he ->
  (List.length hc <> List.length he -> forall repl f, get_moment_errors_func simulate calc repl emp (Some W) <> Ok f) /\
  (List.length hc <> List.length he -> get_moment_errors_func simulate calc None emp (Some W) = ValueError) /\
  (forall repl hr, harmonize repl = Ok hr -> (forall g, repl <> Single g) ->
     List.length hr <> List.length he -> List.length hr <> 1 -> hr <> [] ->
     get_moment_errors_func simulate calc (Some repl) emp (Some W) = ValueError).
Proof. exact wrong_numbers. Qed.
Print Assumptions C60_numbers_are_checked.

Example c60_example : exists f o,
  get_moment_errors_func ex_simulate (Listed [ex_wages; ex_choices]) None (Listed ex_sets_list) None = Ok f /\ f 5%R = Ok o /\
  returned_moments (Listed ex_sets_list) o =
    Listed [Frame ["0"; "1"] [("mean", [Some (5 + 5)%R; Some 11%R]); ("std", [Some 2%R; Some 3%R])];
            Series ["0"; "1"] [Some (1/2)%R; Some (1/4)%R]].
Proof. exact ex_listed. Qed.
Example c60_example_dictionary : harmonize (Named ex_calc) = Ok ex_calc /\ NoDup (map fst ex_calc) /\
  harmonize (Named ex_emp) = Ok ex_emp /\ List.length ex_calc = 2 /\ List.length ex_emp = 2 /\ same_sets (calculated ex_calc (ex_simulate 5)) ex_emp.
Proof.
  split; [reflexivity|]. split; [apply (ex_sets 5%R)|]. split; [reflexivity|]. split; [reflexivity|]. split; [reflexivity|]. apply ex_sets.
Qed.

(** ** C80 *)

Theorem C80_data_for_plots : forall sims emp W o, same_sets sims emp -> moment_errors sims (keep_missing emp) emp W = Ok o ->
  let data := comparison_plot_data emp (o_simulated o) in
  rows_of "empirical" data = plot_rows emp (moment_of emp) /\
  Permutation (rows_of "simulated" data) (plot_rows emp (moment_of sims)) /\
  List.length data = List.length (rows_of "empirical" data) + List.length (rows_of "simulated" data).
Proof. exact plot_data. Qed.
Print Assumptions C80_data_for_plots.

Example c80_example : same_sets (calculated ex_calc 5%R) ex_emp /\
  rows_of "simulated" (comparison_plot_data ex_emp (calculated ex_calc 5%R)) =
  [("std", "1", Some 3%R, "wages"); ("std", "0", Some 2%R, "wages"); ("mean", "1", Some 11%R, "wages"); ("mean", "0", Some 5%R, "wages");
   ("choices", "1", Some (1/4)%R, "choices"); ("choices", "0", Some (1/2)%R, "choices")].
Proof. split; [apply ex_sets|exact ex_rows]. Qed.
