(** Property C126: changes of the reward of one choice. *)
From Coq Require Import List Arith Bool Lia Reals Lra.
From Verif Require Import Base Model_CoreStateSpace Model_StateSpace Model_Solve Model_Parallel Model_ConditionalDraws
  Model_Likelihood Model_Simulate.
From Verif Require Import Spec_CoreStateSpace Spec_Solve Spec_Likelihood Spec_Simulate Spec_Demand Proof_Demand.
Import ListNotations.
Open Scope R_scope.

(** An individual who has chosen the choice keeps it; everybody else keeps the old choice and
    its wage or turns to the choice whose reward has increased. *)
Theorem C126_simulated_choice : forall si nk cx W N N' C i r o o' w n n' j x code,
  NoDup (si_choices si) -> length (cx_choice_set cx) = length (si_choices si) -> in_place (cx_choice_set cx) ->
  nth_error W (r_index r) = Some w -> length w = count_true (cx_choice_set cx) ->
  nth_error N (r_index r) = Some n -> nth_error N' (r_index r) = Some n' -> length n = length w ->
  nth_error (positions (cx_choice_set cx)) j = Some code -> raised j x n n' -> 0 <= x ->
  simulate_row si nk cx W N C i r = Ok o -> simulate_row si nk cx W N' C i r = Ok o' ->
  (o_choice o = code -> o_choice o' = code) /\
  (o_choice o' = code \/ o_choice o' = o_choice o) /\
  (o_choice o' = o_choice o -> o_wage o' = o_wage o).
Proof. exact choice_raised. Qed.
Print Assumptions C126_simulated_choice.

(** If the increase is large enough, the choice is chosen. *)
Theorem C126_large_increase : forall si nk cx W N C i r o w n j code,
  NoDup (si_choices si) -> length (cx_choice_set cx) = length (si_choices si) -> in_place (cx_choice_set cx) ->
  nth_error W (r_index r) = Some w -> length w = count_true (cx_choice_set cx) ->
  nth_error N (r_index r) = Some n -> length n = length w ->
  nth_error (positions (cx_choice_set cx)) j = Some code ->
  simulate_row si nk cx W N C i r = Ok o ->
  exists X, 0 <= X /\ forall x N' n' o', X < x -> nth_error N' (r_index r) = Some n' -> raised j x n n' ->
    simulate_row si nk cx W N' C i r = Ok o' -> o_choice o' = code.
Proof. exact choice_bought. Qed.
Print Assumptions C126_large_increase.

(** The smoothed probability of the choice does not decrease, all other probabilities do not
    increase. *)
Theorem C126_probability : forall wages nonpecs nonpecs' conts draws delta c tau j x lp lp',
  same_lengths wages nonpecs conts draws -> raised j x nonpecs nonpecs' -> 0 <= x -> (c < length wages)%nat ->
  0 < tau ->
  simulate_log_probability wages nonpecs conts draws delta c tau = Ok lp ->
  simulate_log_probability wages nonpecs' conts draws delta c tau = Ok lp' ->
  (c = j -> lp <= lp') /\ (c <> j -> lp' <= lp).
Proof. exact probability_raised. Qed.
Print Assumptions C126_probability.

(** The same for the contribution of an observation to the likelihood; the part of the wage
    does not change. *)
Theorem C126_contribution : forall rc qr lk cs wages nonpecs nonpecs' conts base code code' wage i j x lc lw lc' lw',
  nth_error (positions cs) i = Some code -> nth_error (positions cs) j = Some code' ->
  length wages = count_true cs -> length nonpecs = length wages -> length conts = length wages ->
  raised j x nonpecs nonpecs' -> 0 <= x -> 0 < lk_tau lk ->
  row_loglikes rc qr lk cs wages nonpecs conts base code wage = Ok (lc, lw) ->
  row_loglikes rc qr lk cs wages nonpecs' conts base code wage = Ok (lc', lw') ->
  lw' = lw /\ (code = code' -> lc <= lc') /\ (code <> code' -> lc' <= lc).
Proof. exact contribution_raised. Qed.
Print Assumptions C126_contribution.

Example C126_example :
  raised 1 2 [1; 0] [1; 2] /\ in_place [true; true] /\ nth_error (positions [true; true]) 1 = Some 1%nat /\
  argmax [1; 0] = Some 0%nat /\ argmax [1; 2] = Some 1%nat.
Proof.
  split.
  { split; [reflexivity|]. split; [simpl; lia|]. split; [simpl; lra|].
    intros [|[|k]] H; [reflexivity|contradiction|reflexivity]. }
  split.
  { intros [|[|[|j]]] c H; cbn in H; try discriminate; injection H as <-; left; reflexivity. }
  split; [reflexivity|]. unfold argmax, argmax_from.
  split; [destruct (Rlt_dec 1 0); [lra|reflexivity]|destruct (Rlt_dec 1 2); [reflexivity|lra]].
Qed.
