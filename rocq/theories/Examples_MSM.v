(** Concrete cases for the properties of the method of simulated moments. *)
From Coq Require Import List Arith Bool String Reals Lra Lia Permutation.
From Verif Require Import Base Proof_Base Model_Choices Spec_Choices Proof_Choices Spec_Solve Model_Cache Model_MSM Spec_MSM Proof_MSM Proof_MSMLabels Proof_MSMStructure.
Import ListNotations.
Open Scope string_scope.
Local Open Scope nat_scope.

Ltac literal_nodup := repeat constructor; cbn; intuition discriminate.
Ltac literal_sets :=
  split; [literal_nodup|]; split; [literal_nodup|]; split; [intros ?; cbn; tauto|]; split; [|split];
  [intros n m I; cbn in I; repeat (destruct I as [I|I]; [inversion I; subst; clear I|]); try contradiction
  |intros n m I; cbn in I; repeat (destruct I as [I|I]; [inversion I; subst; clear I|]); try contradiction
  |intros n m m' I J; cbn in I, J; repeat (destruct I as [I|I]; [inversion I; subst; clear I|]); try contradiction;
   repeat (destruct J as [J|J]; [inversion J; subst; clear J|]); try contradiction; exact Logic.I].

(** Mean and standard deviation of wages and the share of one choice in two periods. *)
Definition ex_emp : list (string * moments) :=
  [("wages", Frame ["0"; "1"] [("mean", [Some 10%R; Some 12%R]); ("std", [Some 2%R; Some 3%R])]);
   ("choices", Series ["0"; "1"] [Some (1/2)%R; Some (1/4)%R])].
(** Rows and columns are in another order. *)
Definition ex_wages (d : R) : moments := Frame ["1"; "0"] [("std", [Some 3%R; Some 2%R]); ("mean", [Some 11%R; Some d])].
Definition ex_choices (d : R) : moments := Series ["1"; "0"] [Some (1/4)%R; Some (1/2)%R].
Definition ex_calc : list (string * (R -> moments)) := [("wages", ex_wages); ("choices", ex_choices)].
Definition ex_calc_swapped : list (string * (R -> moments)) := [("choices", ex_choices); ("wages", ex_wages)].
Definition ex_simulate (x : R) : R := (x + x)%R.
Definition ex_weights : list (string * moments) :=
  [("choices", Series ["1"; "0"] [Some 5%R; Some 6%R]);
   ("wages", Frame ["0"; "1"] [("std", [Some 3%R; Some 4%R]); ("mean", [Some 1%R; Some 2%R])])].

Lemma ex_wages_wf : forall d, well_formed (ex_wages d).
Proof. intros d. split; [literal_nodup|]. split; [literal_nodup|]. intros n v [H|[H|[]]]; inversion H; subst; reflexivity. Qed.
Lemma ex_choices_wf : forall d, well_formed (ex_choices d).
Proof. intros d. split; [literal_nodup|reflexivity]. Qed.
Lemma ex_emp_wf : forall n m, In (n, m) ex_emp -> well_formed m.
Proof.
  intros n m [H|[H|[]]]; inversion H; subst.
  - split; [literal_nodup|]. split; [literal_nodup|]. intros n v [E|[E|[]]]; inversion E; subst; reflexivity.
  - split; [literal_nodup|reflexivity].
Qed.
Lemma ex_sets : forall d, same_sets (calculated ex_calc d) ex_emp.
Proof.
  intros d. split; [literal_nodup|]. split; [literal_nodup|]. split; [intros n; cbn; tauto|]. split; [|split; [apply ex_emp_wf|]].
  - intros n m [H|[H|[]]]; inversion H; subst; [apply ex_wages_wf|apply ex_choices_wf].
  - intros n m m' [H|[H|[]]] [G|[G|[]]]; inversion H; inversion G; subst; try discriminate; exact I.
Qed.
Lemma ex_sets_swapped : forall d, same_sets (calculated ex_calc_swapped d) ex_emp.
Proof.
  intros d. split; [literal_nodup|]. split; [literal_nodup|]. split; [intros n; cbn; tauto|]. split; [|split; [apply ex_emp_wf|]].
  - intros n m [H|[H|[]]]; inversion H; subst; [apply ex_choices_wf|apply ex_wages_wf].
  - intros n m m' [H|[H|[]]] [G|[G|[]]]; inversion H; inversion G; subst; try discriminate; exact I.
Qed.
Lemma ex_weight_sets : same_sets ex_weights ex_emp.
Proof.
  split; [literal_nodup|]. split; [literal_nodup|]. split; [intros n; cbn; tauto|]. split; [|split; [apply ex_emp_wf|]].
  - intros n m [H|[H|[]]]; inversion H; subst.
    + split; [literal_nodup|reflexivity].
    + split; [literal_nodup|]. split; [literal_nodup|]. intros n v [E|[E|[]]]; inversion E; subst; reflexivity.
  - intros n m m' [H|[H|[]]] [G|[G|[]]]; inversion H; inversion G; subst; try discriminate; exact I.
Qed.
Lemma ex_distinct : distinct_names ex_emp.
Proof. unfold distinct_names. cbn. literal_nodup. Qed.

(** The only error is in the means. *)
Lemma ex_errors : forall x, map snd (errors_of ex_emp (calculated ex_calc (ex_simulate x))) =
  map Some [10 - (x + x); 12 - 11; 2 - 2; 3 - 3; 1/2 - 1/2; 1/4 - 1/4]%R.
Proof. intros x. reflexivity. Qed.
Lemma ex_weight_values : map snd (over_moments ex_emp (moment_of ex_weights)) = map Some [1; 2; 3; 4; 6; 5]%R.
Proof. reflexivity. Qed.
Lemma ex_weighted : exists W f, get_diag_weighting_matrix (Named ex_emp) (Some (Named ex_weights)) = Ok W /\
  get_moment_errors_func ex_simulate (Named ex_calc) None (Named ex_emp) (Some W) = Ok f /\
  forall x, exists o, f x = Ok o /\ o_value o = Some ((10 - (x + x)) * (10 - (x + x)) + 2)%R.
Proof.
  destruct (weighted_criterion R R ex_simulate ex_calc ex_emp ex_weights) as [W [f [H1 [H2 H3]]]].
  - discriminate.
  - apply ex_distinct.
  - apply ex_weight_sets.
  - intros p. apply ex_sets.
  - reflexivity.
  - constructor. exact 0%R.
  - exists W, f. split; [exact H1|]. split; [exact H2|]. intros x. destruct (H3 x) as [o [F [_ V]]]. exists o. split; [exact F|].
    rewrite (V _ _ ex_weight_values (ex_errors x)).
    + f_equal. unfold weighted_sum_of_squares, rsum. cbn [combine map fold_right fst snd]. field.
    + intros y I. cbn [In] in I. repeat (destruct I as [<-|I]; [lra|]). contradiction.
Qed.
Lemma ex_unweighted : exists f, get_moment_errors_func ex_simulate (Named ex_calc_swapped) None (Named ex_emp) None = Ok f /\
  forall x, exists o, f x = Ok o /\ o_value o = Some ((10 - (x + x)) * (10 - (x + x)) + 1)%R.
Proof.
  destruct (default_criterion R R ex_simulate ex_calc_swapped ex_emp) as [f [H1 H2]].
  - discriminate.
  - apply ex_distinct.
  - intros p. apply ex_sets_swapped.
  - constructor. exact 0%R.
  - exists f. split; [exact H1|]. intros x. destruct (H2 x) as [o [F [_ [_ V]]]]. exists o. split; [exact F|].
    rewrite (V [10 - (x + x); 12 - 11; 2 - 2; 3 - 3; 1/2 - 1/2; 1/4 - 1/4]%R) by reflexivity.
    f_equal. unfold sum_of_squares, rsum. cbn [map fold_right]. field.
Qed.

(** Sets of moments in another order and different weights. *)
Definition bad_emp : list (string * moments) := [("b", Series ["x"] [Some 1%R]); ("a", Series ["x"] [Some 0%R])].
Definition bad_sims : list (string * moments) := [("a", Series ["x"] [Some 0%R]); ("b", Series ["x"] [Some 0%R])].
Definition bad_weights : list (string * moments) := [("b", Series ["x"] [Some 1%R]); ("a", Series ["x"] [Some 3%R])].
Lemma bad_sets : same_sets bad_sims bad_emp /\ same_sets bad_weights bad_emp.
Proof. split; literal_sets; (split; [literal_nodup|reflexivity]). Qed.
Theorem order_of_sets : exists emp sims ws W o w e v, same_sets sims emp /\ same_sets ws emp /\ distinct_names emp /\
  get_diag_weighting_matrix (Named emp) (Some (Named ws)) = Ok W /\ moment_errors sims (keep_missing emp) emp W = Ok o /\
  map snd (over_moments emp (moment_of ws)) = map Some w /\ (forall x, In x w -> (0 < x)%R) /\
  map snd (errors_of emp sims) = map Some e /\ o_value o = Some v /\ v <> weighted_sum_of_squares w e.
Proof.
  exists bad_emp, bad_sims, bad_weights.
  destruct bad_sets as [S1 S2].
  assert (D : distinct_names bad_emp) by (unfold distinct_names; cbn; literal_nodup).
  exists (diag (map Some [1; 3]%R)).
  assert (M : exists o, moment_errors bad_sims (keep_missing bad_emp) bad_emp (diag (map Some [1; 3]%R)) = Ok o /\ map snd (o_errors o) = map Some [0 - 0; 1 - 0]%R)
    by (eexists; split; reflexivity).
  destruct M as [o [M E]]. exists o, [1; 3]%R, [1 - 0; 0 - 0]%R, 3%R.
  split; [exact S1|]. split; [exact S2|]. split; [exact D|]. split; [exact (weights_by_label bad_emp bad_weights S2 ltac:(discriminate) D)|].
  split; [exact M|]. split; [reflexivity|]. split; [intros x [<-|[<-|[]]]; lra|]. split; [reflexivity|].
  assert (P : forall x, In x [1; 3]%R -> (0 <= x)%R) by (intros x [<-|[<-|[]]]; lra).
  destruct (criterion _ _ _ [1; 3]%R _ o M E P) as [_ [V _]]. rewrite V.
  unfold weighted_sum_of_squares, rsum. cbn [combine map fold_right fst snd]. split; [f_equal; ring|]. lra.
Qed.

(** Root contributions with a weighting matrix that is not diagonal. *)
Definition root_emp : list (string * moments) := [("a", Series ["x"; "y"] [Some 1%R; Some 1%R])].
Definition root_sims : list (string * moments) := [("a", Series ["x"; "y"] [Some 0%R; Some 0%R])].
Definition root_matrix : matrix := [[Some 1%R; Some (1/4)%R]; [Some (1/4)%R; Some 1%R]].
Theorem roots_not_diagonal : exists sims emp W o v r, same_sets sims emp /\ moment_errors sims (keep_missing emp) emp W = Ok o /\
  o_value o = Some v /\ o_roots o = map Some r /\ v <> sum_of_squares r.
Proof.
  exists root_sims, root_emp, root_matrix.
  assert (S : same_sets root_sims root_emp) by (literal_sets; (split; [literal_nodup|reflexivity])).
  destruct (errors_by_label root_sims root_emp root_matrix S) as [o [X Y]]; [discriminate|reflexivity|reflexivity|].
  destruct (moment_errors_inv _ _ _ _ _ X) as [_ [V R]]. cbv zeta in V, R. rewrite Y in V, R.
  assert (S1 : vsqrt (Some 1%R) = Some 1%R) by (unfold vsqrt; destruct (Rlt_dec 1 0); [lra|rewrite sqrt_1; reflexivity]).
  assert (S2 : vsqrt (Some (1/4)%R) = Some (1/2)%R).
  { unfold vsqrt. destruct (Rlt_dec (1/4) 0); [lra|]. f_equal. replace (1/4)%R with ((1/2) * (1/2))%R by field. apply sqrt_square. lra. }
  unfold root_matrix in R. cbn [map] in R. rewrite S1, S2 in R.
  exists o, (5/2)%R, [3/2; 3/2]%R. split; [exact S|]. split; [exact X|]. split; [rewrite V|split; [rewrite R|]].
  - unfold errors_of, over_moments, root_emp, root_matrix, vector_matrix, dot. cbn -[Rplus Rmult Rdiv Rminus IZR]. f_equal. field.
  - unfold errors_of, over_moments, root_emp, vector_matrix, dot. cbn -[Rplus Rmult Rdiv Rminus IZR]. apply (f_equal2 (fun a b => [Some a; Some b])); field.
  - unfold sum_of_squares, rsum. cbn [map fold_right]. lra.
Qed.

(** A missing simulated moment. *)
Lemma ex_missing : exists sims emp o, moment_errors sims (keep_missing emp) emp (diag [Some 1%R; Some 1%R]) = Ok o /\
  o_errors o = [("a_x", Some (1 - 0)%R); ("a_y", None)] /\ o_value o = None.
Proof. exists [("a", Series ["x"] [Some 0%R])], [("a", Series ["x"; "y"] [Some 1%R; Some 1%R])]. eexists. split; [reflexivity|]. split; reflexivity. Qed.

(** Lists of two sets. *)
Definition ex_sets_list : list moments := map snd ex_emp.
Lemma ex_listed : exists f o, get_moment_errors_func ex_simulate (Listed [ex_wages; ex_choices]) None (Listed ex_sets_list) None = Ok f /\ f 5%R = Ok o /\
  returned_moments (Listed ex_sets_list) o =
    Listed [Frame ["0"; "1"] [("mean", [Some (5 + 5)%R; Some 11%R]); ("std", [Some 2%R; Some 3%R])];
            Series ["0"; "1"] [Some (1/2)%R; Some (1/4)%R]].
Proof. eexists. eexists. split; [reflexivity|]. split; [reflexivity|]. reflexivity. Qed.
Lemma ex_single : exists f o, get_moment_errors_func ex_simulate (Listed [ex_choices]) None (Listed [Series ["0"; "1"] [Some 1%R; Some 1%R]]) None = Ok f /\ f 5%R = Ok o /\
  returned_moments (Listed [Series ["0"; "1"] [Some 1%R; Some 1%R]]) o = Single (Series ["0"; "1"] [Some (1/2)%R; Some (1/4)%R]).
Proof. eexists. eexists. split; [reflexivity|]. split; [reflexivity|]. reflexivity. Qed.
Theorem one_element_list_refuted : exists (fs : list (R -> moments)) ms f p o,
  get_moment_errors_func ex_simulate (Listed fs) None (Listed ms) None = Ok f /\ f p = Ok o /\
  forall l, returned_moments (Listed ms) o <> Listed l.
Proof.
  destruct ex_single as [f [o [F [O R]]]]. exists [ex_choices], [Series ["0"; "1"] [Some 1%R; Some 1%R]], f, 5%R, o.
  split; [exact F|]. split; [exact O|]. intros l. rewrite R. discriminate.
Qed.
Lemma ex_rows : rows_of "simulated" (comparison_plot_data ex_emp (calculated ex_calc 5%R)) =
  [("std", "1", Some 3%R, "wages"); ("std", "0", Some 2%R, "wages"); ("mean", "1", Some 11%R, "wages"); ("mean", "0", Some 5%R, "wages");
   ("choices", "1", Some (1/4)%R, "choices"); ("choices", "0", Some (1/2)%R, "choices")].
Proof. reflexivity. Qed.
