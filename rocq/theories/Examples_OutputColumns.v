(** Example for the columns of the simulated data. *)
From Coq Require Import List Arith Bool String Reals Lia Lra.
From Verif Require Import Base Proof_Base Model_CoreStateSpace Model_StateSpace Model_Solve Spec_Solve
  Model_Parallel Model_Simulate Spec_Simulate Model_Choices Spec_Choices Proof_Columns
  Model_OutputColumns Spec_OutputColumns Proof_OutputColumns.
Import ListNotations.
Open Scope string_scope.

(** Two choices with wages, one without; independent shocks without variance. *)
Definition oc_params : params := mkParams (fun _ => None) (fun _ => None) (1 / 2)%R [[0; 0; 0]; [0; 0; 0]; [0; 0; 0]]%R 2.
Definition oc_constants : constants := mkConstants ["a"; "b"; "home"] oc_params 1%R.
(** The first choice is unavailable. *)
Definition oc_entrant : entrant := mkEntrant [("exp_a", Code 1); ("type", Code 0)] [1; 0; 0]%R [2; 3; 4]%R 5 0.
Definition oc_group : group :=
  mkGroup [false; true; true] [[1; 1]]%R [[0; 0]]%R [[0; 0]]%R [((7, 0)%nat, oc_entrant)].
Definition oc_periods : list (list group) := [[oc_group]].

Lemma oc_complete : forall groups g i e, In groups oc_periods -> In g groups -> In (i, e) (g_rows g) ->
  complete oc_constants g e.
Proof.
  intros groups g i e [<-|[]] [<-|[]] [E|[]]. injection E as <- <-. constructor; try reflexivity.
  - exists 1%nat. reflexivity.
  - exists [1; 1]%R, [0; 0]%R, [0; 0]%R. repeat split.
    intros j ch Hj _. destruct j as [|[|j]]; simpl; try reflexivity. destruct j; discriminate.
  - intros x [<-|[<-|[]]]; vm_compute; intuition discriminate.
Qed.

Lemma kept_apart_lower : forall columns,
  (forall a, In a columns -> no_upper a /\ exp_starts_words a) -> kept_apart columns.
Proof.
  intros columns H a b Ha Hb E. destruct (H a Ha) as [U1 S1]. destruct (H b Hb) as [U2 S2].
  rewrite <- (proj2 (columns_round_trip a U1) S1), <- (proj2 (columns_round_trip b U2) S2), E. reflexivity.
Qed.

Lemma oc_apart : kept_apart (all_columns oc_constants oc_periods).
Proof.
  intros a b Ha Hb E.
  assert (D : forall l, NoDup (map rename_labels_from_internal l) -> In a l -> In b l -> a = b).
  { intros l. revert E. induction l as [|x l IH]; intros E N I1 I2; [destruct I1|]. inversion N as [|? ? N1 N2]; subst.
    destruct I1 as [->|I1], I2 as [->|I2]; auto.
    - exfalso. apply N1. rewrite E. apply in_map. exact I2.
    - exfalso. apply N1. rewrite <- E. apply in_map. exact I1. }
  apply (D (all_columns oc_constants oc_periods)); [|exact Ha|exact Hb].
  vm_compute. repeat (constructor; [cbn; intuition discriminate|]). constructor.
Qed.

Lemma oc_square : square (List.length (k_choices oc_constants)) (p_chol (k_params oc_constants)).
Proof. split; [reflexivity|]. intros r [<-|[<-|[<-|[]]]]; reflexivity. Qed.
Lemma oc_names : NoDup (k_choices oc_constants).
Proof. repeat constructor; cbn; intuition discriminate. Qed.

(** The recorded choice is not the one the wage belongs to. *)
Lemma oc_other_wage : exists r c x,
  single_row oc_constants (g_choice_set oc_group) (g_wages oc_group) (g_nonpecs oc_group) (g_conts oc_group)
    (prepare (k_choices oc_constants) oc_entrant) = Ok r /\
  cell_of r "choice" = Code c /\ nth_error (k_choices oc_constants) c = Some x /\
  cell_of r "wage" <> cell_of r ("wage_" ++ x).
Proof.
  unfold single_row. cbn -[exp clip Rlt_dec store]. destruct (Rlt_dec _ _) as [L|_].
  - exfalso. match type of L with context [exp ?z] => assert (P := exp_pos z); set (y := exp z) in * end. lra.
  - eexists. exists 2%nat, "home". split; [reflexivity|]. cbn. repeat split. discriminate.
Qed.

(** The column of a state with the name of a column of the output is overwritten. *)
Definition oc_single : constants := mkConstants ["home"] (mkParams (fun _ => None) (fun _ => None) (1 / 2)%R [[1]]%R 0) 1%R.
Lemma oc_overwritten : exists r,
  single_row oc_single [true] [[1]]%R [[0]]%R [[0]]%R
    (prepare (k_choices oc_single) (mkEntrant [("wage", Code 1)] [0]%R [1]%R 0 0)) = Ok r /\
  cell_of r "wage" = Missing.
Proof. eexists. split; [reflexivity|]. cbn. reflexivity. Qed.
