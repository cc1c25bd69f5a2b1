(** A model with two types and the likelihood of its simulated data. *)
From Coq Require Import String List Arith Bool Reals Lia Lra.
From Verif Require Import Base Proof_Base Model_CoreStateSpace Spec_CoreStateSpace Model_StateSpace Spec_StateSpace Props_StateSpace
  Model_Choices Model_Parallel Spec_Parallel Model_Solve Spec_Solve Proof_Solve Examples_Solve
  Model_Simulate Spec_Simulate Proof_PanelModel Examples_Simulate Model_Draws Model_ConditionalDraws Model_Likelihood Spec_Likelihood
  Model_Dataset Spec_Dataset Proof_DatasetCheck Examples_Dataset Model_Criterion Spec_Criterion.
Import ListNotations.
Open Scope list_scope.
Open Scope nat_scope.

(** The dense variable of the example is the type. *)
Definition two_types : labels := mkLabels 3 ["work"; "home"]%string 1 1 0 [] 2.
Lemma two_types_labelled : labelled ex_sp ex_grid (p_nwages (in_params ex_inp)) two_types.
Proof.
  constructor; try reflexivity.
  - repeat constructor; simpl; intuition discriminate.
  - simpl. lia.
  - intros l [].
Qed.

(** Parameters at which the likelihood is evaluated; they differ from those of the simulation. *)
Definition other_inp : inputs :=
  mkInputs (mkParams (fun c => if Nat.eqb c 0 then Some [(0%nat, 1%R)] else None)
                     (fun c => if Nat.eqb c 1 then Some [(1%nat, 2%R)] else None)
                     (9 / 10)%R [[1; 0]; [0; 2]]%R 1)
    (in_choices ex_inp) (in_cov ex_inp) (in_base ex_inp) (in_points ex_inp) (in_interp ex_inp).
Lemma other_standard : standard_model ex_sp (fun _ => None) 0 ex_grid ex_ss other_inp.
Proof.
  destruct ex_standard as [A B C D E F G H]. constructor; try assumption.
  unfold square in *. split; [reflexivity|]. intros row [<-|[<-|[]]]; reflexivity.
Qed.

Definition two_lk : like_spec := mkLikeSpec [[1; 0]; [0; 2]]%R 1 [0; 0]%R false (9 / 10)%R (1 / 2)%R.
Lemma two_lk_of : like_spec_of ex_sp (p_nwages (in_params ex_inp)) two_lk.
Proof. constructor; try reflexivity; [cbn; lra|cbn; lia]. Qed.

Lemma same_choices : forall x y, i_core x = i_core y ->
  choices_of ex_sp (fun _ => None) 0 ex_grid x = choices_of ex_sp (fun _ => None) 0 ex_grid y.
Proof. intros x y E. unfold choices_of. rewrite E. reflexivity. Qed.
