(** Models for the examples of C130. *)
From Coq Require Import List Arith Bool Reals Lra Lia.
From Verif Require Import Base Model_CoreStateSpace Model_StateSpace Model_Solve Spec_Solve Spec_Convexity Props_StateSpace Examples_Solve.
Import ListNotations.
Open Scope R_scope.

(** The model of the other examples with other coefficients of wages and rewards. *)
Definition cv_inp (a b : R) : inputs :=
  mkInputs (mkParams (fun c => if Nat.eqb c 0 then Some [(0%nat, a)] else None)
                     (fun c => if Nat.eqb c 1 then Some [(1%nat, 1); (0%nat, b)] else None)
                     (19 / 20) [[1; 0]; [/ 2; 1]] 1)
    (in_choices ex_inp) (in_cov ex_inp) (in_base ex_inp) 50 (fun _ _ => OtherError).

Lemma cv_standard : forall a b, standard_model ex_sp (fun _ => None) 0 ex_grid ex_ss (cv_inp a b).
Proof. intros a b. destruct ex_standard. constructor; assumption. Qed.

Lemma cv_mixed : forall l a b a' b', mixed_models l (cv_inp a b) (cv_inp a' b') (cv_inp (l * a + (1 - l) * a') (l * b + (1 - l) * b')).
Proof.
  intros. unfold mixed_models. split; [repeat split|]. split; [repeat split|]. split; [|split].
  - intros c. cbn. destruct (Nat.eqb c 0); [split; reflexivity|exact I].
  - intros c. cbn. destruct (Nat.eqb c 1); [split; [reflexivity|]|exact I].
    cbn. replace (l * 1 + (1 - l) * 1) with 1 by ring. reflexivity.
  - intros c Hc. cbn in *. destruct c; [lia|reflexivity].
Qed.

Lemma one_mixed : mixed_models (/ 2) (one_inp (-1)) (one_inp 1) (one_inp 0).
Proof.
  unfold mixed_models. split; [repeat split|]. split; [repeat split|]. split; [intros c; exact I|split; [|reflexivity]].
  intros c. cbn. split; [reflexivity|]. cbn. replace (/ 2 * -1 + (1 - / 2) * 1) with 0 by lra. reflexivity.
Qed.
