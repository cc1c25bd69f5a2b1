(** Concrete cases for the theorems of Props_InitialLags.v. *)
From Coq Require Import List Arith Bool String Ascii Reals Lra Lia.
From Verif Require Import Base Model_Strings Model_Choices Spec_Choices Spec_Solve Model_Cache Model_Params Spec_Params
  Proof_Names Proof_ParamsMore Examples_SpecificationHelpers Spec_InitialLags Proof_InitialLags.
Import ListNotations.
Open Scope string_scope.
Local Open Scope nat_scope.

(** Three choices, two of them with probabilities, which sum to four, for the first lag. *)
Definition il_choices := ["a"; "edu"; "home"].
Definition il_params : list param :=
  [("delta", "delta", 1%R); ("lagged_choice_1_edu", "probability", 1%R); ("wage_a", "constant", 2%R); ("lagged_choice_1_a", "probability", 3%R)].

Lemma il_plain : forall c, In c il_choices -> plain_name c.
Proof.
  intros c [<-|[<-|[<-|[]]]]; (split; [split; [discriminate|reflexivity]|apply sh_no; reflexivity]).
Qed.
Lemma il_proper : proper_lags il_params.
Proof.
  intros p [<-|[<-|[<-|[<-|[]]]]].
  - left. apply sh_no. reflexivity.
  - right. exists 1, "edu". split; [apply il_plain; right; left; reflexivity|reflexivity].
  - left. apply sh_no. reflexivity.
  - right. exists 1, "a". split; [apply il_plain; left; reflexivity|reflexivity].
Qed.
Lemma il_total : lag_total il_choices il_params 1 = 4%R.
Proof. unfold lag_total, il_choices, il_params, p_category. cbn. lra. Qed.
Lemma il_probabilities : lag_probabilities il_choices il_params 1.
Proof.
  constructor.
  - intros p c I W E. rewrite il_total. assert (B : (4 / 10 ^ 200 <= 1)%R).
    { apply (Rmult_le_reg_r (10 ^ 200)); [apply pow_lt; lra|]. unfold Rdiv. rewrite Rmult_assoc, Rinv_l by (apply pow_nonzero; lra).
      assert (G : forall n, (1 <= 10 ^ n)%R) by (induction n as [|n IH]; [simpl; lra|]; cbn [pow]; lra).
      assert (E2 : (10 ^ 200 = 10 * 10 ^ 199)%R) by reflexivity. specialize (G 199). rewrite E2. lra. }
    destruct I as [<-|[<-|[<-|[<-|[]]]]]; cbn [snd].
    + exfalso. cbn in E. discriminate.
    + apply (lag_category_inj 1 "edu" c) in E. subst c. split; [right; left; reflexivity|]. split; [reflexivity|exact B].
    + exfalso. cbn in E. discriminate.
    + apply (lag_category_inj 1 "a" c) in E. subst c. split; [left; reflexivity|]. split; [reflexivity|lra].
  - intros i j p q c Hi Hj Ep Eq.
    assert (H : forall i p, nth_error il_params i = Some p -> p_category p = lag_category 1 c -> (i = 1 /\ c = "edu") \/ (i = 3 /\ c = "a")).
    { clear. intros i p Hi E. destruct i as [|[|[|[|i]]]]; cbn in Hi.
      - injection Hi as <-. discriminate.
      - injection Hi as <-. left. split; [reflexivity|]. symmetry. apply (lag_category_inj 1 "edu" c). exact E.
      - injection Hi as <-. discriminate.
      - injection Hi as <-. right. split; [reflexivity|]. symmetry. apply (lag_category_inj 1 "a" c). exact E.
      - destruct i; discriminate. }
    destruct (H i p Hi Ep) as [[-> ->]|[-> ->]], (H j q Hj Eq) as [[-> X]|[-> X]]; try reflexivity; discriminate.
  - rewrite il_total. lra.
Qed.
Lemma il_nothing : forall p c, In p il_params -> plain_name c -> p_category p <> lag_category 2 c.
Proof. intros p c [<-|[<-|[<-|[<-|[]]]]] _; discriminate. Qed.
