(** Templates for lagged choices, types, initial experience and observables. *)
From Coq Require Import List Arith Bool String Ascii Reals ZArith Lra Lia.
From Verif Require Import Base Model_Strings Proof_Strings Model_Cache Proof_Cache Model_Choices Spec_Choices Spec_Solve Model_Params Model_Processing Spec_Params Proof_Names
  Model_ParseParameters Model_SpecificationHelpers Proof_SpecificationHelpers.
Import ListNotations.
Local Open Scope nat_scope.
Open Scope string_scope.
Open Scope list_scope.

Definition sh_base : list param :=
  [("delta", "delta", 1%R); ("wage_a", "constant", 1%R); ("nonpec_edu", "at_least_twelve_exp_edu", 1%R)].

Lemma sh_no : forall a b, contains a b = false -> ~ substring a b.
Proof. intros a b H S1. apply substring_contains in S1. congruence. Qed.

Lemma sh_base_ok : (forall p, In p sh_base -> word (p_category p) /\ word (p_name p)) /\
  (forall p, In p sh_base -> ~ substring "lagged_choice_" (p_category p)) /\
  (forall p d, In p sh_base -> all_digits d = true -> p_category p <> ("type_" ++ d)%string /\ p_name p <> ("type_" ++ d)%string) /\
  (forall p d, In p sh_base -> p_category p <> ("initial_exp_edu_" ++ d)%string) /\
  (forall v, ~ In ("maximum_exp", "edu", v) sh_base) /\
  (forall p r, In p sh_base -> p_category p <> ("observable_" ++ r)%string) /\
  (forall c, In c ["a"; "edu"] -> well_named c /\ ~ substring "lagged_choice_" c).
Proof.
  split. { intros p I. repeat (destruct I as [<-|I]; [split; reflexivity|]). destruct I. }
  split. { intros p I. repeat (destruct I as [<-|I]; [apply sh_no; reflexivity|]). destruct I. }
  split. { intros p d I A. repeat (destruct I as [<-|I]; [split; discriminate|]). destruct I. }
  split. { intros p d I. repeat (destruct I as [<-|I]; [discriminate|]). destruct I. }
  split. { intros v I. repeat (destruct I as [I|I]; [discriminate|]). destruct I. }
  split. { intros p r I. repeat (destruct I as [<-|I]; [discriminate|]). destruct I. }
  intros c I. repeat (destruct I as [<-|I]; [split; [split; [discriminate|reflexivity]|apply sh_no; reflexivity]|]). destruct I.
Qed.

(** The template for lagged choices lists probabilities as coefficients. *)
Lemma lag_probabilities_differ : exists probs choices ps c label p j,
  NoDup choices /\ (forall c, In c choices -> well_named c) /\ probs = [ps] /\ List.length ps = List.length choices /\
  rsum ps = 1%R /\ (forall p, In p ps -> (0 < p)%R) /\
  parse_lag choices (lagged_choices_probs_template probs choices) 1 = Ok c /\
  nth_error choices j = Some label /\ nth_error ps j = Some p /\ logit_probability c (Label label) <> p.
Proof.
  set (ps := [(1 / 4)%R; (3 / 4)%R]).
  destruct (lag_template [] [ps] ["a"; "edu"]) with (k := 1) (ps := ps) as [c [C1 [_ C3]]].
  - intros p [].
  - apply sh_base_ok.
  - repeat constructor; cbn; intuition discriminate.
  - discriminate.
  - reflexivity.
  - lia.
  - reflexivity.
  - exists [ps], ["a"; "edu"], ps, c, "a", (1 / 4)%R, 0. split; [repeat constructor; cbn; intuition discriminate|].
    split; [intros x I; apply sh_base_ok; exact I|]. split; [reflexivity|]. split; [reflexivity|]. split; [cbn; lra|].
    split; [intros p [<-|[<-|[]]]; lra|]. split; [exact C1|]. split; [reflexivity|]. split; [reflexivity|].
    rewrite (C3 0 "a" (1 / 4)%R eq_refl eq_refl). cbn. intros E.
    assert (P1 := exp_pos (1 / 4)). assert (P2 := exp_pos (3 / 4)).
    assert (X : (exp (3 / 4) = 3 * exp (1 / 4))%R).
    { apply (f_equal (fun x => (x * (exp (1 / 4) + (exp (3 / 4) + 0)))%R)) in E.
      replace (exp (1 / 4) / (exp (1 / 4) + (exp (3 / 4) + 0)) * (exp (1 / 4) + (exp (3 / 4) + 0)))%R with (exp (1 / 4)) in E by (field; lra). lra. }
    replace (3 / 4)%R with (1 / 2 + 1 / 4)%R in X by lra. rewrite exp_plus in X.
    assert (Y : exp (1 / 2) = 3%R) by (apply (Rmult_eq_reg_r (exp (1 / 4))); lra).
    assert (Z : (exp (1 / 2) < exp 1)%R) by (apply exp_increasing; lra). pose proof exp_le_3. lra.
Qed.
