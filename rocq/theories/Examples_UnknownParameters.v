(** A misspelled parameter in a model with a lagged choice and an observable. *)
From Coq Require Import List Arith Bool String Ascii Reals ZArith.
From Verif Require Import Base Model_Strings Model_Choices Model_Params Spec_Params Proof_Names Model_ParseParameters Spec_UnknownParameters
  Examples_ParameterOrder.
Import ListNotations.
Open Scope string_scope.
Open Scope list_scope.

(** [nonpecs_home] instead of [nonpec_home]. *)
Definition up_typo : param := ("nonpecs_home", "constant", 5%R).

Lemma up_typo_unknown : unknown_parameter (pe_covariates ++ [("constant", "1")]) up_typo.
Proof.
  constructor.
  - intros k I H. apply substring_contains in H.
    repeat (destruct I as [<-|I]; [vm_compute in H; discriminate|]). destruct I.
  - cbn. intuition discriminate.
  - intros k I H. apply substring_contains in H.
    repeat (destruct I as [<-|I]; [vm_compute in H; discriminate|]). destruct I.
  - intros f I H. repeat (destruct I as [I|I]; [discriminate|]). destruct I as [I|[]]. injection I as <-.
    apply substring_contains in H. vm_compute in H. discriminate.
Qed.

Lemma up_typo_accepted : exists n_periods covariates a b p mp,
  p_category p = "nonpecs_home" /\ snd p <> 0%R /\
  (exists w, In ("home", (w, Some [("constant", 0%R); ("work", 1%R)])) (mp_rewards mp)) /\
  process_parameters n_periods covariates (a ++ p :: b) = Ok mp /\
  process_parameters n_periods covariates (a ++ b) = Ok mp.
Proof.
  exists 3, pe_covariates, pe_first, pe_shocks, up_typo. eexists. split; [reflexivity|].
  split; [cbn; intros H; apply (eq_IZR 5 0) in H; discriminate|]. split; [|split; vm_compute; reflexivity].
  eexists. vm_compute. right. left. reflexivity.
Qed.
