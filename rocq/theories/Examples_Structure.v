(** Other values of the parameters of a model with a lagged choice and an observable. *)
From Coq Require Import List Arith Bool String Ascii Reals ZArith Lra Lia.
From Verif Require Import Base Model_Strings Model_Cache Model_Choices Model_CoreStateSpace Model_Params Model_Processing Model_ParseParameters
  Spec_Structure Proof_Processing Examples_ParameterOrder.
Import ListNotations.
Local Open Scope nat_scope.
Open Scope string_scope.

Definition st_other : list param := map (fun x : param => (fst x, (snd x + 7)%R)) pe_params.
Lemma st_other_values : other_values pe_params st_other.
Proof.
  split; [unfold st_other; rewrite map_map; reflexivity|].
  intros c v w I _. exfalso. repeat (destruct I as [I|I]; [discriminate I|]). destruct I.
Qed.
Lemma st_processed : exists m m', process_parameters 3 pe_covariates pe_params = Ok m /\
  process_parameters 3 pe_covariates st_other = Ok m' /\ m <> m'.
Proof.
  eexists. eexists. split; [vm_compute; reflexivity|]. split; [vm_compute; reflexivity|].
  intros E. apply (f_equal (fun m => snd (mp_shocks m))) in E. cbn [mp_shocks snd] in E.
  injection E as E1 E2 E3. lra.
Qed.

Lemma truncate_1 : truncate 1 = 1%Z.
Proof.
  pose proof (truncate_nonneg 1 ltac:(lra)) as [A B].
  assert (truncate 1 < 2)%Z by (apply lt_IZR; lra). assert (0 < truncate 1)%Z by (apply lt_IZR; lra). lia.
Qed.
Lemma truncate_2 : truncate 2 = 2%Z.
Proof.
  pose proof (truncate_nonneg 2 ltac:(lra)) as [A B].
  assert (truncate 2 < 3)%Z by (apply lt_IZR; lra). assert (1 < truncate 2)%Z by (apply lt_IZR; lra). lia.
Qed.
(** The value of a maximum experience is a part of the structure. *)
Lemma maximum_matters : exists n_periods choices p q sp sq, map fst p = map fst q /\
  core_spec_of n_periods 0 [] choices choices p = Ok sp /\ core_spec_of n_periods 0 [] choices choices q = Ok sq /\
  sp_max sp = [1] /\ sp_max sq = [2].
Proof.
  exists 5, ["a"], [("maximum_exp", "a", 1%R)], [("maximum_exp", "a", 2%R)]. eexists. eexists.
  split; [reflexivity|]. split; [reflexivity|]. split; [reflexivity|].
  cbn -[truncate Z.to_nat]. rewrite truncate_1, truncate_2. split; reflexivity.
Qed.
