(** Proofs about the defaults of options. *)
From Coq Require Import List ZArith Bool Strings.String.
From Verif Require Import Base Proof_Base Model_Options Proof_KeyOrder Spec_Defaults.
Import ListNotations.
Local Open Scope string_scope.

Lemma default_iff : forall name v, dict_get string_dec name default_options = Some v <-> has_default name v.
Proof.
  intros name v. split.
  - intros H. apply dict_get_Some_In in H. cbn in H.
    repeat (destruct H as [H|H]; [injection H as <- <-; constructor|]). destruct H.
  - intros []; reflexivity.
Qed.

Lemma defaults : forall user name v, NoDup (dict_keys user) ->
  (dict_get string_dec name (with_defaults user) = Some v <->
   dict_get string_dec name user = Some v \/ dict_get string_dec name user = None /\ has_default name v).
Proof.
  intros user name v N. rewrite (options_in_effect user name N). destruct (dict_get string_dec name user) as [w|].
  - split; [intros H; left; exact H|intros [H|[H _]]; [exact H|discriminate]].
  - rewrite default_iff. split; [intros H; right; split; [reflexivity|exact H]|intros [H|[_ H]]; [discriminate|exact H]].
Qed.
