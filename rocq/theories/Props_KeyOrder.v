(** Property theorems: the order of core keys and the options in effect. *)
From Coq Require Import List Arith Bool String ZArith.
From Verif Require Import Base Model_CoreStateSpace Model_StateSpace Model_Options Spec_KeyOrder Spec_Defaults Proof_KeyOrder Proof_Defaults Props_StateSpace.
Import ListNotations.

(** ** C04 *)
(** Groups are numbered by period and, within a period, by the tuple of available choices. *)
Theorem C04_keys_in_order : forall core csf i j a b, i < j ->
  nth_error (core_key_to_complex core csf) i = Some a -> nth_error (core_key_to_complex core csf) j = Some b -> key_before a b.
Proof. exact keys_in_order. Qed.
Print Assumptions C04_keys_in_order.

Example C04_keys_example : exists a b, nth_error (core_key_to_complex (create_core_state_space ex_sp) ex_csf) 2 = Some a /\
  nth_error (core_key_to_complex (create_core_state_space ex_sp) ex_csf) 3 = Some b /\ key_before a b.
Proof.
  exists (1, [false; true]), (1, [true; true]). split; [vm_compute; reflexivity|]. split; [vm_compute; reflexivity|].
  right. split; [reflexivity|]. left. exists [], [true], [true]. auto.
Qed.

Open Scope string_scope.
(** ** C54 *)
(** Options of the user take precedence, and other options have their default. *)
Theorem C54_options_in_effect : forall user name v, NoDup (dict_keys user) ->
  (dict_get string_dec name (with_defaults user) = Some v <->
   dict_get string_dec name user = Some v \/ dict_get string_dec name user = None /\ has_default name v).
Proof. exact defaults. Qed.
Print Assumptions C54_options_in_effect.

Example C54_options_example : dict_get string_dec "solution_draws" (with_defaults [("n_periods", VInt 5); ("solution_draws", VInt 7)]) = Some (VInt 7%Z) /\
  dict_get string_dec "solution_seed" (with_defaults [("n_periods", VInt 5); ("solution_draws", VInt 7)]) = Some (VInt 3%Z).
Proof. split; reflexivity. Qed.
