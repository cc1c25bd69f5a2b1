(** Independent specification of changes of the rewards of one choice. *)
From Coq Require Import List Arith Reals.
Import ListNotations.
Open Scope R_scope.

(** [r'] are the rewards [r] with the reward of the choice at position [j] increased by
    [x]. *)
Definition raised (j : nat) (x : R) (r r' : list R) : Prop :=
  length r' = length r /\ (j < length r)%nat /\ nth j r' 0 = nth j r 0 + x /\
  forall k, k <> j -> nth k r' 0 = nth k r 0.
