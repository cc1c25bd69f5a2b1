(** Independent specification: draws of the likelihood and other individuals. *)
From Coq Require Import List Arith ZArith Bool Reals.
From Verif Require Import Base Model_Parallel Model_Likelihood.
Import ListNotations.

(** A generator whose first sets of draws do not depend on how many are requested. *)
Definition extendable (generate : Z -> nat -> nat -> list (list (list R))) : Prop :=
  forall s n m c, (n <= m)%nat -> generate s n c = firstn n (generate s m c) /\ length (generate s n c) = n.

(** Observations of different types never have the same dense key. *)
Definition types_separated (locate : index -> obs -> nat -> result (nat * nat)) (n_types : nat) : Prop :=
  forall i o t j o' t' k p p', (t < n_types)%nat -> (t' < n_types)%nat -> locate i o t = Ok (k, p) -> locate j o' t' = Ok (k, p') -> t = t'.

(** [k] is the dense key of an observation of the data for some type. *)
Definition key_in (locate : index -> obs -> nat -> result (nat * nat)) (n_types : nat) (data : frame obs) (k : nat) : Prop :=
  exists i o t p, In (i, o) data /\ (t < n_types)%nat /\ locate i o t = Ok (k, p).

(** All individuals of [extra] have larger identifiers than those of [data]. *)
Definition later_individuals (data extra : frame obs) : Prop :=
  forall i o j o', In (i, o) data -> In (j, o') extra -> (fst i < fst j)%nat.

(** The dense keys of [extra] which do not occur in [data] are larger than those of [data]. *)
Definition later_keys (locate : index -> obs -> nat -> result (nat * nat)) (n_types : nat) (data extra : frame obs) : Prop :=
  forall k k', key_in locate n_types data k -> key_in locate n_types extra k' ->
    key_in locate n_types data k' \/ (k < k')%nat.
