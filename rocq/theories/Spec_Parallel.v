(** Independent specification of the distribution over dense keys. *)
From Coq Require Import List Arith Bool Permutation Sorted.
From Verif Require Import Base Model_Parallel.
Import ListNotations.

(** A dictionary over dense keys: not empty and all keys are integers. *)
Definition dense_dictionary {A} (v : pyval A) : Prop :=
  match v with
  | PDict d => d <> [] /\ forall k x, In (k, x) d -> exists n, k = KInt n
  | PAtom _ => False
  end.
Definition has_key {A} (v : pyval A) (n : nat) : Prop :=
  match v with PDict d => exists x, In (KInt n, x) d | PAtom _ => False end.

(** [k] is a key of every dense dictionary among the arguments. *)
Definition shared_key {A} (args : list (pyval A)) (kwargs : list (nat * pyval A)) (k : nat)
  : Prop :=
  forall v, In v (args ++ map snd kwargs) -> dense_dictionary v -> has_key v k.
Definition some_dense_dictionary {A} (args : list (pyval A)) (kwargs : list (nat * pyval A))
  : Prop :=
  exists v, In v (args ++ map snd kwargs) /\ dense_dictionary v.

(** Keys of Python dictionaries are unique. *)
Definition wf_dictionary {A} (v : pyval A) : Prop :=
  match v with PDict d => NoDup (map fst d) | PAtom _ => True end.

(** The value an argument has for key [k]: the entry of a dense dictionary, and the
    argument itself otherwise. *)
Inductive for_key {A} (k : nat) : pyval A -> pyval A -> Prop :=
| fk_entry : forall d x, dense_dictionary (PDict d) -> In (KInt k, x) d ->
    for_key k (PDict d) x
| fk_same : forall v, ~ dense_dictionary v -> for_key k v v.

(** No dictionary with other than integer keys has a dense key as key (it would be
    treated like a dense dictionary). *)
Definition no_mixed_dictionary {A} (args : list (pyval A)) (kwargs : list (nat * pyval A))
  : Prop :=
  forall v k, In v (args ++ map snd kwargs) -> ~ dense_dictionary v -> ~ has_key v k.

(** The iteration order of a set. *)
Definition iteration_order (order : list nat -> list nat) : Prop :=
  forall l, Permutation (order l) l.

(** Unique indices, in ascending order. *)
Definition index_lt (a b : index) : Prop :=
  fst a < fst b \/ (fst a = fst b /\ snd a < snd b).
Definition ordered_frame {A} (df : frame A) : Prop :=
  StronglySorted index_lt (map fst df).
