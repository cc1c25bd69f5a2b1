(** Independent specification: the order of core keys and the options in effect. *)
From Coq Require Import List Arith Bool String.
Import ListNotations.

(** Order of tuples of choices, unavailable before available. *)
Definition tuple_before (a b : list bool) : Prop :=
  (exists c x y, a = c ++ false :: x /\ b = c ++ true :: y) \/ (exists x y, b = a ++ x :: y).
Definition key_before (a b : nat * list bool) : Prop :=
  fst a < fst b \/ (fst a = fst b /\ tuple_before (snd a) (snd b)).
