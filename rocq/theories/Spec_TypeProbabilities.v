(** Probabilities of values drawn with a uniform number. *)
From Coq Require Import Reals.
From Verif Require Import Base.
Open Scope R_scope.

(** With a number [u] that is uniform on the unit interval, [sample u] is [t] with
    probability [p]: this is so exactly on an interval of length [p]. *)
Definition drawn_with_probability (sample : R -> result nat) (t : nat) (p : R) : Prop :=
  exists lo, 0 <= lo /\ lo + p <= 1 /\ forall u, 0 <= u < 1 -> (sample u = Ok t <-> lo <= u < lo + p).
