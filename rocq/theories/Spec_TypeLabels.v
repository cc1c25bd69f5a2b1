(** Independent specification: other labels for the types. *)
From Coq Require Import List Arith ZArith Bool Reals.
From Verif Require Import Base Model_Parallel Model_Likelihood Spec_Likelihood.
Import ListNotations.

(** [pi t] is the former label of type [t]. *)
Definition relabelling (n : nat) (pi : nat -> nat) : Prop :=
  (forall t, (t < n)%nat -> (pi t < n)%nat) /\
  (forall t t', (t < n)%nat -> (t' < n)%nat -> pi t = pi t' -> t = t').

(** Rewards, continuation values and choice sets of type [t] after the change are those of
    type [pi t] before, in all observed states. *)
Definition relabelled_env (n : nat) (pi : nat -> nat) (locate : index -> obs -> nat -> result (nat * nat)) (data : frame obs)
  (env env' : like_env) : Prop :=
  forall i o t k p k' p', In (i, o) data -> (t < n)%nat -> locate i o t = Ok (k', p') -> locate i o (pi t) = Ok (k, p) ->
    le_choice_set env' k' = le_choice_set env k /\ le_wages env' k' p' = le_wages env k p /\
    le_nonpec env' k' p' = le_nonpec env k p /\ le_cont env' k' p' = le_cont env k p.

(** The probabilities of types depend on differences of indices only, so a common number can
    be subtracted (to normalise the parameters of the first type to zero). *)
Definition relabelled_indices (n : nat) (pi : nat -> nat) (z z' : list R) : Prop :=
  length z = n /\ length z' = n /\ exists s, forall t, (t < n)%nat -> nth t z' 0%R = (nth (pi t) z 0 - s)%R.

(** Which observations share a dense state does not depend on the type. *)
Definition same_groups (n : nat) (pi : nat -> nat) (locate : index -> obs -> nat -> result (nat * nat)) (data : frame obs) : Prop :=
  forall i o j o' t k k' l l' p1 p2 p3 p4, In (i, o) data -> In (j, o') data -> (t < n)%nat ->
    locate i o t = Ok (k, p1) -> locate j o' t = Ok (l, p2) ->
    locate i o (pi t) = Ok (k', p3) -> locate j o' (pi t) = Ok (l', p4) -> (k = l <-> k' = l').

(** Draws which do not depend on the seed, as those of C107 with sequences that use no random
    numbers. *)
Definition without_seed (generate : Z -> nat -> nat -> list (list (list R))) : Prop :=
  forall s s' n c, generate s n c = generate s' n c.

(** The parameters of the types after the change, if those of the first type are
    normalised to zero; all types have the same covariates [0], ..., [m - 1]. *)
Definition coefficients (m : nat) (b : nat -> R) : list (nat * R) := map (fun j => (j, b j)) (seq 0 m).
Definition normalised (m : nat) (beta : nat -> nat -> R) (n : nat) (pi : nat -> nat) : list (list (nat * R)) :=
  map (fun t => coefficients m (fun j => beta (pi t) j - beta (pi 0%nat) j)%R) (seq 0 n).
