(** Histories of choices that can be observed (independent of the likelihood). *)
From Coq Require Import List Arith Bool Reals.
From Verif Require Import Base Model_Parallel Model_Likelihood.
Import ListNotations.
Local Open Scope nat_scope.

(** All sequences of [n] choices after [past] if [options] lists the choices that are
    available after a history. *)
Fixpoint histories (options : list nat -> list nat) (n : nat) (past : list nat) : list (list nat) :=
  match n with
  | O => [[]]
  | S n' => flat_map (fun c => map (cons c) (histories options n' (past ++ [c]))) (options past)
  end.

(** The data of an individual who makes these choices and whose wages are not observed. *)
Definition panel (path : list nat) : frame obs :=
  map (fun tc => ((0, fst tc), mkObs (snd tc) None)) (enumerate path).

(** [place past t] is the state (dense key, position) an individual of type [t] is in after
    the choices [past]. *)
Definition locate_along (place : list nat -> nat -> nat * nat) (path : list nat)
  (idx : index) (ob : obs) (t : nat) : result (nat * nat) :=
  Ok (place (firstn (snd idx) path) t).

(** The arrays have the right shapes in all states that can be reached in less than [n]
    periods; the available choices are those of [choice_set] for all types, there is at
    least one, and different types are in different parts of the state space. *)
Definition proper_tree (lk : like_spec) (env : like_env) (n_types : nat) (place : list nat -> nat -> nat * nat)
  (choice_set : list nat -> list bool) (n : nat) : Prop :=
  (forall past t, In past (histories (fun p => positions (choice_set p)) (length past) []) ->
     length past < n -> t < n_types ->
     let k := fst (place past t) in let pos := snd (place past t) in
     le_choice_set env k = choice_set past /\ positions (choice_set past) <> [] /\
     length (choice_set past) = length (lk_meas lk) /\
     length (le_wages env k pos) = count_true (choice_set past) /\
     length (le_nonpec env k pos) = count_true (choice_set past) /\
     length (le_cont env k pos) = count_true (choice_set past) /\ forall j, le_draws env k j <> []) /\
  (forall past past' t t', t < n_types -> t' < n_types -> fst (place past t) = fst (place past' t') -> t = t').
