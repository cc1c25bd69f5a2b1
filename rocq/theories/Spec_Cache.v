(** What is claimed about the cache on disk. *)
From Coq Require Import List Arith Bool String.
From Verif Require Import Base Model_CoreStateSpace Model_StateSpace Model_Exogenous Model_Cache.
Import ListNotations.
Open Scope string_scope.

(** [d] is the directory [root] or below it. *)
Definition below (root d : dir) : Prop := exists r, d = (root ++ r)%list.

(** The state space of the model was created without error. *)
Definition created (m : cached_model) : Prop :=
  exists nperiods core csf grid,
    create_state_space nperiods core csf grid = Ok (cm_ss m) \/
    exists levels, create_state_space_exog nperiods core csf grid levels = Ok (cm_ss m).

(** Number of the model an event is about. *)
Definition event_model (e : event) : nat := match e with Create i => i | Call i _ => i end.

(** No underscore. *)
Definition no_underscore (s : string) : Prop := forall a b, s <> a ++ "_" ++ b.

(** Files that are not in or below a directory. *)
Definition outside (root : dir) (f : dir * string) : Prop := ~ below root (fst f).
