(** Independent specification: constraints of example models as objects. *)
From Coq Require Import List Arith Bool String.
From Verif Require Import Base Model_Strings Model_Interface.
Import ListNotations.
Open Scope string_scope.
Open Scope list_scope.

(** What a user does with constraints does not concern model [m]: lists are only changed if
    they were not requested for a model which shares its list with [m]; single constraints
    are only changed if [m] and the other model are not both models of Keane and Wolpin
    (1997). *)
Definition harmless (m : string) (e : event) : Prop :=
  match e with
  | Look _ => True
  | Append m' _ | Remove m' _ => get_parameter_constraints m' <> get_parameter_constraints m
  | SetEntry m' _ _ _ =>
      get_parameter_constraints m' <> get_parameter_constraints m /\
      ~ (contains "kw_97" m = true /\ contains "kw_97" m' = true)
  end.

(** Nothing is changed at all. *)
Definition only_looks (e : event) : Prop := match e with Look _ => True | _ => False end.
