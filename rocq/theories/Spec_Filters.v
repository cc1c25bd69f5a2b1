(** The filters of the example models (respy/tests/resources/*.yaml, e.g.
    kw_94_one.yaml:11-24), as predicates on the state with the experience gained (see
    C63), and what it means that filters follow the choices. *)
From Coq Require Import List Arith Bool.
From Verif Require Import Base Model_CoreStateSpace Spec_CoreStateSpace.
Import ListNotations.

(** The lagged choice is [c]. *)
Definition lag_is (c : nat) (s : core_state) : bool :=
  match cs_lag s with Some d :: _ => d =? c | _ => false end.

(** The experience of the choice [c] is [n]. *)
Definition exp_is (c n : nat) (s : core_state) : bool :=
  match nth_error (cs_exp s) c with Some e => e =? n | None => false end.

(** kw_94_one.yaml:14:
    period > 0 and exp_{choices_w_exp} == period and lagged_choice_1 != '{choices_w_exp}' *)
Definition always_but_last (c : nat) (s : core_state) : bool :=
  (0 <? cs_period s) && exp_is c (cs_period s) s && negb (lag_is c s).

(** kw_94_one.yaml:17, the sum of all experiences:
    period > 0 and exp_a + exp_b + exp_edu == period and lagged_choice_1 == '{choices_wo_exp}' *)
Definition experienced_but_last (c : nat) (s : core_state) : bool :=
  (0 <? cs_period s) && (list_sum (cs_exp s) =? cs_period s) && lag_is c s.

(** kw_94_one.yaml:20: period > 0 and lagged_choice_1 == 'edu' and exp_edu == 0 *)
Definition last_without_experience_later (c : nat) (s : core_state) : bool :=
  (0 <? cs_period s) && lag_is c s && exp_is c 0 s.

(** kw_94_one.yaml:22: lagged_choice_1 == '{choices_w_wage}' and exp_{choices_w_wage} == 0 *)
Definition last_without_experience (c : nat) (s : core_state) : bool :=
  lag_is c s && exp_is c 0 s.

(** kw_94_one.yaml:24: period == 0 and lagged_choice_1 == '{choices_w_wage}' *)
Definition last_before_start (c : nat) (s : core_state) : bool :=
  (cs_period s =? 0) && lag_is c s.

(** One of these filters, for a choice with or without experience as in the templates. *)
Definition usual_filter (sp : core_spec) (f : core_state -> bool) : Prop :=
  exists c,
    (c < length (sp_starts sp) /\
     ((forall s, f s = always_but_last c s) \/
      (forall s, f s = last_without_experience_later c s) \/
      (forall s, f s = last_without_experience c s))) \/
    (length (sp_starts sp) <= c < sp_nchoices sp /\
     forall s, f s = experienced_but_last c s) \/
    (forall s, f s = last_before_start c s).

(** Filters follow the choices if no filter that is silent in a state speaks in the state
    to which an available choice leads. *)
Definition filters_follow_choices (sp : core_spec) (neg : neg_set) : Prop :=
  forall ctx s gain c,
    In s (create_core_state_space sp) -> S (cs_period s) < sp_nperiods sp ->
    nth_error (choice_set_of sp neg ctx s) c = Some true ->
    (exists init, Forall2 (fun x levels => In x levels) init (sp_starts sp) /\
                  cs_exp s = vec_add init gain) ->
    length gain = length (sp_starts sp) ->
    list_sum gain <= cs_period s ->
    (forall f, In f (sp_filters sp) -> f (mkState (cs_period s) gain (cs_lag s)) = false) ->
    forall f, In f (sp_filters sp) ->
    f (law_of_motion c (mkState (cs_period s) gain (cs_lag s))) = false.
