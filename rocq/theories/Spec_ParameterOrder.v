(** Independent specification: processed parameters which mean the same. *)
From Coq Require Import List Arith Bool String Ascii Reals ZArith Sorting.Permutation.
From Verif Require Import Base Model_Strings Model_Cache Model_Choices Model_Params Model_ParseParameters Spec_Params.
Import ListNotations.
Open Scope string_scope.

(** Coefficients may be listed in another order. *)
Definition same_coefficients (a b : option (list (string * R))) : Prop :=
  match a, b with Some x, Some y => Permutation x y | None, None => True | _, _ => False end.
(** The same levels in the same order. *)
Definition same_container (c c' : container) : Prop :=
  Forall2 (fun x y => fst x = fst y /\ Permutation (snd x) (snd y)) c c'.
(** The same variables in the same order. *)
Definition same_variables (v v' : list (string * container)) : Prop :=
  Forall2 (fun x y => fst x = fst y /\ same_container (snd x) (snd y)) v v'.
Definition same_option (c c' : option container) : Prop :=
  match c, c' with Some x, Some y => same_container x y | None, None => True | _, _ => False end.

Record same_parameters (m m' : model_parameters) : Prop := {
  sp_discounting : mp_discounting m = mp_discounting m';
  sp_processes : same_variables (mp_processes m) (mp_processes m');
  sp_observables : same_variables (mp_observables m) (mp_observables m');
  sp_choices : mp_choices m = mp_choices m';
  sp_rewards : Forall2 (fun x y => fst x = fst y /\ same_coefficients (fst (snd x)) (fst (snd y)) /\
                                   same_coefficients (snd (snd x)) (snd (snd y))) (mp_rewards m) (mp_rewards m');
  sp_experience : Forall2 (fun x y => same_container (fst x) (fst y) /\ snd x = snd y) (mp_experience m) (mp_experience m');
  sp_shocks : mp_shocks m = mp_shocks m';
  sp_meas : mp_meas m = mp_meas m';
  sp_types : fst (mp_types m) = fst (mp_types m') /\ same_option (snd (mp_types m)) (snd (mp_types m'));
  sp_lagged : Forall2 same_container (mp_lagged m) (mp_lagged m')
}.

(** Results which are related, or the same error. *)
Definition same_result {A} (P : A -> A -> Prop) (r r' : result A) : Prop :=
  match r, r' with
  | Ok x, Ok y => P x y
  | KeyError, KeyError | ValueError, ValueError | IndexError, IndexError
  | NameError, NameError | OtherError, OtherError => True
  | _, _ => False
  end.

(** The patterns of categories which define a distribution. *)
Inductive distribution : (string -> option string) -> Prop :=
| of_process : forall n, distribution (level_pattern "exogenous_process" n)
| of_observable : forall n, distribution (level_pattern "observable" n)
| of_experience : forall c, distribution (extract ("initial_exp_" ++ c ++ "_") is_digit)
| of_types : distribution (extract "type_" is_digit)
| of_lag : forall k, distribution (search ("lagged_choice_" ++ dec k ++ "_") is_name).

(** Probabilities of a distribution do not sum to zero. *)
Definition nonzero_sums (params : list param) : Prop :=
  forall ext, distribution ext -> (exists p s, describes ext params p s) ->
  (forall p s, describes ext params p s -> p_name p = "probability") -> group_total ext params <> 0%R.
