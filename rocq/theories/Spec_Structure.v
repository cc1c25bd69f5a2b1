(** Vocabulary for "values of parameters do not change the structure of a model". *)
From Coq Require Import List String Reals ZArith.
From Verif Require Import Base Model_Choices Model_Params Model_Processing Model_ParseParameters.
Import ListNotations.

(** Both attempts succeed with similar results, or both fail in the same way. *)
Definition same_outcome {A} (similar : A -> A -> Prop) (r s : result A) : Prop :=
  match r, s with
  | Ok a, Ok b => similar a b
  | KeyError, KeyError => True
  | ValueError, ValueError => True
  | IndexError, IndexError => True
  | NameError, NameError => True
  | OtherError, OtherError => True
  | _, _ => False
  end.

(** The levels of a characteristic and, for each level, the names of the covariates with a coefficient. *)
Definition shape (c : container) : list (level * list string) := map (fun lr => (fst lr, map fst (snd lr))) c.
Definition shapes (v : list (string * container)) : list (string * list (level * list string)) :=
  map (fun nc => (fst nc, shape (snd nc))) v.
Definition coefficient_names (c : option (list (string * R))) : option (list string) := option_map (map fst) c.

(** Everything about a model apart from the values of its coefficients. *)
Record same_structure (a b : model_parameters) : Prop := {
  same_processes : shapes (mp_processes a) = shapes (mp_processes b);
  same_observables : shapes (mp_observables a) = shapes (mp_observables b);
  same_choices_ : mp_choices a = mp_choices b;
  same_rewards : map (fun r => (fst r, (coefficient_names (fst (snd r)), coefficient_names (snd (snd r))))) (mp_rewards a) =
                 map (fun r => (fst r, (coefficient_names (fst (snd r)), coefficient_names (snd (snd r))))) (mp_rewards b);
  same_experience : map (fun e => (shape (fst e), snd e)) (mp_experience a) =
                    map (fun e => (shape (fst e), snd e)) (mp_experience b);
  same_shocks : fst (mp_shocks a) = fst (mp_shocks b) /\ List.length (snd (mp_shocks a)) = List.length (snd (mp_shocks b));
  same_meas : fst (mp_meas a) = fst (mp_meas b) /\ List.length (snd (mp_meas a)) = List.length (snd (mp_meas b));
  same_types : fst (mp_types a) = fst (mp_types b) /\
               option_map shape (snd (mp_types a)) = option_map shape (snd (mp_types b));
  same_lagged : map shape (mp_lagged a) = map shape (mp_lagged b)
}.

(** Both lists have the same categories and names in the same order, and the same maximum experiences. *)
Definition other_values (p q : list param) : Prop :=
  map fst p = map fst q /\
  forall choice v w, In ("maximum_exp"%string, choice, v) p -> In ("maximum_exp"%string, choice, w) q -> v = w.
