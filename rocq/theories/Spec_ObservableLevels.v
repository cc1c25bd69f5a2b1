(** Independent specification: the levels of observables. *)
From Coq Require Import List Bool String Ascii Reals.
From Verif Require Import Base Model_Strings Model_Choices Spec_Choices Spec_Solve Model_Params Spec_Params Model_ParseParameters.
Import ListNotations.
Open Scope string_scope.

(** Levels are numbers if all levels of the variable are written with digits only. *)
Definition written_as (rows : list (string * string)) (n l : string) (level : level) : Prop :=
  ((forall l', In (n, l') rows -> all_digits l' = true) /\ level = Number (digits_value 0 l)) \/
  ((exists l', In (n, l') rows /\ all_digits l' = false) /\ level = Label l).

(** The categories which begin with the keyword are those of the rows; categories are words;
    levels have digits and small letters only; no name is part of another name. *)
Record variables (keyword : string) (params : list param) (rows : list (string * string)) : Prop := {
  va_words : forall p, In p params -> word (p_category p);
  va_rows : filter (prefix (keyword ++ "_")) (map p_category params) = map (observable_category keyword) rows;
  va_simple : simple_rows rows;
  va_levels : forall n l, In (n, l) rows -> l <> "" /\ all_chars (fun c => is_digit c || is_lower c) l = true;
  va_names : forall a b, In a (map fst rows) -> In b (map fst rows) -> substring a b -> a = b
}.

(** Parameters for the variable [n] are probabilities and something else. *)
Definition mixture (keyword : string) (params : list param) (rows : list (string * string)) (n : string) : Prop :=
  (exists p l, In p params /\ p_category p = observable_category keyword (n, l) /\ p_name p = "probability") /\
  ((exists p l, In p params /\ p_category p = observable_category keyword (n, l) /\ p_name p <> "probability") \/
   (exists i j p q l l' level, i <> j /\ nth_error params i = Some p /\ nth_error params j = Some q /\
      p_category p = observable_category keyword (n, l) /\ p_category q = observable_category keyword (n, l') /\
      written_as rows n l level /\ written_as rows n l' level)).

(** The sum of the values of the variable [n]. *)
Definition sum_of (keyword : string) (params : list param) (rows : list (string * string)) (n : string) : R :=
  rsum (map snd (filter (fun p => if in_dec string_dec (p_category p)
     (map (observable_category keyword) (filter (fun r => String.eqb (fst r) n) rows)) then true else false) params)).
