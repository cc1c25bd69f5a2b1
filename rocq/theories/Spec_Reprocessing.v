(** What is claimed about options that are processed again. *)
From Coq Require Import List Arith Bool String Ascii.
From Verif Require Import Base Model_Strings Model_Cache Model_Choices Spec_Choices Spec_Covariates Model_Reprocessing.
Import ListNotations.
Open Scope string_scope.

(** Names of variables: word characters, the first of which is not a digit. *)
Definition identifier (s : string) : Prop :=
  exists c r, s = String c r /\ is_name c = true /\ all_chars is_word r = true.

(** Quoted labels are neighbours of characters which are not word characters, for example
    spaces and operators, or of the ends of the formula.  [before]: what precedes is such
    a character or the start. *)
Fixpoint begins_apart (f : list segment) : Prop :=
  match f with
  | [] => True
  | Text EmptyString :: r => begins_apart r
  | Text (String c _) :: _ => is_word c = false
  | Quoted _ _ :: _ => False
  end.
Fixpoint ends_apart (before : bool) (s : string) : bool :=
  match s with EmptyString => before | String c r => ends_apart (negb (is_word c)) r end.
Fixpoint apart (before : bool) (f : list segment) : Prop :=
  match f with
  | [] => True
  | Text s :: r => apart (ends_apart before s) r
  | Quoted _ _ :: r => before = true /\ begins_apart r /\ apart false r
  end.

(** A formula with quoted labels in this way; [cls]: characters of labels (C45). *)
Definition proper_formula (cls : ascii -> bool) (f : string) : Prop :=
  exists segments, f = render segments /\ separated cls false segments /\ apart true segments.

(** Names of the covariates that are added for types. *)
Definition type_names (n_types : nat) : list string := map (fun i => "type_" ++ dec i) (seq 1 (n_types - 1)).

(** A label which contains no name of a covariate, an experience or a lagged choice. *)
Definition plain_label (names : list string) (l : string) : Prop :=
  ~ occurs "exp_" l /\ ~ occurs "lagged_choice_" l /\ forall c, In c names -> ~ occurs c l.

(** The same choices, lagged choices and formulas of covariates; the order of the
    covariates may differ. *)
Definition same_model (p q : processed) : Prop :=
  pr_choices p = pr_choices q /\ pr_lags p = pr_lags q /\
  forall c, dict_get string_dec c (pr_covariates p) = dict_get string_dec c (pr_covariates q).
