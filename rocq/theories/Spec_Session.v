(** Vocabulary for the objects of a session (independent of how options are processed). *)
From Coq Require Import List Arith Bool String.
From Verif Require Import Base Model_Session.
Import ListNotations.
Open Scope list_scope.

(** What can be seen of the options at [a]. *)
Definition seen (h : heap) (a : nat) : result contents := snd (see_options a h).

(** What can be seen of the options a computation returns. *)
Definition observed (r : heap * result nat) : result contents :=
  result_bind (snd r) (seen (fst r)).

(** The events that specify a model. *)
Definition specifies (e : event) : Prop := exists q user, e = Specify q user.

(** The events that specify a model or change one of the first [n] objects. *)
Definition old_object (n : nat) (e : event) : Prop :=
  specifies e \/ exists a o, e = Change a o /\ a < n.

(** The formulas given for a choice: those of the user or, if the user does not mention
    restrictions at all, of the default options. *)
Definition given (user defaults : contents) (choice : string) : option (list string) :=
  match c_restr user with
  | Some r => dict_get string_dec choice r
  | None => match c_restr defaults with
            | Some r => dict_get string_dec choice r
            | None => None
            end
  end.
Definition or_else {A} (x : option A) (d : A) : A := match x with Some v => v | None => d end.

(** The options parameters are parsed with: the user's options take precedence, and the
    covariates are the relevant ones. *)
Definition merged (user defaults : contents) (covariates : list (string * string)) : contents :=
  mkContents (Some covariates) (either (c_filters user) (c_filters defaults))
             (either (c_restr user) (c_restr defaults))
             (dict_update string_dec (c_rest defaults) (c_rest user)).

(** The events that specify a model or change an object other than the first [n]. *)
Definition new_object (n : nat) (e : event) : Prop :=
  specifies e \/ exists a o, e = Change a o /\ n <= a.
