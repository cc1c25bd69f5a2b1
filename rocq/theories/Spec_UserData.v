(** What is claimed about the columns and the index of data. *)
From Coq Require Import String List.
From Verif Require Import Base Model_UserData.
Import ListNotations.
Open Scope list_scope.
Open Scope string_scope.

(** The index has the identifiers and the periods, in any order, and no column has these names. *)
Record indexed {A} (f : user_frame A) (ids periods : list A) : Prop := {
  ix_levels : uf_levels f = [(Some "Identifier", ids); (Some "Period", periods)] \/
              uf_levels f = [(Some "Period", periods); (Some "Identifier", ids)];
  ix_no_identifier : column_of f "Identifier" = None;
  ix_no_period : column_of f "Period" = None }.

(** Identifiers and periods are columns; the index consists of unnamed numbers of rows. *)
Record not_indexed {A} (f : user_frame A) (ids periods : list A) : Prop := {
  ni_levels : exists numbers, uf_levels f = [(None, numbers)];
  ni_identifier : column_of f "Identifier" = Some ids;
  ni_period : column_of f "Period" = Some periods;
  ni_level_0 : column_of f "index" = None }.

(** [df.set_index(["Identifier", "Period"])] *)
Definition set_index {A} (ids periods : list A) (f : user_frame A) : user_frame A :=
  mkUser [(Some "Identifier", ids); (Some "Period", periods)]
    (filter (fun c => negb (String.eqb (fst c) "Identifier") && negb (String.eqb (fst c) "Period"))%bool (uf_columns f)).
