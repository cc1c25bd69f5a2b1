(** Tables of parameters, read by names (independent of the order of columns and of what is
    in the index). *)
From Coq Require Import Strings.String List Arith Bool.
From Verif Require Import Base Model_ReadParams.
Import ListNotations.
Local Open Scope string_scope.

(** Entry [v] of a row of a table with these columns in the column [name]. *)
Definition entry {V} (columns : list string) (cells : list V) (name : string) (v : V) : Prop :=
  In (name, v) (combine columns cells).

(** Rows have as many labels as levels and as many cells as columns, and columns have
    different names. *)
Definition proper_table {V} (df : table V) : Prop :=
  NoDup (t_columns df) /\
  forall r, In r (t_rows df) -> length (fst r) = length (t_levels df) /\ length (snd r) = length (t_columns df).

(** The table has the parameters [ps] in its rows, in this order. *)
Definition has_parameters {V} (df : table V) (ps : list ((V * V) * V)) : Prop :=
  Forall2 (fun r p =>
    entry (t_columns df) (snd r) "value" (snd p) /\
    (t_levels df = [Some "category"; Some "name"] -> fst r = [fst (fst p); snd (fst p)]) /\
    (t_levels df <> [Some "category"; Some "name"] ->
       entry (t_columns df) (snd r) "category" (fst (fst p)) /\ entry (t_columns df) (snd r) "name" (snd (fst p))))
    (t_rows df) ps.

(** The columns (and the index) that are needed are there. *)
Definition has_columns {V} (df : table V) : Prop :=
  In "value" (t_columns df) /\
  (t_levels df = [Some "category"; Some "name"] \/ (In "category" (t_columns df) /\ In "name" (t_columns df))).

(** The Series of parameters. *)
Definition parameters {V} (ps : list ((V * V) * V)) : series V :=
  mkSeries [Some "category"; Some "name"] (map (fun p => ([fst (fst p); snd (fst p)], snd p)) ps).
