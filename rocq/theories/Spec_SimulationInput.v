(** What is claimed about the data of simulations. *)
From Coq Require Import String List Arith.
From Verif Require Import Base Model_Choices Model_Parallel Model_SimulationInput.
Import ListNotations.
Open Scope list_scope.
Open Scope string_scope.

(** The data have a column with this internal name. *)
Definition present (d : sim_data) (name : string) : Prop :=
  In name (map (fun p => rename_labels_to_internal (fst p)) (sd_columns d)).
(** The data have the value [v] of a variable in the row with index [i]. *)
Definition holds (d : sim_data) (name : string) (i : index) (v : level) : Prop :=
  exists u col k, In (u, col) (sd_columns d) /\ rename_labels_to_internal u = name /\
    nth_error (sd_index d) k = Some i /\ nth_error col k = Some (Some v).
(** Rows and columns are unique. *)
Definition unique_data (d : sim_data) : Prop :=
  NoDup (sd_index d) /\ NoDup (map (fun p => rename_labels_to_internal (fst p)) (sd_columns d)).
(** A value which is a label or a number. *)
Definition can_be_coded (levels : list level) (v : level) : Prop := In v levels \/ exists n, v = Number n.

(** Every variable has its own name. *)
Definition proper_names (nm : names) : Prop := NoDup ("choice" :: state_columns nm).

(** In the rows [rows], every column with labels has a valid value. *)
Definition labels_complete (nm : names) (rows : list index) (d : sim_data) : Prop :=
  forall name levels i, In (name, levels) (labelled_columns nm) -> present d name -> In i rows ->
    exists v, holds d name i v /\ can_be_coded levels v.

(** The processed columns: all state variables; labels are replaced by their codes, other
    values are kept, and what is missing in the data is missing. *)
Record processed (nm : names) (rows : list index) (d : sim_data) (out : columns) : Prop := {
  pr_names : map fst out = state_columns nm;
  pr_rows : forall name col, In (name, col) out -> List.length col = List.length rows;
  pr_labels : forall name levels col k i v, In (name, col) out -> In (name, levels) (labelled_columns nm) ->
    nth_error rows k = Some i -> holds d name i v ->
    exists c, label_to_code levels v = Ok c /\ nth_error col k = Some (Some (Number c));
  pr_others : forall name col k i v, In (name, col) out -> ~ In name (map fst (labelled_columns nm)) ->
    nth_error rows k = Some i -> holds d name i v -> nth_error col k = Some (Some v);
  pr_missing : forall name col k i, In (name, col) out -> nth_error rows k = Some i ->
    (forall v, ~ holds d name i v) -> nth_error col k = Some None }.
