(** Model of the data that a user passes to a simulation: simulate.py:691-747
    (_process_input_df_for_simulation). *)
From Coq Require Import String List Arith Bool.
From Verif Require Import Base Model_Strings Model_Cache Model_Choices Model_Parallel.
Import ListNotations.
Open Scope list_scope.
Open Scope string_scope.

(** What is used of [optim_paras]. *)
Record names := mkNames {
  nm_choices : list string;
  nm_exps : list string;
  nm_lags : nat;
  nm_observables : list (string * list level);
  nm_types : nat }.

(** Columns with values; [None] is a missing value.  Simplified: names are different, also
    after they have been changed to internal names. *)
Definition columns := list (string * list (option level)).
Record sim_data := mkSimData {
  sd_index : list index;
  sd_columns : columns }.

(** shared.py:398-442 (create_state_space_columns).  Simplified: exogenous processes are not
    moved to the end. *)
Definition exp_columns (nm : names) : list string := map (fun c => "exp_" ++ c)%string (nm_exps nm).
Definition lag_columns (nm : names) : list string := map (fun i => "lagged_choice_" ++ dec i)%string (seq 1 (nm_lags nm)).
Definition state_columns (nm : names) : list string :=
  exp_columns nm ++ lag_columns nm ++ map fst (nm_observables nm) ++ (if Nat.leb 2 (nm_types nm) then ["type"] else []).

(** [.rename(columns=rename_labels_to_internal)] *)
Definition internal_columns (c : columns) : columns := map (fun p => (rename_labels_to_internal (fst p), snd p)) c.

(** One value of a column in the row with index [i]; rows which do not exist are missing. *)
Fixpoint value_in_row (idx : list index) (col : list (option level)) (i : index) : option level :=
  match idx, col with
  | j :: idx, v :: col => if Nat.eqb (fst j) (fst i) && Nat.eqb (snd j) (snd i) then v else value_in_row idx col i
  | _, _ => None
  end.
(** [.reindex(index=index)]; also the sort of the rows, where [rows] is the sorted index. *)
Definition take_rows (rows : list index) (d : sim_data) : columns :=
  map (fun p => (fst p, map (value_in_row (sd_index d) (snd p)) rows)) (internal_columns (sd_columns d)).

(** shared.py:328-340 for a column with missing values, which cannot be converted to uint8. *)
Definition code_value (levels : list level) (v : option level) : result (option level) :=
  match v with
  | Some l => result_bind (label_to_code levels l) (fun n => Ok (Some (Number n)))
  | None => ValueError
  end.
Definition convert_column (cols : columns) (p : string * list level) : result columns :=
  match dict_get string_dec (fst p) cols with
  | Some col => result_bind (result_all (map (code_value (snd p)) col)) (fun c => Ok (dict_set string_dec (fst p) c cols))
  | None => Ok cols
  end.
(** shared.py:326-340: the columns with labels. *)
Definition labelled_columns (nm : names) : list (string * list level) :=
  ("choice", map Label (nm_choices nm)) :: map (fun n => (n, map Label (nm_choices nm))) (lag_columns nm) ++ nm_observables nm.
Fixpoint convert_columns (l : list (string * list level)) (cols : columns) : result columns :=
  match l with
  | [] => Ok cols
  | p :: l => result_bind (convert_column cols p) (convert_columns l)
  end.

(** simulate.py:727-728: columns which do not exist are missing. *)
Definition reindex_columns (names : list string) (n : nat) (cols : columns) : columns :=
  map (fun name => (name, match dict_get string_dec name cols with Some c => c | None => repeat None n end)) names.

Definition is_missing (v : option level) : bool := match v with None => true | Some _ => false end.
(** simulate.py:732-741 *)
Definition has_missing (cols : columns) : bool :=
  existsb (fun p => negb (String.eqb (fst p) "type") && existsb is_missing (snd p)) cols.

(** simulate.py:698-747: the data for [agents] individuals in the first period and whether a
    warning is given. *)
Definition input_n_step (nm : names) (agents : nat) (d : sim_data) : result (bool * columns) :=
  let rows := map (fun k => (k, 0)) (seq 0 agents) in
  result_bind (convert_columns (labelled_columns nm) (take_rows rows d)) (fun cols =>
  let out := reindex_columns (state_columns nm) agents cols in Ok (has_missing out, out)).

(** simulate.py:711-747: the data for one-step-ahead simulations; [rows] is the sorted index. *)
Definition input_one_step (nm : names) (rows : list index) (d : sim_data) : result columns :=
  result_bind (convert_columns (labelled_columns nm) (take_rows rows d)) (fun cols =>
  let out := reindex_columns (state_columns nm) (List.length rows) cols in
  if has_missing out then ValueError else Ok out).
