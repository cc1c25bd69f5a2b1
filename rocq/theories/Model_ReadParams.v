(** Model of the ways to pass parameters to a model (model_processing.py:116-135,
    [_read_params]).  Definitions only.

    A DataFrame is given by the names of the levels of its index ([None]: no name), the names
    of its columns and its rows, where a row has the labels of the index and the cells of the
    columns.  The entries are of an arbitrary type.  Not modelled: parsing the text of a csv
    file ([pd.read_csv] is the table that is in the file with the default index), frames with
    duplicated column names. *)
From Coq Require Import Strings.String List Arith Bool.
From Verif Require Import Base.
Import ListNotations.
Local Open Scope string_scope.

Inductive raised (A : Type) : Type :=
  | Returns (a : A)
  | RaisesKeyError
  | RaisesAssertionError
  | RaisesTypeError
  | RaisesAttributeError.
Arguments Returns {A}. Arguments RaisesKeyError {A}. Arguments RaisesAssertionError {A}.
Arguments RaisesTypeError {A}. Arguments RaisesAttributeError {A}.

Record table (V : Type) := mkTable {
  t_levels : list (option string);
  t_columns : list string;
  t_rows : list (list V * list V)
}.
Arguments mkTable {V}. Arguments t_levels {V}. Arguments t_columns {V}. Arguments t_rows {V}.

(** A Series: names of the levels, labels and values. *)
Record series (V : Type) := mkSeries {
  s_levels : list (option string);
  s_entries : list (list V * V)
}.
Arguments mkSeries {V}. Arguments s_levels {V}. Arguments s_entries {V}.

(** What the user can pass: a [pathlib.Path] to a csv file with a header and lines, a
    DataFrame, a Series or something else, which has a method [copy] (e.g. a dictionary, a
    list or an array) or not (e.g. a string, also one with the location of a file). *)
Inductive given (V : Type) : Type :=
  | GivenPath (header : list string) (lines : list (list V))
  | GivenFrame (df : table V)
  | GivenSeries (s : series V)
  | GivenOther (has_copy : bool).
Arguments GivenPath {V}. Arguments GivenFrame {V}. Arguments GivenSeries {V}. Arguments GivenOther {V}.

Definition level_eqb (a b : option string) : bool :=
  match a, b with Some x, Some y => String.eqb x y | None, None => true | _, _ => false end.
Fixpoint levels_eqb (a b : list (option string)) : bool :=
  match a, b with
  | [], [] => true
  | x :: a', y :: b' => level_eqb x y && levels_eqb a' b'
  | _, _ => false
  end.

(** model_processing.py:126 and 131: ["category", "name"]. *)
Definition param_levels : list (option string) := [Some "category"; Some "name"].

(** Position of a column. *)
Fixpoint column_position (columns : list string) (name : string) : option nat :=
  match columns with
  | [] => None
  | c :: cs => if String.eqb c name then Some 0 else option_map S (column_position cs name)
  end.

Fixpoint remove_at {A} (i : nat) (l : list A) : list A :=
  match l, i with
  | [], _ => []
  | _ :: l', O => l'
  | x :: l', S i' => x :: remove_at i' l'
  end.

(** [df.set_index([name1, name2])]: the columns become the levels of the index, which replaces
    the previous one, and are removed from the columns, one after the other. *)
Definition move_column {V} (name : string) (columns : list string) (rows : list (list V * list V))
  : option (list string * list (list V * list V)) :=
  match column_position columns name with
  | None => None
  | Some i =>
      option_map (fun rows' => (remove_at i columns, rows'))
        (option_all (map (fun r => option_map (fun v => (fst r ++ [v], remove_at i (snd r)))%list (nth_error (snd r) i)) rows))
  end.

Definition set_index {V} (df : table V) (name1 name2 : string) : option (table V) :=
  match move_column name1 (t_columns df) (map (fun r => ([], snd r)) (t_rows df)) with
  | None => None
  | Some (columns, rows) =>
      match move_column name2 columns rows with
      | None => None
      | Some (columns', rows') => Some (mkTable [Some name1; Some name2] columns' rows')
      end
  end.

(** [df[name]]. *)
Definition get_column {V} (df : table V) (name : string) : option (series V) :=
  match column_position (t_columns df) name with
  | None => None
  | Some i =>
      option_map (mkSeries (t_levels df))
        (option_all (map (fun r => option_map (fun v => (fst r, v)) (nth_error (snd r) i)) (t_rows df)))
  end.

(** [pd.read_csv]: the index has no name. *)
Definition read_csv {V} (number : nat -> V) (header : list string) (lines : list (list V)) : table V :=
  mkTable [None] header (map (fun kl => ([number (fst kl)], snd kl)) (enumerate lines)).

(** model_processing.py:124-128: a DataFrame. *)
Definition read_frame {V} (df : table V) : raised (series V) :=
  let indexed := if levels_eqb (t_levels df) param_levels then Some df else set_index df "category" "name" in
  match indexed with
  | None => RaisesKeyError
  | Some df' => match get_column df' "value" with None => RaisesKeyError | Some s => Returns s end
  end.

(** model_processing.py:116-135 (_read_params). *)
Definition read_params {V} (number : nat -> V) (g : given V) : raised (series V) :=
  match g with
  | GivenPath header lines => read_frame (read_csv number header lines)
  | GivenFrame df => read_frame df
  | GivenSeries s => if levels_eqb (s_levels s) param_levels then Returns s else RaisesAssertionError
  | GivenOther has_copy => if has_copy then RaisesTypeError else RaisesAttributeError
  end.
