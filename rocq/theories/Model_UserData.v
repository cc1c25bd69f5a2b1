(** Model of the columns and index levels of the data that a user passes to the estimation. *)
From Coq Require Import String List Arith Bool.
From Verif Require Import Base Model_Strings Model_Cache Model_Choices.
Import ListNotations.
Open Scope list_scope.
Open Scope string_scope.

(** A data frame: the levels of the index, which can be without a name, and the columns, each
    with its values.  Simplified: names of columns are different. *)
Record user_frame (A : Type) := mkUser {
  uf_levels : list (option string * list A);
  uf_columns : list (string * list A) }.
Arguments mkUser {A} _ _.
Arguments uf_levels {A} _.
Arguments uf_columns {A} _.

Definition column_of {A} (f : user_frame A) (name : string) : option (list A) :=
  dict_get string_dec name (uf_columns f).

(** The values of a named index level. *)
Fixpoint find_level {A} (name : string) (levels : list (option string * list A)) : option (list A) :=
  match levels with
  | [] => None
  | (Some n, v) :: r => if string_dec name n then Some v else find_level name r
  | (None, _) :: r => find_level name r
  end.
Definition level_of {A} (f : user_frame A) (name : string) : option (list A) := find_level name (uf_levels f).

(** shared.py:172-179 (generate_column_dtype_dict_for_estimation) without the first two labels. *)
Definition data_columns (choices_w_exp : list string) (n_lags : nat) (observables : list string) : list string :=
  ["Choice"; "Wage"] ++ map (fun c => "Experience_" ++ title c)%string choices_w_exp
    ++ map (fun i => "Lagged_Choice_" ++ dec i)%string (seq 1 n_lags) ++ map title observables.

(** [df[columns]] *)
Definition select_columns {A} (names : list string) (f : user_frame A) : result (list (list A)) :=
  result_all (map (fun n => match column_of f n with Some v => Ok v | None => KeyError end) names).

(** [df.query("Period == 0")]: the name of a column or of an index level. *)
Definition query_period {A} (f : user_frame A) : result unit :=
  match column_of f "Period", level_of f "Period" with
  | None, None => NameError
  | _, _ => Ok tt
  end.

(** likelihood.py:553-562 (_update_optim_paras_with_initial_experience_levels) as far as it can
    fail. *)
Definition initial_levels {A} (choices_w_exp : list string) (f : user_frame A) : result unit :=
  result_bind (result_all (map (fun c => result_bind (query_period f) (fun _ =>
    result_bind (select_columns ["Experience_" ++ title c]%string f) (fun _ => Ok tt))) choices_w_exp)) (fun _ => Ok tt).

(** The name which [df.reset_index()] gives to level [i] out of [n]. *)
Definition level_name {A} (f : user_frame A) (n i : nat) (name : option string) : string :=
  match name with
  | Some s => s
  | None => if Nat.eqb n 1
            then match column_of f "index" with Some _ => "level_0" | None => "index" end
            else ("level_" ++ dec i)%string
  end.
(** [df.reset_index()]: levels become columns, a name must not exist. *)
Definition reset_index {A} (f : user_frame A) : result (user_frame A) :=
  fold_right (fun l r => result_bind r (fun g =>
                match column_of g (fst l) with
                | Some _ => ValueError
                | None => Ok (mkUser [] (l :: uf_columns g))
                end))
    (Ok (mkUser [] (uf_columns f)))
    (map (fun p => (level_name f (List.length (uf_levels f)) (fst p) (fst (snd p)), snd (snd p)))
         (enumerate (uf_levels f))).

(** likelihood.py:516-520: names of levels in lower case. *)
Definition internal_levels {A} (f : user_frame A) : list (option string * list A) :=
  map (fun l => (option_map rename_labels_to_internal (fst l), snd l)) (uf_levels f).
Definition internal_level {A} (name : string) (f : user_frame A) : result (list A) :=
  match find_level name (internal_levels f) with Some v => Ok v | None => KeyError end.

(** likelihood.py:94-103 (get_log_like_func).  [check] gets the values of the columns in the
    order of the labels, [process] the periods from the index and the values of the columns.
    Simplified: the sort by the index is part of [process]; two levels with the same name
    are not distinguished. *)
Definition create_criterion {A B} (check : list (list A) -> result unit) (process : list A -> list (list A) -> result B)
  (choices_w_exp : list string) (n_lags : nat) (observables : list string) (f : user_frame A) : result B :=
  let columns := data_columns choices_w_exp n_lags observables in
  result_bind (initial_levels choices_w_exp f) (fun _ =>
  result_bind (reset_index f) (fun g =>
  result_bind (select_columns ("Identifier" :: "Period" :: columns) g) (fun table =>
  result_bind (check table) (fun _ =>
  result_bind (select_columns columns f) (fun values =>
  result_bind (internal_level "period" f) (fun periods => process periods values)))))).

(** likelihood.py:244-254 in addition to the above: an evaluation groups rows by the
    identifiers in the index; [value] is the result of the remaining computations. *)
Definition evaluate_criterion {A B C} (check : list (list A) -> result unit) (process : list A -> list (list A) -> result B)
  (value : B -> list A -> result C)
  (choices_w_exp : list string) (n_lags : nat) (observables : list string) (f : user_frame A) : result C :=
  result_bind (create_criterion check process choices_w_exp n_lags observables f) (fun b =>
  result_bind (internal_level "identifier" f) (fun ids => value b ids)).
