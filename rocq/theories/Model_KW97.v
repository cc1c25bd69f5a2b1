(** Model of [create_kw_97], the preparation of the data of Keane and Wolpin (respy/data.py:26-70). *)
From Coq Require Import List ZArith Bool String Reals.
From Verif Require Import Base Model_Strings Model_Choices Model_Data.
Import ListNotations.
Open Scope string_scope.
Open Scope Z_scope.

(** A row of the file (data.py:35-45): identifier, age, years of schooling, code of the choice and wage. Missing codes and wages are [None].
    Schooling is read as an unsigned integer with eight bits; the values are assumed to fit. *)
Record raw := mkRaw {
  w_id : Z;
  w_age : Z;
  w_school : Z;
  w_code : option string;
  w_wage : option R }.

(** [codes_to_choices] (data.py:49-55). *)
Definition codes_to_choices : list (string * string) :=
  [("3", "white_collar"); ("4", "blue_collar"); ("5", "military"); ("1", "school"); ("2", "home")].

(** [df.Choice.cat.set_categories(codes_to_choices).cat.rename_categories(codes_to_choices)] (data.py:56-58): other codes become missing. *)
Definition decode (c : option string) : option string :=
  match c with Some c => dict_get string_dec c codes_to_choices | None => None end.

(** [df.groupby("Identifier").ngroup().astype(np.uint16)] (data.py:47): the position of the identifier among the sorted identifiers. *)
Definition group_number (ids : list Z) (i : Z) : Z :=
  match find (fun p => Z.eqb (snd p) i) (enumerate (isort Z.leb (drop_duplicates Z.eq_dec ids))) with
  | Some p => wrap (mkDtype false 16) (Z.of_nat (fst p))
  | None => -1
  end.

(** [df.groupby("Identifier").Choice.shift(1)] (data.py:62); [before] are the earlier rows, the latest first. *)
Fixpoint last_choice (before l : list (Z * option string)) : list (option string) :=
  match l with
  | [] => []
  | (i, x) :: l => match find (fun p => Z.eqb (fst p) i) before with Some p => snd p | None => None end
                   :: last_choice ((i, x) :: before) l
  end.

(** Columns with experience: schooling from the file and [_create_working_experience] for every choice with a wage (data.py:10-23, 60).
    A column that exists already is replaced. *)
Definition experience_columns (wage_choices : list string) (file : list raw) (people : list (Z * option string))
  : list (string * list Z) :=
  fold_left (fun d c => dict_set string_dec ("Experience_" ++ title c) (working_experience people c) d) wage_choices
    [("Experience_School", map w_school file)].

(** [create_kw_97] (data.py:26-70). The choices with wages and experience, the number of lagged choices and the observables are those of the model.
    The file has one column with lagged choices. Selecting a column which does not exist is a [KeyError] (data.py:66-68).
    Observables whose name is the name of another column of the table, like age, are not modelled. *)
Definition create_kw_97 (wage_choices exp_choices : list string) (n_lags : nat) (observables : list string) (file : list raw)
  : result (list row) :=
  let ids := map (fun w => group_number (map w_id file) (w_id w)) file in
  let choices := map (fun w => decode (w_code w)) file in
  let people := combine ids choices in
  let columns := experience_columns wage_choices file people in
  let lagged := last_choice [] people in
  result_bind (result_all (map (fun c => match dict_get string_dec ("Experience_" ++ title c) columns with
                                         | Some column => Ok column
                                         | None => KeyError
                                         end) exp_choices)) (fun exps =>
  if Nat.leb 2 n_lags || negb (Nat.eqb (List.length observables) 0) then KeyError else
  Ok (flat_map (fun p =>
        if Z.leb 16 (w_age (snd p)) then
          [mkRow (nth (fst p) ids 0) (w_age (snd p) - 16) (nth (fst p) choices None) (w_wage (snd p))
                 (firstn n_lags [nth (fst p) lagged None]) (map (fun column => nth_error column (fst p)) exps) [] None]
        else []) (enumerate file))).
