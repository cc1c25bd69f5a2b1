(** Model of the names in the specification of a model: choices, labels and codes, columns:
    pre_processing/model_processing.py:245-272, 433-476, 787-888, shared.py:319-352,
    simulate.py:546-563.  Definitions only. *)
From Coq Require Import List Arith Bool String Ascii.
From Verif Require Import Base Model_Strings Model_Cache.
Import ListNotations.
Open Scope string_scope.

(** [sorted(set(l))] *)
Definition sorted_set (l : list string) : list string :=
  isort String.leb (drop_duplicates string_dec l).

(** ** Choices *)

(** The index of [params]: categories and names. *)
Definition index := list (string * string).

(** model_processing.py:459-476 (_infer_choices_with_prefix) *)
Definition infer_choices_with_prefix (idx : index) (prefix : string) : list string :=
  sorted_set (flat_map (fun cn => match extract (prefix ++ "_") is_name (fst cn) with
                                  | Some c => [c] | None => [] end) idx).

(** model_processing.py:433-456 (_infer_choices_with_experience); [covariates] are the names
    and formulas in the options. *)
Definition infer_choices_with_experience (idx : index) (covariates : list (string * string))
  : list string :=
  let parameters := map snd idx in
  let used := filter (fun cf => existsb (String.eqb (fst cf)) parameters) covariates in
  sorted_set (flat_map (findall "exp_" is_name) parameters ++
              flat_map (fun cf => findall "exp_" is_name (snd cf)) used).

(** Set operations on sorted lists. *)
Definition mem (x : string) (l : list string) : bool := existsb (String.eqb x) l.

Record parsed_choices := mkParsedChoices {
  pc_choices_w_wage : list string;
  pc_choices_w_exp : list string;
  pc_choices_wo_exp : list string;
  pc_choices : list string
}.

(** model_processing.py:245-272 (_parse_choices); a dictionary keeps the first position of
    a repeated key. *)
Definition parse_choices (idx : index) (covariates : list (string * string)) : parsed_choices :=
  let w_exp_fuzzy := infer_choices_with_experience idx covariates in
  let w_wage := infer_choices_with_prefix idx "wage" in
  let w_nonpec := infer_choices_with_prefix idx "nonpec" in
  let w_exp_wo_wage := filter (fun c => mem c w_nonpec && negb (mem c w_wage)) w_exp_fuzzy in
  let wo_exp_wo_wage := filter (fun c => negb (mem c w_exp_fuzzy)) w_nonpec in
  let w_exp := (w_wage ++ sorted_set w_exp_wo_wage)%list in
  let wo_exp := sorted_set wo_exp_wo_wage in
  mkParsedChoices w_wage w_exp wo_exp
    (dict_keys (dict_of_pairs string_dec (map (fun c => (c, tt)) (w_exp ++ wo_exp)))).

(** ** Labels and codes *)

(** Levels of observables: strings, or numbers if all levels are numeric
    (model_processing.py:622 [pd.to_numeric]). *)
Inductive level := Label (s : string) | Number (n : nat).
Definition level_eq_dec (x y : level) : {x = y} + {x <> y}.
Proof. decide equality; [apply string_dec | apply Nat.eq_dec]. Defined.

(** shared.py:319-342 (convert_labeled_variables_to_codes) for one value of a column whose
    labels are [levels]: replaced by the code if it is one of them.  The column is converted
    to uint8, which raises for strings and wraps numbers. *)
Definition label_to_code (levels : list level) (v : level) : result nat :=
  let codes := dict_of_pairs level_eq_dec (map (fun p => (snd p, fst p)) (enumerate levels)) in
  match dict_get level_eq_dec v codes with
  | Some i => Ok (i mod 256)
  | None => match v with Number n => Ok (n mod 256) | Label _ => ValueError end
  end.
(** simulate.py:546-563 (_convert_codes_to_original_labels) for one value. *)
Definition code_to_label (levels : list level) (i : nat) : level :=
  match nth_error levels i with Some l => l | None => Number i end.

(** model_processing.py:812-814 (_replace_in_single_or_double_quotes) *)
Definition single_quote : string := String (ascii_of_nat 39) "".
Definition double_quote : string := String (ascii_of_nat 34) "".
Definition replace_in_quotes (val from to : string) : string :=
  replace (double_quote ++ from ++ double_quote) to
    (replace (single_quote ++ from ++ single_quote) to val).

(** model_processing.py:817-834 (_replace_choices_and_observables_in_formula); the
    observables in order with their levels. *)
Definition replace_choices_and_observables (choices : list string)
  (observables : list (string * list level)) (formula : string) : string :=
  let formula := fold_left (fun f p => replace_in_quotes f (snd p) (dec (fst p)))
                           (enumerate choices) formula in
  fold_left (fun f obs =>
    fold_left (fun f p => match snd p with
                          | Label s => replace_in_quotes f s (dec (fst p))
                          | Number _ => f
                          end) (enumerate (snd obs)) f) observables formula.

(** model_processing.py:837-888 (_convert_labels_in_filters_to_codes) for one filter: a
    placeholder stands for every choice of a group; only the first group found is used. *)
Definition convert_filter (pc : parsed_choices) (observables : list (string * list level))
  (f : string) : result (list string) :=
  if contains "{i}" f || contains "{j}" f || contains "{k}" f then ValueError else
  let codes := replace_choices_and_observables (pc_choices pc) observables in
  if contains "{choices_w_exp}" f then
    Ok (map (fun c => codes (replace "{choices_w_exp}" c f)) (pc_choices_w_exp pc))
  else if contains "{choices_wo_exp}" f then
    Ok (map (fun c => codes (replace "{choices_wo_exp}" c f)) (pc_choices_wo_exp pc))
  else if contains "{choices_w_wage}" f then
    Ok (map (fun c => codes (replace "{choices_w_wage}" c f)) (pc_choices_w_wage pc))
  else Ok [codes f].
Definition convert_filters (pc : parsed_choices) (observables : list (string * list level))
  (fs : list string) : result (list string) :=
  result_bind (result_all (map (convert_filter pc observables) fs)) (fun ls => Ok (List.concat ls)).

(** ** Columns *)

(** shared.py:345-352 *)
Definition rename_labels_to_internal (x : string) : string := lower (replace "Experience" "exp" x).
Definition rename_labels_from_internal (x : string) : string := title (replace "exp" "Experience" x).

(** The columns of the output of a simulation: simulate.py:584-590 renames them, and
    simulate.py:559-561 looks up the observables in them. *)
Definition find_observables (columns observables : list string) : result unit :=
  if forallb (fun o => mem (title o) (map rename_labels_from_internal columns)) observables
  then Ok tt else KeyError.
