(** Model of the parsing and validation of the parameters: pre_processing/model_processing.py:
    185-242, 304-430, 479-722, shared.py:355-372, pre_processing/model_checking.py:34-71.
    Definitions only. *)
From Coq Require Import List Arith Bool String Ascii Reals.
From Verif Require Import Base Model_Strings Model_Cache Model_Choices.
Import ListNotations.
Open Scope string_scope.

(** The parameters: category, name, value. *)
Definition param := (string * string * R)%type.
Definition p_category (p : param) : string := fst (fst p).
Definition p_name (p : param) : string := snd (fst p).

(** ** Groups of parameters which define a distribution *)

(** Line 622, [pd.to_numeric(levels, errors="ignore")]: numbers if all levels are numbers.
    Only strings of digits are considered as numbers here (not "1e5", "inf", "nan"). *)
Definition all_digits (s : string) : bool :=
  negb (String.eqb s "") && (fix go s := match s with EmptyString => true | String c r => is_digit c && go r end) s.
Fixpoint digits_value (acc : nat) (s : string) : nat :=
  match s with
  | EmptyString => acc
  | String c r => digits_value (10 * acc + (nat_of_ascii c - nat_of_ascii "0")) r
  end.
Definition to_numeric (levels : list string) : list level :=
  if forallb all_digits levels then map (fun s => Number (digits_value 0 s)) levels
  else map Label levels.

(** Order of numbers and strings; there are no mixed lists. *)
Definition level_leb (x y : level) : bool :=
  match x, y with
  | Label a, Label b => String.leb a b
  | Number a, Number b => Nat.leb a b
  | Number _, Label _ => true
  | Label _, Number _ => false
  end.

(** shared.py:355-372 (normalize_probabilities) *)
Definition total (l : list R) : R := fold_right Rplus 0%R l.
Definition normalize_probabilities (p : list R) : list R :=
  let q := map (fun x => (x / total p)%R) p in
  (removelast q ++ [(1 - total (removelast q))%R])%list.

(** config.py:23-24 *)
Definition MAX_FLOAT : R := (10 ^ 200)%R.
Definition MIN_FLOAT : R := (- MAX_FLOAT)%R.

(** Levels with the names and values of their parameters. *)
Definition container := list (level * list (string * R)).

(** Lines 570-659 (_parse_probabilities_or_logit_coefficients); [ext] is the extraction of
    the level from the category by a regular expression.  [Ok None]: no parameters. *)
Definition group_rows (ext : string -> option string) (params : list param) : list (string * (string * R)) :=
  flat_map (fun p => match ext (p_category p) with
                     | Some l => [(l, (p_name p, snd p))]
                     | None => []
                     end) params.
Definition select {A} (levels : list level) (l : level) (rows : list A) : list A :=
  map snd (filter (fun x => if level_eq_dec (fst x) l then true else false) (combine levels rows)).
Definition parse_group (ext : string -> option string) (params : list param) : result (option container) :=
  let sub := group_rows ext params in
  if Nat.eqb (List.length sub) 0 then Ok None else
  let levels := to_numeric (map fst sub) in
  let unique_levels := isort level_leb (drop_duplicates level_eq_dec levels) in
  let names := map (fun r => fst (snd r)) sub in
  let values := map (fun r => snd (snd r)) sub in
  let n_probabilities := List.length (filter (String.eqb "probability") names) in
  let contain (rows : list (string * R)) :=
    Ok (Some (map (fun l => (l, select levels l rows)) unique_levels)) in
  if Nat.eqb n_probabilities (List.length unique_levels) &&
     Nat.eqb (List.length unique_levels) (List.length sub) then
    let values := if Req_EM_T (total values) 1 then values else normalize_probabilities values in
    contain (combine (map (fun n => if String.eqb n "probability" then "constant" else n) names)
                     (map (fun p => ln (Rmax p (1 / MAX_FLOAT))) values))
  else if Nat.ltb 0 n_probabilities then ValueError
  else contain (combine names values).

(** The coefficient of a constant. *)
Definition constant (x : R) : list (string * R) := [("constant", x)].

(** ** Types *)

(** Lines 399-430 (_infer_number_of_types) *)
Definition infer_number_of_types (params : list param) : nat :=
  S (list_max (map (fun p => match extract "type_" is_digit (p_name p) with
                             | Some d => digits_value 0 d
                             | None => 0
                             end) params)).
(** Lines 358-396 (_parse_types): the number of types and the entry [type_prob]. If no
    category defines the probability of a type, [None.items()] raises. *)
Definition parse_types (params : list param) : result (nat * option container) :=
  if mem "type_0" (map p_category params) then ValueError
  else if mem "type_0" (map p_name params) then ValueError
  else
    let n_types := infer_number_of_types params in
    if Nat.leb 2 n_types then
      result_bind (parse_group (extract "type_" is_digit) params) (fun parsed =>
        match parsed with
        | None => OtherError
        | Some c =>
            let default := map (fun i => (Number i, constant 0)) (seq 0 n_types) in
            Ok (n_types, Some (dict_update level_eq_dec default c))
        end)
    else Ok (n_types, None).

(** ** Lagged choices *)

(** The first match of [p([cls]+)] without word boundaries. *)
Fixpoint search (p : string) (cls : ascii -> bool) (s : string) : option string :=
  match (match after_prefix p s with
         | Some r => let g := fst (span cls r) in if String.eqb g "" then None else Some g
         | None => None
         end) with
  | Some g => Some g
  | None => match s with EmptyString => None | String _ r => search p cls r end
  end.
(** All matches, [re.findall(p([cls]+))]; [skip] characters belong to the current match. *)
Fixpoint search_all (p : string) (cls : ascii -> bool) (skip : nat) (s : string) : list string :=
  match s with
  | EmptyString => []
  | String _ r =>
      match skip with
      | S k => search_all p cls k r
      | O => match after_prefix p s with
             | Some rest => let g := fst (span cls rest) in
                            if String.eqb g "" then search_all p cls 0 r
                            else g :: search_all p cls (String.length p + String.length g - 1) r
             | None => search_all p cls 0 r
             end
      end
  end.
(** Lines 500-509: the number of lags is inferred from the formulas of the covariates. *)
Definition number_of_lags (covariates : list (string * string)) : nat :=
  list_max (map (digits_value 0) (flat_map (fun cf => search_all "lagged_choice_" is_digit 0 (snd cf)) covariates)).
(** Lines 543-566: the parameters of one lag. *)
Definition parse_lag (choices : list string) (params : list param) (lag : nat) : result container :=
  result_bind (parse_group (search ("lagged_choice_" ++ dec lag ++ "_") is_name) params) (fun parsed =>
    Ok match parsed with
       | None => map (fun c => (Label c, constant 0)) choices
       | Some c => dict_update level_eq_dec (map (fun c => (Label c, constant MIN_FLOAT)) choices) c
       end).
Definition parse_lagged_choices (choices : list string) (covariates : list (string * string))
  (params : list param) : result (list container) :=
  result_all (map (parse_lag choices params) (seq 1 (number_of_lags covariates))).

(** ** Observables and exogenous processes *)

(** Lines 214-242 of _parse_observables: the levels of the exogenous processes are added to
    or compared with those of the observables; the result is sorted by name. *)
Definition merge_one (obs : result (list (string * container))) (exog : string * container)
  : result (list (string * container)) :=
  result_bind obs (fun obs =>
    match dict_get string_dec (fst exog) obs with
    | None => Ok (dict_set string_dec (fst exog) (map (fun lc => (fst lc, constant 0)) (snd exog)) obs)
    | Some levels =>
        if forallb (fun lc => if in_dec level_eq_dec (fst lc) (map fst levels) then true else false) (snd exog)
        then Ok obs else ValueError
    end).
Definition merge_observables (exog obs : list (string * container)) : result (list (string * container)) :=
  result_bind (fold_left merge_one exog (Ok obs)) (fun merged =>
    Ok (isort (fun a b => String.leb (fst a) (fst b)) merged)).

(** Lines 662-722 (_parse_observable_or_exog_process_names) *)
Fixpoint common_prefix (a b : string) : string :=
  match a, b with
  | String x a', String y b' => if Ascii.eqb x y then String x (common_prefix a' b') else ""
  | _, _ => ""
  end.
(** [rstrip("_")] *)
Fixpoint rstrip_underscores (s : string) : string :=
  match s with
  | EmptyString => ""
  | String c r => let r' := rstrip_underscores r in
                  if String.eqb r' "" && Ascii.eqb c "_" then "" else String c r'
  end.
(** [rsplit("_", n=1)[0]]: what is before the last underscore, if there is one. *)
Fixpoint has_underscore (s : string) : bool :=
  match s with EmptyString => false | String c r => Ascii.eqb c "_" || has_underscore r end.
Fixpoint before_last_underscore (s : string) : string :=
  match s with
  | EmptyString => ""
  | String c r => if has_underscore r then String c (before_last_underscore r)
                  else if Ascii.eqb c "_" then "" else s
  end.
Fixpoint pairs {A} (l : list A) : list (A * A) :=
  match l with [] => [] | x :: r => (map (pair x) r ++ pairs r)%list end.
Definition parse_names (keyword : string) (all_categories : list string) : result (list string) :=
  let categories :=
    flat_map (fun c => match after_prefix (keyword ++ "_") c with
                       | Some r => [before_last_underscore r]
                       | None => []
                       end) all_categories in
  let prefixes := map (fun ab => common_prefix (fst ab) (snd ab)) (pairs categories) in
  let prefixes := drop_duplicates string_dec
                    (map rstrip_underscores (filter (fun p => negb (String.eqb p "")) prefixes)) in
  let is_substring a := existsb (fun b => negb (String.eqb a b) && contains a b) prefixes in
  let names := sorted_set (filter (fun a => negb (is_substring a)) prefixes) in
  let matched := filter (fun c => existsb (fun p => prefix p c) names) categories in
  if Nat.eqb (List.length matched) (List.length categories) then Ok names else ValueError.

(** ** Shocks and measurement errors *)

Inductive shock_kind := Sdcorr | Cov | Chol.
(** Lines 304-321 (_parse_shocks): which matrix is specified. *)
Definition shocks_kind (categories : list string) : result shock_kind :=
  let has k := mem ("shocks_" ++ k) categories in
  let count := List.length (filter has ["sdcorr"; "cov"; "chol"]) in
  if Nat.leb 2 count then ValueError
  else if has "sdcorr" then Ok Sdcorr
  else if has "cov" then Ok Cov
  else if has "chol" then Ok Chol
  else KeyError.

(** model_checking.py:39-63: the required names in the required order. *)
Definition required_shocks (kind : shock_kind) (choices : list string) : list string :=
  match kind with
  | Sdcorr =>
      (map (fun c => ("sd_" ++ c)%string) choices ++
       flat_map (fun p => flat_map (fun c2 => if String.eqb (snd p) c2 then []
                                              else [("corr_" ++ snd p ++ "_" ++ c2)%string])
                            (firstn (S (fst p)) choices)) (enumerate choices))%list
  | _ =>
      let var := match kind with Cov => "var" | _ => "chol" end in
      let cov := match kind with Cov => "cov" | _ => "chol" end in
      flat_map (fun p => map (fun c2 => if String.eqb (snd p) c2 then var ++ "_" ++ snd p
                                        else cov ++ "_" ++ snd p ++ "_" ++ c2)
                           (firstn (S (fst p)) choices)) (enumerate choices)
  end.
(** model_checking.py:34-71 (_validate_shocks): rows whose category or name contains
    "shocks_" and a kind of matrix; different lengths cannot be compared. *)
Definition is_shock (p : param) : bool :=
  existsb (fun k => contains ("shocks_" ++ k) (p_category p) || contains ("shocks_" ++ k) (p_name p))
          ["sdcorr"; "cov"; "chol"].
Definition validate_shocks (choices : list string) (params : list param) : result unit :=
  let has k := mem ("shocks_" ++ k) (map p_category params) in
  let kind := if has "sdcorr" then Sdcorr else if has "cov" then Cov else Chol in
  let names := map p_name (filter is_shock params) in
  let required := required_shocks kind choices in
  if Nat.eqb (List.length names) (List.length required) then
    if list_eq_dec string_dec names required then Ok tt else OtherError
  else ValueError.

(** Lines 324-355 (_parse_measurement_errors): whether there are measurement errors, and
    the standard deviations of all choices. *)
Definition param_value (params : list param) (category name : string) : result R :=
  match find (fun p => String.eqb (p_category p) category && String.eqb (p_name p) name) params with
  | Some p => Ok (snd p)
  | None => KeyError
  end.
Definition parse_measurement_errors (choices choices_w_wage : list string) (params : list param)
  : result (bool * list R) :=
  let zeros := map (fun _ => 0%R) choices in
  if mem "meas_error" (map p_category params) then
    result_bind (result_all (map (fun c => param_value params "meas_error" ("sd_" ++ c)) choices_w_wage))
      (fun sds => Ok (true, (sds ++ skipn (List.length choices_w_wage) zeros)%list))
  else Ok (false, zeros).
