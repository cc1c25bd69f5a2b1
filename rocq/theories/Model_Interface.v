(** Model of the functions for example models (interface.py, config.py).  Definitions only. *)
From Coq Require Import List Arith Bool String.
From Verif Require Import Base Model_Strings Model_Choices Model_Solve.
Import ListNotations.
Open Scope string_scope.
Open Scope list_scope.

(** config.py:74-95. *)
Definition example_models : list string :=
  ["kw_94_one"; "kw_94_two"; "kw_94_three";
   "kw_97_basic"; "kw_97_basic_respy"; "kw_97_extended"; "kw_97_extended_respy";
   "kw_2000";
   "robinson_crusoe_basic"; "robinson_crusoe_extended"; "robinson_crusoe_with_observed_characteristics"].

(** Values in a constraint: a text or a list of pairs (category, name). *)
Inductive entry :=
| Text (s : string)
| Pairs (l : list (string * string)).
Definition constraint := list (string * entry).

(** Lists and dictionaries are mutable objects; a list of constraints contains references to
    dictionaries. *)
Record objects := mkObjects {
  ob_lists : list (list nat);
  ob_dicts : list constraint
}.

(** Evaluation of [base + \[d1, ...\]]: new dictionaries and a new list which refers to the
    dictionaries of [base] and the new ones; the address of the list is its position. *)
Definition new_list (base : list nat) (ds : list constraint) (h : objects) : objects :=
  mkObjects (ob_lists h ++ [base ++ seq (List.length (ob_dicts h)) (List.length ds)]) (ob_dicts h ++ ds).

Definition text_pair (a : string) (x : string) (b : string) (y : string) : constraint := [(a, Text x); (b, Text y)].
Definition probabilities (names : list string) : constraint :=
  [("loc", Pairs (map (fun n => (n, "probability")) names)); ("type", Text "fixed")].
Definition initial_school : list string :=
  ["initial_exp_school_7"; "initial_exp_school_8"; "initial_exp_school_9"; "initial_exp_school_10"; "initial_exp_school_11"].

(** interface.py:12-71: the module-level lists, created when the module is imported. *)
Definition at_import : objects :=
  let h0 := mkObjects [] [] in
  let h1 := new_list [] [text_pair "loc" "shocks_sdcorr" "type" "sdcorr"; text_pair "loc" "lagged_choice_1_edu" "type" "fixed";
                         text_pair "loc" "initial_exp_edu_10" "type" "fixed"; text_pair "loc" "maximum_exp" "type" "fixed"] h0 in
  let h2 := new_list [] [text_pair "loc" "shocks_sdcorr" "type" "sdcorr"; probabilities initial_school;
                         text_pair "loc" "maximum_exp" "type" "fixed"] h1 in
  let h3 := new_list (nth 1 (ob_lists h2) [])
                        [text_pair "query" "name == 'military_dropout'" "type" "equality";
                         text_pair "query" "name == 'common_hs_graduate'" "type" "equality";
                         text_pair "query" "name == 'common_co_graduate'" "type" "equality";
                         text_pair "loc" "lagged_choice_1_school" "type" "fixed";
                         text_pair "loc" "lagged_choice_1_home" "type" "fixed"] h2 in
  let h4 := new_list [] [text_pair "loc" "shocks_sdcorr" "type" "sdcorr";
                         text_pair "query" "name == 'military_dropout'" "type" "equality";
                         text_pair "query" "name == 'common_hs_graduate'" "type" "equality";
                         text_pair "query" "name == 'common_co_graduate'" "type" "equality";
                         text_pair "loc" "lagged_choice_1_school" "type" "fixed";
                         text_pair "loc" "lagged_choice_1_home" "type" "fixed"; probabilities initial_school;
                         text_pair "loc" "maximum_exp" "type" "fixed";
                         probabilities ["observable_race_white"; "observable_race_black"]] h3 in
  new_list [] [text_pair "loc" "shocks_sdcorr" "type" "sdcorr"] h4.

(** interface.py:139-152 (get_parameter_constraints): the list itself is returned, not a
    copy; here its address.  NotImplementedError is [OtherError]. *)
Definition get_parameter_constraints (model : string) : result nat :=
  if contains "kw_94" model then Ok 0
  else if contains "kw_97_basic" model then Ok 1
  else if contains "kw_97_extended" model then Ok 2
  else if String.eqb "kw_2000" model then Ok 3
  else if contains "robinson_crusoe" model then Ok 4
  else OtherError.

(** What the user does with the constraints of a model: look at them, append a new one,
    remove one, set or replace an entry in one of them. *)
Inductive event :=
| Look (model : string)
| Append (model : string) (c : constraint)
| Remove (model : string) (k : nat)
| SetEntry (model : string) (k : nat) (key : string) (v : entry).

(** Contents of the list at an address. *)
Definition contents (h : objects) (a : nat) : list constraint :=
  map (fun d => nth d (ob_dicts h) []) (nth a (ob_lists h) []).

(** The constraints the function returns, as the user sees them. *)
Definition constraints_of (h : objects) (model : string) : result (list constraint) :=
  result_bind (get_parameter_constraints model) (fun a => Ok (contents h a)).

Definition run_event (h : objects) (e : event) : objects :=
  match e with
  | Look _ => h
  | Append m c =>
      match get_parameter_constraints m with
      | Ok a => mkObjects (set_nth a (nth a (ob_lists h) [] ++ [List.length (ob_dicts h)]) (ob_lists h)) (ob_dicts h ++ [c])
      | _ => h
      end
  | Remove m k =>
      match get_parameter_constraints m with
      | Ok a => mkObjects (set_nth a (firstn k (nth a (ob_lists h) []) ++ skipn (S k) (nth a (ob_lists h) []))
                                   (ob_lists h)) (ob_dicts h)
      | _ => h
      end
  | SetEntry m k key v =>
      match get_parameter_constraints m with
      | Ok a => match nth_error (nth a (ob_lists h) []) k with
                | Some d => mkObjects (ob_lists h) (set_nth d (dict_set string_dec key v (nth d (ob_dicts h) [])) (ob_dicts h))
                | None => h
                end
      | _ => h
      end
  end.
Definition run_events (h : objects) (es : list event) : objects := fold_left run_event es h.

(** Source of the data of an example model. *)
Inductive source := OriginalData | SimulatedData.
(** interface.py:88-109 (get_example_model): what is returned besides parameters and
    options, and whether there is a warning.  Files are read and data created elsewhere.
    AssertionError is [OtherError]. *)
Definition get_example_model (model : string) (with_data : bool) : result (option source * bool) :=
  if mem model example_models then
    if contains "kw_97" model && with_data then Ok (Some OriginalData, false)
    else if (contains "kw_94" model || contains "robinson" model) && with_data then Ok (Some SimulatedData, false)
    else Ok (None, with_data)
  else OtherError.
