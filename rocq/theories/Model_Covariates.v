(** Model of the processing of covariates: pre_processing/process_covariates.py and
    shared.py:240-316.  Definitions only. *)
From Coq Require Import List Arith Bool String.
From Verif Require Import Base Model_Strings Model_Cache Model_Choices.
Import ListNotations.
Open Scope string_scope.

(** Covariates and their formulas, a dictionary. *)
Definition covariates := list (string * string).
Definition formula_of (covs : covariates) (c : string) : string :=
  match dict_get string_dec c covs with Some f => f | None => "" end.

(** [while changed: ...]: the body is repeated until nothing changes.  The number of
    repetitions is bounded by [fuel]; [None] if that is not enough. *)
Fixpoint until_stable {A} (changed : A -> A -> bool) (body : A -> A) (fuel : nat) (a : A) : option A :=
  match fuel with
  | O => None
  | S k => let a' := body a in if changed a a' then until_stable changed body k a' else Some a'
  end.

(** ** process_covariates.py:5-52 (remove_irrelevant_covariates) *)

(** [{cov: covariates[cov], **relevant_covs}]: the key is moved to the front. *)
Definition move_front (c : string) (rel : list string) : list string :=
  c :: filter (fun x => if string_dec c x then false else true) rel.
(** Lines 43-47: the inner loop goes over the keys at its beginning. *)
Definition add_if_mentioned (covs : covariates) (rel : list string) (c : string) : list string :=
  fold_left (fun rel' r => if contains c (formula_of covs r) then move_front c rel' else rel') rel rel.
Definition relevant_pass (covs : covariates) (rel : list string) : list string :=
  fold_left (add_if_mentioned covs) (map fst covs) rel.
Definition relevant_initial (covs : covariates) (names : list string) : list string :=
  map fst (filter (fun cf => mem (fst cf) names) covs).
(** [names] are the names in the index of the parameters. *)
Definition remove_irrelevant_covariates (covs : covariates) (names : list string) : option covariates :=
  match until_stable (fun a b => negb (Nat.eqb (List.length a) (List.length b))) (relevant_pass covs)
          (S (List.length covs)) (relevant_initial covs names) with
  | Some rel => Some (map (fun c => (c, formula_of covs c)) rel)
  | None => None
  end.

(** ** process_covariates.py:55-138 (separate_covariates_into_core_dense_mixed) *)

(** Sets of strings. *)
Definition set_add (x : string) (s : list string) : list string := if mem x s then s else (s ++ [x])%list.
Definition set_union (s t : list string) : list string := fold_left (fun s x => set_add x s) t s.
Definition set_inter (s t : list string) : list string := filter (fun x => mem x t) s.
Definition set_minus (s t : list string) : list string := filter (fun x => negb (mem x t)) s.

(** Lines 79-88. *)
Definition core_variables (choices_w_exp : list string) (n_lags : nat) : list string :=
  set_union [] ("period" :: map (fun c => ("exp_" ++ c)%string) choices_w_exp
                ++ map (fun i => ("lagged_choice_" ++ dec i)%string) (seq 1 n_lags))%list.
Definition dense_variables (observables : list string) (n_types : nat) : list string :=
  set_union (set_union [] observables)
    (if Nat.leb 2 n_types then "type" :: map (fun i => "type_" ++ dec i) (seq 2 (n_types - 1)) else []).

(** The two sets, and for each covariate the names it depends on. *)
Record separation := mkSeparation {
  sp_core : list string;
  sp_dense : list string;
  sp_deps : list (string * list string)
}.
Definition deps_of (s : separation) (c : string) : list string :=
  match dict_get string_dec c (sp_deps s) with Some l => l | None => [] end.
(** Lines 103-112. *)
Definition separate_one (s : separation) (cf : string * string) : separation :=
  let '(cov, formula) := cf in
  let matches_core := filter (fun i => contains i formula) (sp_core s) in
  let core := match matches_core with [] => sp_core s | _ => set_add cov (sp_core s) end in
  let matches_dense := filter (fun i => contains i formula) (sp_dense s) in
  let dense := match matches_dense with [] => sp_dense s | _ => set_add cov (sp_dense s) end in
  mkSeparation core dense
    (dict_set string_dec cov (set_union (deps_of s cov) (matches_core ++ matches_dense)) (sp_deps s)).
Definition separate_pass (covs : covariates) (s : separation) : separation :=
  fold_left separate_one covs s.
Definition separate_sets (covs : covariates) (core dense : list string) : option separation :=
  until_stable (fun a b => negb (Nat.eqb (List.length (sp_core a)) (List.length (sp_core b))) ||
                           negb (Nat.eqb (List.length (sp_dense a)) (List.length (sp_dense b))))
    (separate_pass covs) (S (2 * List.length covs))
    (mkSeparation core dense (map (fun cf => (fst cf, [])) covs)).

(** A definition: the formula and the names it depends on. *)
Definition definition := (string * list string)%type.
Record separated_covariates := mkSeparated {
  sc_core : list (string * definition);
  sc_dense : list (string * definition);
  sc_mixed : list (string * definition);
  sc_all : list (string * definition)
}.
(** Lines 117-136; in line 132 a name in both sets has to be a covariate. *)
Definition separate_covariates (covs : covariates) (core dense : list string)
  : option (result separated_covariates) :=
  match separate_sets covs core dense with
  | None => None
  | Some s =>
      let names := map fst covs in
      let detailed c := (c, (formula_of covs c, deps_of s c)) in
      let only_core := set_minus (sp_core s) (sp_dense s) in
      let only_dense := set_minus (sp_dense s) (sp_core s) in
      let independent := set_minus (set_minus names (sp_core s)) (sp_dense s) in
      let both := set_inter (sp_core s) (sp_dense s) in
      Some (if forallb (fun c => mem c names) both then
        Ok (mkSeparated
          (map detailed (filter (fun c => mem c names) (set_union only_core independent)))
          (map detailed (filter (fun c => mem c names) only_dense))
          (map detailed both)
          (map detailed names))
      else KeyError)
  end.

(** ** process_covariates.py:141-167 (identify_necessary_covariates) *)

Section Necessary.
  (** [definitions]: the dependencies of each covariate.  The iteration order of a set is a
      function [order] of the set. *)
  Variable definitions : list (string * list string).
  Variable order : list string -> list string.

  Definition dependencies (d : string) : list string :=
    match dict_get string_dec d definitions with Some l => l | None => [] end.

  (** Lines 157-163: the set [dependents] and the set [new_dependents]. *)
  Definition necessary_one (s : result (list string * list string)) (d : string)
    : result (list string * list string) :=
    result_bind s (fun '(dependents, new) =>
      match dependencies d with
      | [] => if mem d dependents then Ok (set_minus dependents [d], new) else KeyError
      | deps => Ok (set_union dependents deps, set_union new deps)
      end).
  (** [None]: more rounds than [fuel] are needed. *)
  Fixpoint necessary_loop (fuel : nat) (dependents new : list string) : option (result (list string)) :=
    match new with
    | [] => Some (Ok dependents)
    | _ => match fuel with
           | O => None
           | S k => match fold_left necessary_one (order new) (Ok (dependents, [])) with
                    | Ok (dependents', new') => necessary_loop k dependents' new'
                    | KeyError => Some KeyError
                    | ValueError => Some ValueError
                    | IndexError => Some IndexError
                    | NameError => Some NameError
                    | OtherError => Some OtherError
                    end
           end
    end.
  (** Lines 152-153 and 165: the names of the covariates that are returned. *)
  Definition identify_necessary_covariates (fuel : nat) (requested : list string)
    : option (result (list string)) :=
    let dependents := set_union [] requested in necessary_loop fuel dependents dependents.
End Necessary.

(** ** shared.py:240-316 (compute_covariates) *)

Section Compute.
  (** Columns have values in [V]; [eval] is [df.eval] as a function of the formula and the
      columns and index levels of the data frame; [no_nans] tells whether a column has no
      missing values. *)
  Variable V : Type.
  Variable eval : string -> (string -> option V) -> result V.
  Variable no_nans : V -> bool.

  Record frame := mkFrame { fr_index : list (string * V); fr_columns : list (string * V) }.
  Definition lookup (df : frame) (x : string) : option V :=
    match dict_get string_dec x (fr_columns df) with
    | Some v => Some v
    | None => dict_get string_dec x (fr_index df)
    end.
  Definition has_column (df : frame) (x : string) : bool :=
    match dict_get string_dec x (fr_columns df) with Some _ => true | None => false end.
  Definition set_column (df : frame) (x : string) (v : V) : frame :=
    mkFrame (fr_index df) (dict_set string_dec x v (fr_columns df)).

  (** Lines 281-310 for one covariate: the frame and the covariates that are left. *)
  Definition compute_one (check_nans : bool) (defs : list (string * definition))
    (s : result (frame * list string)) (c : string) : result (frame * list string) :=
    result_bind s (fun '(df, left_) =>
      if has_column df c then Ok (df, remove string_dec c left_) else
      match dict_get string_dec c defs with
      | None => KeyError
      | Some (formula, deps) =>
          let present d := match lookup df d with
                           | Some v => if check_nans then no_nans v else true
                           | None => false
                           end in
          if forallb present deps then
            result_bind (eval formula (lookup df)) (fun v =>
              Ok (set_column df c v, remove string_dec c left_))
          else Ok (df, left_)
      end).
  Definition compute_pass (check_nans : bool) (defs : list (string * definition))
    (df : frame) (left_ : list string) : result (frame * list string) :=
    fold_left (compute_one check_nans defs) left_ (Ok (df, left_)).
  (** Lines 276-314.  [None]: more passes than [fuel] are needed. *)
  Fixpoint compute_loop (check_nans : bool) (defs : list (string * definition)) (fuel : nat)
    (df : frame) (left_ : list string) : option (result (frame * list string)) :=
    match fuel with
    | O => None
    | S k => match compute_pass check_nans defs df left_ with
             | Ok (df', left') =>
                 if Nat.eqb (List.length left_) (List.length left') then Some (Ok (df', left'))
                 else compute_loop check_nans defs k df' left'
             | KeyError => Some KeyError
             | ValueError => Some ValueError
             | IndexError => Some IndexError
             | NameError => Some NameError
             | OtherError => Some OtherError
             end
    end.
  Definition compute_covariates (check_nans raise_errors : bool) (defs : list (string * definition))
    (df : frame) : option (result frame) :=
    match compute_loop check_nans defs (S (List.length defs)) df (map fst defs) with
    | Some (Ok (df', left_)) =>
        if raise_errors then match left_ with [] => Some (Ok df') | _ => Some OtherError end
        else Some (Ok df')
    | Some KeyError => Some KeyError
    | Some ValueError => Some ValueError
    | Some IndexError => Some IndexError
    | Some NameError => Some NameError
    | Some OtherError => Some OtherError
    | None => None
    end.
End Compute.
