(** The decision problem that is described by a table of parameters. *)
From Coq Require Import List Arith Bool String Reals ZArith.
From Verif Require Import Base Model_CoreStateSpace Model_StateSpace Model_Solve Spec_Solve Model_Strings Model_Choices Spec_Choices
  Model_Params Spec_Params Model_Processing Spec_Processing.
Import ListNotations.
Local Open Scope R_scope.

(** The rows of a category, and their sum with the covariates [x]. *)
Definition rows_of (table : list param) (category : string) : list param :=
  filter (fun p => String.eqb (p_category p) category) table.
Definition row_sum (table : list param) (category : string) (x : string -> R) : R :=
  rsum (map (fun p => snd p * x (p_name p)) (rows_of table category)).

(** Wage, shock and reward of a choice: only choices with rows for the wage have a wage and a
    log-normal shock. *)
Definition earns (table : list param) (choice : string) : bool :=
  existsb (fun p => String.eqb (p_category p) ("wage_" ++ choice)) table.
Definition table_wage (table : list param) (choice : string) (x : string -> R) : R :=
  if earns table choice then exp (row_sum table ("wage_" ++ choice) x) else 1.
Definition table_shock (table : list param) (choice : string) (e : R) : R :=
  if earns table choice then exp (clip (- max_log_float) max_log_float e) else e.
Definition table_reward (table : list param) (choice : string) (x : string -> R) (e : R) : R :=
  table_wage table choice x * table_shock table choice e + row_sum table ("nonpec_" ++ choice) x.

(** The order of the choices, and those with experience. *)
Definition documented_choices (table : list param) (covariates : list (string * string)) (with_exp choices : list string) : Prop :=
  let idx := map fst table in
  exists working learning others,
    with_exp = (working ++ learning)%list /\ choices = (working ++ learning ++ others)%list /\
    lists_alphabetically working (has_wage idx) /\
    lists_alphabetically learning (fun c => uses_experience idx covariates c /\ has_nonpec idx c /\ ~ has_wage idx c) /\
    lists_alphabetically others (fun c => has_nonpec idx c /\ ~ uses_experience idx covariates c /\ ~ has_wage idx c).

(** The factor of the shocks: given, or the decomposition of the matrix which is given. *)
Definition factor_of (robust : nat -> (nat -> nat -> R) -> nat -> nat -> R) (kind : shock_kind) (table : list param)
  (choices : list string) (L : nat -> nat -> R) : Prop :=
  match kind with
  | Chol => matrix_of kind table choices L
  | _ => exists M, matrix_of kind table choices M /\ L = robust (List.length choices) M
  end.

(** The problem: in each state choices lead to states by the law of motion, and the reward of
    the choice at position [c] is the one of the table, for each of the base draws. *)
Definition table_problem (table : list param) (choices : list string) (L : nat -> nat -> R)
  (cov : option (list nat) -> core_state -> string -> R) (base : nat -> nat -> list (list R)) (csf : cs_fun)
  (ctx : option (list nat)) : problem core_state :=
  mkProblem core_state
    (fun s => map (fun c => law_of_motion c s) (positions (csf ctx s)))
    (fun s =>
       let open := positions (csf ctx s) in
       map (fun draw => map (fun c => table_reward table (nth c choices ""%string) (cov ctx s)
                                        (rsum (map (fun p => fst p * L c (snd p)) (combine draw open)))) open)
         (base (List.length open) (cs_period s))).

(** Levels and maxima of experience fit into the smallest integers. *)
Definition small_experience (n_periods : nat) (table : list param) (with_exp : list string) : Prop :=
  forall c, In c with_exp ->
    (forall k, initial_level table c k -> (k < 256)%nat) /\
    (forall m, maximum_of n_periods table c m -> (0 <= m < 256)%Z).

(** The states start with the levels of the table and stop at its maxima. *)
Definition core_from_table (n_periods : nat) (table : list param) (with_exp choices : list string) (sp : core_spec) : Prop :=
  sp_nperiods sp = n_periods /\ sp_nchoices sp = List.length choices /\
  Forall2 (fun c levels => forall k, In k levels <-> initial_level table c k) with_exp (sp_starts sp) /\
  Forall2 (fun c m => maximum_of n_periods table c (Z.of_nat m)) with_exp (sp_max sp).
