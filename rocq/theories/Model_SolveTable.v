(** Model of the way from the table of parameters to the solution: get_solve_func and solve
    (solve.py:19-79) process the parameters (model_processing.py:32-53) and use the entries of
    [optim_paras].  Definitions only. *)
From Coq Require Import List Arith Bool String Reals ZArith.
From Verif Require Import Base Model_CoreStateSpace Model_StateSpace Model_Solve Model_Strings Model_Cache Model_Choices Model_Params Model_Processing
  Model_ParseParameters.
Import ListNotations.
Open Scope string_scope.

(** Covariates are columns with names; the model of the solution has numbers instead. *)
Fixpoint number_of (names : list string) (n : string) : nat :=
  match names with
  | [] => 0
  | m :: r => if String.eqb m n then 0 else S (number_of r n)
  end.
Definition numbered (names : list string) (o : option (list (string * R))) : option (list (nat * R)) :=
  option_map (map (fun p => (number_of names (fst p), snd p))) o.

(** model_processing.py:304-320: the factor itself or the decomposition ([robust]) of the
    matrix. *)
Definition cholesky_of (robust : nat -> (nat -> nat -> R) -> nat -> nat -> R) (kind : shock_kind) (n : nat) (table : list param)
  : list (list R) :=
  let m := shock_matrix kind n table in
  let f := match kind with Chol => m | _ => robust n m end in
  map (fun i => map (f i) (seq 0 n)) (seq 0 n).

(** The entries of [optim_paras] used by the solution: solve.py:66, 111-129 (wages and
    non-pecuniary rewards of choices), 190-192 (delta), shared.py:599-617 (Cholesky factor,
    number of choices with wages). *)
Definition solution_params (robust : nat -> (nat -> nat -> R) -> nat -> nat -> R) (table : list param) (mp : model_parameters)
  : params :=
  let names := map p_name table in
  mkParams
    (fun c => match nth_error (mp_rewards mp) c with Some r => numbered names (fst (snd r)) | None => None end)
    (fun c => match nth_error (mp_rewards mp) c with Some r => numbered names (snd (snd r)) | None => None end)
    (fst (fst (mp_discounting mp)))
    (cholesky_of robust (fst (mp_shocks mp)) (List.length (pc_choices (mp_choices mp))) table)
    (List.length (pc_choices_w_wage (mp_choices mp))).

(** The specification of the core and the inputs of the solution for a table of parameters;
    [cov] are the values of the covariates by name, [base] the base draws. *)
Definition table_model (robust : nat -> (nat -> nat -> R) -> nat -> nat -> R) (n_periods : nat)
  (covariates : list (string * string)) (filters : list (core_state -> bool))
  (cov : option (list nat) -> core_state -> string -> R) (base : nat -> nat -> list (list R)) (points : nat)
  (interp : nat -> list (nat * list (list R)) -> result (list (nat * list R)))
  (table : list param) : result (core_spec * inputs) :=
  result_bind (process_parameters n_periods covariates table) (fun mp =>
  let choices := pc_choices (mp_choices mp) in
  Ok (mkSpec n_periods (map (fun sm => numbers (fst sm)) (mp_experience mp)) (map (fun sm => Z.to_nat (snd sm)) (mp_experience mp))
        (List.length choices) (List.length (mp_lagged mp)) filters,
      mkInputs (solution_params robust table mp) (seq 0 (List.length choices))
        (fun ctx s i => cov ctx s (nth i (map p_name table) "")) base points interp)).
