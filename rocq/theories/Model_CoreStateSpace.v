(** Model of the creation of the core state space and its law of motion.
    Definitions only; see Props_CoreStateSpace.v for the theorems. *)
From Coq Require Import List Arith Bool.
From Verif Require Import Base.
Import ListNotations.

(** A row of the core data frame restricted to the core state variables:
    respy/shared.py:398-410 (create_core_state_space_columns: "exp_*" columns,
    then "lagged_choice_1", ..., preceded by "period").  A lagged choice is [None]
    if the cell is NaN. *)
Record core_state := mkState {
  cs_period : nat;
  cs_exp : list nat;
  cs_lag : list (option nat)
}.

Definition core_state_eq_dec (x y : core_state) : {x = y} + {x <> y}.
Proof. decide equality; repeat decide equality. Defined.

(** The part of [optim_paras] / [options] that determines the core state space.
    - [sp_starts]: for each choice in [choices_w_exp], the keys of
      [optim_paras["choices"][choice]["start"]]   (model_processing.py:288-295)
    - [sp_max]: [optim_paras["choices"][choice]["max"]]   (model_processing.py:297-299)
    - [sp_nchoices]: [len(optim_paras["choices"])]; the choices with experience come
      first, so the code of the i-th choice with experience is i
      (model_processing.py:262-270).
    - [sp_filters]: the row-wise result of [df.eval(definition)] for each definition in
      [options["core_state_space_filters"]]; df.eval is an oracle. *)
Record core_spec := mkSpec {
  sp_nperiods : nat;
  sp_starts : list (list nat);
  sp_max : list nat;
  sp_nchoices : nat;
  sp_nlags : nat;
  sp_filters : list (core_state -> bool)
}.

Definition list_min (l : list nat) : nat :=
  match l with [] => 0 | x :: r => fold_left Nat.min r x end.
Definition list_max_nat (l : list nat) : nat :=
  match l with [] => 0 | x :: r => fold_left Nat.max r x end.

(** state_space.py:500-509: [maximum_exp - minimal_initial_experience], both arrays of
    dtype uint8, so the difference wraps modulo 256.  ([min] of an empty "start" raises
    in Python; "start" always has at least one key, see model_processing.py:292-294.) *)
Definition uint8_sub (a b : nat) : nat := (a mod 256 + 256 - b mod 256) mod 256.
Definition additional_exp (sp : core_spec) : list nat :=
  map (fun p => uint8_sub (snd p) (list_min (fst p)))
      (combine (sp_starts sp) (sp_max sp)).

(** state_space.py:530-575 (_create_core_state_space_per_period).  The recursion on
    [pos] is a recursion on the suffix of the array: [done] are the experiences before
    [pos], [rest] the remaining entries of [additional_exp]; the entries of
    [experiences] from [pos] on are zero.  [period - experiences.sum()] is never
    negative here (the loop bound keeps the sum at most [period]), so natural
    subtraction is exact.  uint8 does not wrap as long as there are at most 256 periods,
    since every entry is at most [period]. *)
Fixpoint per_period (period : nat) (done rest : list nat) : list (list nat) :=
  (done ++ repeat 0 (length rest)) ::
  match rest with
  | [] => []
  | m :: rest' =>
      let remaining_time := period - list_sum done in
      flat_map (fun i => per_period period (done ++ [i]) rest')
               (seq 0 (S (Nat.min remaining_time m)))
  end.

(** state_space.py:486-527 (_create_core_from_choice_experiences): loop over periods and
    concatenation.  (With more than 256 periods np.arange(.., dtype=uint8) would wrap;
    this is outside the model.) *)
Definition core_from_choice_experiences (sp : core_spec) : list core_state :=
  flat_map
    (fun t => map (fun e => mkState t e []) (per_period t [] (additional_exp sp)))
    (seq 0 (sp_nperiods sp)).

(** Assigning the column "lagged_choice_{lag}" in a copy of the frame; after the concat
    with frames holding the other lag columns all other lag columns are NaN. *)
Definition single_lag (nlags lag code : nat) : list (option nat) :=
  map (fun l => if Nat.eqb l lag then Some code else None) (seq 1 nlags).

(** state_space.py:578-588 (_add_lagged_choice_to_core_state_space).  Note that the
    loop copies the *original* [df] for each lag. *)
Definition add_lagged_choice (nlags nchoices : nat) (df : list core_state)
  : list core_state :=
  match nlags with
  | 0 => df
  | _ =>
      flat_map (fun lag =>
        flat_map (fun code =>
          map (fun s => mkState (cs_period s) (cs_exp s) (single_lag nlags lag code)) df)
          (seq 0 nchoices))
        (seq 1 nlags)
  end.

(** state_space.py:591-610 (_filter_core_state_space): rows for which a filter holds are
    dropped. *)
Definition filter_core (filters : list (core_state -> bool)) (df : list core_state)
  : list core_state :=
  fold_left (fun d f => filter (fun s => negb (f s)) d) filters df.

(** state_space.py:640: [df_[exp_cols] += initial_exp]. *)
Fixpoint add_exp (a b : list nat) : list nat :=
  match a, b with
  | x :: xs, y :: ys => (x + y) :: add_exp xs ys
  | _, _ => []
  end.
(** state_space.py:643: [df_[exp_cols].le(maximum_exp).all(axis="columns")]. *)
Fixpoint all_le (a m : list nat) : bool :=
  match a, m with
  | x :: xs, y :: ys => Nat.leb x y && all_le xs ys
  | _, _ => true
  end.

(** state_space.py:613-649 (_add_initial_experiences_to_core_state_space). *)
Definition add_initial_experiences (sp : core_spec) (df : list core_state)
  : list core_state :=
  drop_duplicates core_state_eq_dec
    (flat_map (fun init =>
       filter (fun s => all_le (cs_exp s) (sp_max sp))
         (map (fun s => mkState (cs_period s) (add_exp (cs_exp s) init) (cs_lag s)) df))
       (product (sp_starts sp))).

(** state_space.py:481: [core.sort_values("period")].  pandas' default sort is not
    stable, so the order of states within a period is unspecified; the model uses a
    stable sort and no theorem depends on the order within a period. *)
Definition sort_period (df : list core_state) : list core_state :=
  isort (fun a b => Nat.leb (cs_period a) (cs_period b)) df.

(** state_space.py:408-483 (_create_core_state_space). *)
Definition create_core_state_space (sp : core_spec) : list core_state :=
  sort_period
    (add_initial_experiences sp
      (filter_core (sp_filters sp)
        (add_lagged_choice (sp_nlags sp) (sp_nchoices sp)
          (core_from_choice_experiences sp)))).

(** shared.py:758-759: [df[f"exp_{choice}"] += df["choice"] == i] for the i-th choice
    with experience. *)
Definition bump_exp (choice : nat) (e : list nat) : list nat :=
  map (fun p => snd p + (if Nat.eqb choice (fst p) then 1 else 0)) (enumerate e).

(** shared.py:763-778: drop the oldest lag, shift the others, insert the current choice
    as first lag - only if there are lagged choices at all. *)
Definition shift_lags (choice : nat) (lags : list (option nat)) : list (option nat) :=
  match lags with
  | [] => []
  | _ => Some choice :: removelast lags
  end.

(** shared.py:733-782 (apply_law_of_motion_for_core) for one row. *)
Definition law_of_motion (choice : nat) (s : core_state) : core_state :=
  mkState (S (cs_period s)) (bump_exp choice (cs_exp s)) (shift_lags choice (cs_lag s)).

(** Formulas in [options["negative_choice_set"]].  A formula is evaluated on a whole
    frame; [ctx] says whether the dense variables are available in that frame and with
    which values.  [None] models pandas' UndefinedVariableError. *)
Definition formula := option (list nat) -> option (core_state -> bool).

(** The text "False" (model_processing.py:776, 782). *)
Definition formula_false : formula := fun _ => Some (fun _ => false).
(** The text [f"exp_{choice} == {max_exp}"] (model_processing.py:774) for the i-th choice
    with experience. *)
Definition formula_exp_eq (i m : nat) : formula :=
  fun _ => Some (fun s => match nth_error (cs_exp s) i with
                          | Some e => Nat.eqb e m
                          | None => false
                          end).

(** A negative choice set: choice code -> formulas ([None]: no entry for the choice). *)
Definition neg_set := nat -> option (list formula).

(** model_processing.py:771-777: the default formula of the i-th choice with
    experience. *)
Definition default_formula (sp : core_spec) (i : nat) : formula :=
  let max_init := list_max_nat (nth i (sp_starts sp) []) in
  let m := nth i (sp_max sp) 0 in
  if Nat.ltb m (sp_nperiods sp - 1 + max_init) then formula_exp_eq i m else formula_false.

(** model_processing.py:761-784 (_add_default_is_inadmissible).  Choices with experience
    have codes below [length sp_starts], the others do not accumulate experience. *)
Definition add_default_is_inadmissible (sp : core_spec) (neg : neg_set) : neg_set :=
  fun c =>
    if Nat.ltb c (length (sp_starts sp)) then
      Some (match neg c with Some l => l | None => [] end ++ [default_formula sp c])
    else
      Some (match neg c with Some l => l | None => [formula_false] end).

(** state_space.py:699-711 (create_is_inadmissible): OR of all formulas, skipping those
    with undefined variables; for one row and one choice.  A choice without entry would
    raise a KeyError in Python; after [add_default_is_inadmissible] every choice has an
    entry. *)
Definition is_inadmissible (neg : neg_set) (ctx : option (list nat)) (s : core_state)
  (choice : nat) : bool :=
  match neg choice with
  | Some fs => fold_left (fun acc f => match f ctx with
                                       | Some g => acc || g s
                                       | None => acc
                                       end) fs false
  | None => false
  end.

(** state_space.py:751 / 794: [~df[choices]]: the choice set of a row. *)
Definition choice_set_of (sp : core_spec) (neg : neg_set) (ctx : option (list nat))
  (s : core_state) : list bool :=
  map (fun c => negb (is_inadmissible neg ctx s c)) (seq 0 (sp_nchoices sp)).
