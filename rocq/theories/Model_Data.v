(** Model of data sets: pre_processing/data_checking.py (all), data.py:10-23 and
    shared.py:193-237 (downcast_to_smallest_dtype). *)
From Coq Require Import List ZArith Bool String Reals.
From Verif Require Import Base Model_Choices.
Import ListNotations.
Open Scope Z_scope.

(** ** Data sets

    A row of a data set, after [reset_index]. Missing values are [None]; the index has no
    missing values, and all columns exist. The list of lagged choices starts with the
    first lag; experiences and observables are in the order of the model. *)
Record row := mkRow {
  r_id : Z;
  r_period : Z;
  r_choice : option string;
  r_wage : option R;
  r_lags : list (option string);
  r_exps : list (option Z);
  r_obs : list (option level);
  r_type : option Z }.

(** What is used of the model: [optim_paras]. *)
Record info := mkInfo {
  i_periods : Z;
  i_choices : list string;
  i_wage_choices : list string;
  i_exp_choices : list string;
  i_lags : nat;
  i_levels : list nat;
  i_types : Z }.

Definition known (choices : list string) (c : option string) : bool :=
  match c with Some c => mem c choices | None => false end.
Definition present {A} (x : option A) : bool := match x with Some _ => true | None => false end.
(** Number of distinct values which are not missing, [nunique]. *)
Definition somes {A} (l : list (option A)) : list A :=
  flat_map (fun x => match x with Some x => [x] | None => [] end) l.
Definition nunique {A} (eqd : forall x y : A, {x = y} + {x <> y}) (l : list (option A)) : nat :=
  List.length (drop_duplicates eqd (somes l)).

(** The last of the earlier rows of the same individual: [groupby("Identifier").shift()].
    [before] are the earlier rows, last row first. *)
Definition shifted (before : list row) (r : row) : option row :=
  find (fun q => Z.eqb (r_id q) (r_id r)) before.
(** All rows with their label (position) and the shifted row. *)
Fixpoint with_shift (before : list row) (label : nat) (data : list row) : list (nat * row * option row) :=
  match data with
  | [] => []
  | r :: data => (label, r, shifted before r) :: with_shift (r :: before) (S label) data
  end.

(** The columns "Choice", "Lagged_Choice_1", ... *)
Definition choice_column (i : nat) (r : row) : option string :=
  match i with O => r_choice r | S i => nth i (r_lags r) None end.
(** [cat.codes]; [categories i] are the categories of the column. Missing values and values
    which are no category have the code -1. *)
Definition code (categories : list string) (c : option string) : Z :=
  match c with
  | None => -1
  | Some c => match find (fun p => String.eqb (snd p) c) (enumerate categories) with
              | Some p => Z.of_nat (fst p)
              | None => -1
              end
  end.

(** An [assert]. *)
Definition check (b : bool) : result unit := if b then Ok tt else OtherError.
Fixpoint all_checks (l : list (result unit)) : result unit :=
  match l with
  | [] => Ok tt
  | r :: l => result_bind r (fun _ => all_checks l)
  end.

(** data_checking.py:53-57, for column [i] and column [i + 1]. The comparison of two series
    with different labels is an error of pandas. *)
Definition check_lag (categories : nat -> list string) (data : list row) (i : nat) : result unit :=
  let rows := with_shift [] 0 data in
  let later := filter (fun x => negb (Z.leb (r_period (snd (fst x))) (Z.of_nat i))) rows in
  let left := map (fun x => (fst (fst x), code (categories (S i)) (choice_column (S i) (snd (fst x))))) later in
  let right := flat_map (fun x => match snd x with
      | Some q => match choice_column i q with
                  | Some c => [(fst (fst x), code (categories i) (Some c))]
                  | None => []
                  end
      | None => []
      end) rows in
  if list_eq_dec Nat.eq_dec (map fst left) (map fst right) then
    check (forallb (fun p => Z.eqb (snd (fst p)) (snd (snd p))) (combine left right))
  else ValueError.

(** data_checking.py:69-76, for the choice with number [j] among those with experience. *)
Definition check_experience (data : list row) (j : nat) (choice : string) : bool :=
  let exp r := nth j (r_exps r) None in
  let is c := match c with Some c => if String.eqb c choice then 1 else 0 | None => 0 end in
  forallb (fun x => match snd x with
      | Some q => match exp q, exp (snd (fst x)) with
                  | Some e, Some e' => Z.eqb (e + is (r_choice q)) e'
                  | None, _ => true
                  | Some _, None => false
                  end
      | None => true
      end) (with_shift [] 0 data).

(** data_checking.py:81-84 *)
Definition check_complete (data : list row) : bool :=
  forallb (fun i =>
      let periods := map r_period (filter (fun r => Z.eqb (r_id r) i) data) in
      match periods with
      | [] => true
      | p :: ps => Z.eqb (fold_left Z.max ps p + 1) (Z.of_nat (List.length periods))
      end) (map r_id data).

Definition pair_dec : forall x y : Z * Z, {x = y} + {x <> y}.
Proof. decide equality; apply Z.eq_dec. Defined.

(** data_checking.py:7-84 (check_estimation_data) *)
Definition check_estimation_data (m : info) (categories : nat -> list string) (data : list row) : result unit :=
  let ids := drop_duplicates Z.eq_dec (map r_id data) in
  let keys := map (fun r => (r_id r, r_period r)) data in
  all_checks (
    [ check (if list_eq_dec Z.eq_dec ids (map Z.of_nat (seq 0 (List.length ids))) then true else false);
      check (forallb (fun r => Z.leb (r_period r) (i_periods m - 1)) data);
      check (forallb (fun r => known (i_choices m) (r_choice r)) data);
      check (forallb (fun r => match r_wage r with Some w => if Rlt_dec 0 w then true else false | None => true end) data) ] ++
    map (fun i => check (forallb (fun r => known (i_choices m) (choice_column i r)) data)) (seq 1 (i_lags m)) ++
    (if Z.ltb 1 (i_periods m) && Nat.ltb 0 (i_lags m)
     then map (check_lag categories data) (seq 0 (i_lags m - 1)) else []) ++
    map (fun p => check (Nat.leb (nunique level_eq_dec (map (fun r => nth (fst p) (r_obs r) None) data)) (snd p)))
        (enumerate (i_levels m)) ++
    [ check (forallb (fun r => forallb (fun j => present (nth j (r_exps r) None)) (seq 0 (List.length (i_exp_choices m))) &&
                               forallb (fun j => present (nth j (r_obs r) None)) (seq 0 (List.length (i_levels m)))) data) ] ++
    map (fun p => check (check_experience data (fst p) (snd p))) (enumerate (i_exp_choices m)) ++
    [ check (if list_eq_dec pair_dec (drop_duplicates pair_dec keys) keys then true else false);
      check (check_complete data) ])%list.

(** data_checking.py:87-112 (check_simulated_data) *)
Definition check_simulated_data (m : info) (categories : nat -> list string) (data : list row) : result unit :=
  result_bind (check_estimation_data m categories data) (fun _ =>
  all_checks (
    (if Z.leb 2 (i_types m) then
       [ check (match somes (map r_type data) with
                | [] => false
                | t :: ts => Z.leb (fold_left Z.max ts t) (i_types m - 1)
                end);
         check (forallb (fun r => present (r_type r)) data);
         check (forallb (fun i => Nat.eqb (nunique Z.eq_dec (map r_type (filter (fun r => Z.eqb (r_id r) i) data))) 1) (map r_id data)) ]
     else []) ++
    [ check (forallb (fun r => if known (i_wage_choices m) (r_choice r) then present (r_wage r) else true) data);
      check (forallb (fun r => if known (i_wage_choices m) (r_choice r) then true else negb (present (r_wage r))) data) ])%list).

(** ** Experience from choices *)

(** A grouped cumulative sum, [groupby("Identifier").cumsum()]: the sum over the rows of the
    same individual up to the row. *)
Fixpoint group_cumsum (before : list (Z * Z)) (l : list (Z * Z)) : list Z :=
  match l with
  | [] => []
  | (i, x) :: l => (fold_right Z.add 0 (map snd (filter (fun p => Z.eqb (fst p) i) before)) + x)
                   :: group_cumsum ((i, x) :: before) l
  end.
(** [groupby("Identifier").shift().fillna(0)] *)
Fixpoint group_shift (before : list (Z * Z)) (l : list (Z * Z)) : list Z :=
  match l with
  | [] => []
  | (i, x) :: l => match find (fun p => Z.eqb (fst p) i) before with Some p => snd p | None => 0 end
                   :: group_shift ((i, x) :: before) l
  end.
(** data.py:10-23, for one choice: identifiers and choices of the rows. *)
Definition working_experience (rows : list (Z * option string)) (choice : string) : list Z :=
  let ids := map fst rows in
  let worked := map (fun r => (fst r, if known [choice] (snd r) then 1 else 0)) rows in
  let lagged := group_shift [] worked in
  group_cumsum [] (combine ids lagged).

(** ** Data types of columns of integers

    A type is the number of bits and whether it is signed. *)
Record dtype := mkDtype { d_signed : bool; d_bits : Z }.
Definition d_min (d : dtype) : Z := if d_signed d then - 2 ^ (d_bits d - 1) else 0.
Definition d_max (d : dtype) : Z := if d_signed d then 2 ^ (d_bits d - 1) - 1 else 2 ^ d_bits d - 1.
(** [astype]: values are wrapped around. *)
Definition wrap (d : dtype) (x : Z) : Z := (x - d_min d) mod 2 ^ d_bits d + d_min d.
(** A column: its type and its values. *)
Definition column := (dtype * list Z)%type.
Definition astype (d : dtype) (c : column) : column := (d, map (wrap d) (snd c)).

(** [pd.to_numeric(series, downcast=...)]: the types are tried in the order of their size
    and the first which keeps all values is taken; unsigned types are only tried if no value
    is negative. Empty columns are not modelled. *)
Fixpoint first_type (types : list dtype) (c : column) : dtype :=
  match types with
  | [] => fst c
  | d :: types =>
      if Z.leb (d_bits d) (d_bits (fst c)) && (if list_eq_dec Z.eq_dec (snd (astype d c)) (snd c) then true else false)
      then d else first_type types c
  end.
Definition sizes : list Z := [8; 16; 32; 64].
Definition to_numeric_type (signed : bool) (c : column) : dtype :=
  if signed || forallb (Z.leb 0) (snd c) then first_type (map (mkDtype signed) sizes) c else fst c.

(** shared.py:193-237 for columns of integers: unsigned types first. *)
Definition downcast (c : column) : column :=
  let u := to_numeric_type false c in
  if negb (d_signed u) then astype u c
  else
    let min1 := if Z.ltb (d_bits u) (d_bits (fst c)) then u else fst c in
    let s := to_numeric_type true c in
    if negb (d_signed s) then astype s c
    else astype (if Z.ltb (d_bits s) (d_bits min1) then s else min1) c.
