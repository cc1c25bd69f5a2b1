(** Model of the indexing structures of the state space: groups of core states with the
    same choice set, the indexer, dense grid, dense keys, child indices and continuation
    values.  Definitions only; see Props_StateSpace.v for the theorems. *)
From Coq Require Import List Arith Bool.
From Verif Require Import Base Model_CoreStateSpace.
Import ListNotations.

(** A choice-set function: the choice set of a core state in a frame with ([Some vec]) or
    without ([None]) dense variables; instantiated with [choice_set_of sp neg]. *)
Definition cs_fun := option (list nat) -> core_state -> list bool.

(** Keys of [core_period_choice]: (period, choice_set). *)
Definition ckey := (nat * list bool)%type.
Definition ckey_eq_dec (x y : ckey) : {x = y} + {x <> y}.
Proof. decide equality; repeat decide equality. Defined.

(** Lexicographic order of tuples, False before True. *)
Fixpoint bools_leb (a b : list bool) : bool :=
  match a, b with
  | [], _ => true
  | _ :: _, [] => false
  | x :: xs, y :: ys =>
      if Bool.eqb x y then bools_leb xs ys else negb x
  end.
Definition ckey_leb (a b : ckey) : bool :=
  if Nat.eqb (fst a) (fst b) then bools_leb (snd a) (snd b) else Nat.ltb (fst a) (fst b).

(** state_space.py:739-756 (_create_core_period_choice): the groups of
    [df.groupby(["period"] + choices)], in the order of the sorted group keys.  The row
    labels of [core] are 0, 1, ... (state_space.py:481 resets the index). *)
Definition core_key_of (csf : cs_fun) (s : core_state) : ckey :=
  (cs_period s, csf None s).
Definition core_key_to_complex (core : list core_state) (csf : cs_fun) : list ckey :=
  isort ckey_leb (drop_duplicates ckey_eq_dec (map (core_key_of csf) core)).
Definition group_indices (core : list core_state) (csf : cs_fun) (k : ckey) : list nat :=
  map fst (filter (fun p => if ckey_eq_dec (core_key_of csf (snd p)) k then true else false)
                  (enumerate core)).
(** state_space.py:42-45 (core_key_to_core_indices). *)
Definition core_key_to_core_indices (core : list core_state) (csf : cs_fun)
  : list (list nat) :=
  map (group_indices core csf) (core_key_to_complex core csf).

(** [core.loc[indices]] *)
Definition rows {A} (l : list A) (indices : list nat) : list A :=
  flat_map (fun i => match nth_error l i with Some s => [s] | None => [] end) indices.

(** state_space.py:714-736 (_create_indexer). *)
Definition create_indexer (core : list core_state) (groups : list (list nat))
  : list (core_state * (nat * nat)) :=
  fold_left
    (fun d p =>
       fold_left (fun d q => dict_set core_state_eq_dec (snd q) (fst p, fst q) d)
                 (enumerate (rows core (snd p))) d)
    (enumerate groups) [].

(** state_space.py:652-676 (_create_dense_state_space_grid): [levels] are the numbers of
    levels of [optim_paras["observables"]] in dictionary order.  The Python function
    returns False instead of the one-element list holding the empty tuple; here [[]]. *)
Definition dense_state_space_grid (levels : list nat) (n_types : nat) : list (list nat) :=
  let dims := map (seq 0) levels ++ (if Nat.leb 2 n_types then [seq 0 n_types] else []) in
  match product dims with
  | [[]] => []
  | g => g
  end.

(** complex = (period, choice_set) or (period, choice_set, dense_index). *)
Definition complex := (nat * list bool * option nat)%type.
Definition complex_eq_dec (x y : complex) : {x = y} + {x <> y}.
Proof. decide equality; repeat decide equality. Defined.
Definition cx_period (c : complex) : nat := fst (fst c).
Definition cx_choice_set (c : complex) : list bool := snd (fst c).
Definition cx_dense (c : complex) : option nat := snd c.

(** Contents of a "states" file: the core part of its rows and the dense vector. *)
Definition states_file := (list core_state * option (list nat))%type.

(** state_space.py:793-806 (the body of the inner loop over core keys): all rows of the
    group must have the same choice set in the frame with dense variables. *)
Definition group_choice_set (csf : cs_fun) (vec : list nat) (states : list core_state)
  : result (list bool) :=
  match drop_duplicates (list_eq_dec bool_dec) (map (csf (Some vec)) states) with
  | [cs] => Ok cs
  | _ => ValueError
  end.

Definition dpc_acc := (list (complex * nat) * list (complex * states_file))%type.

Definition dense_period_choice_step (core : list core_state) (csf : cs_fun)
  (keys : list ckey) (groups : list (list nat)) (dense_idx : nat) (vec : list nat)
  (core_idx : nat) (acc : dpc_acc) : result dpc_acc :=
  match nth_error keys core_idx, nth_error groups core_idx with
  | Some k, Some indices =>
      let states := rows core indices in
      result_bind (group_choice_set csf vec states)
        (fun cs =>
           let cx := (fst k, cs, Some dense_idx) in
           Ok (dict_set complex_eq_dec cx core_idx (fst acc),
               dict_set complex_eq_dec cx (states, Some vec) (snd acc)))
  | _, _ => KeyError
  end.

(** A loop whose body may raise. *)
Fixpoint fold_result {A B} (f : B -> A -> result A) (l : list B) (a : A) : result A :=
  match l with
  | [] => Ok a
  | b :: r => result_bind (f b a) (fun a' => fold_result f r a')
  end.

(** state_space.py:759-817 (_create_dense_period_choice); returns the dictionary
    [dense_period_choice] in insertion order and the dumped "states" files. *)
Definition create_dense_period_choice (core : list core_state) (csf : cs_fun)
  (grid : list (list nat)) (keys : list ckey) (groups : list (list nat))
  : result dpc_acc :=
  match grid with
  | [] =>
      let cxs := map (fun p => ((fst (snd p), snd (snd p), None) : complex, fst p))
                     (enumerate keys) in
      Ok (dict_of_pairs complex_eq_dec cxs,
          dict_of_pairs complex_eq_dec
            (flat_map (fun p => match nth_error groups (snd p) with
                                | Some g => [(fst p, (rows core g, None))]
                                | None => []
                                end) cxs))
  | _ =>
      fold_result
        (fun d acc =>
           fold_result (dense_period_choice_step core csf keys groups (fst d) (snd d))
                       (seq 0 (length groups)) acc)
        (enumerate grid) ([], [])
  end.

(** shared.py:545-550 (return_core_dense_key): a missing dense index is 0. *)
Definition core_dense_key (core_idx : nat) (dense : option nat) : nat * nat :=
  (core_idx, match dense with Some d => d | None => 0 end).

Definition pair_nat_eq_dec (x y : nat * nat) : {x = y} + {x <> y}.
Proof. decide equality; apply Nat.eq_dec. Defined.

(** state_space.py:153-165 (core_key_and_dense_index_to_dense_key).  Dense keys are the
    positions in [dense_period_choice] (state_space.py:138-140). *)
Definition core_key_and_dense_index_to_dense_key (dpc : list (complex * nat))
  : list ((nat * nat) * nat) :=
  dict_of_pairs pair_nat_eq_dec
    (map (fun p => (core_dense_key (snd (snd p)) (cx_dense (fst (snd p))), fst p))
         (enumerate dpc)).

(** shared.py:624-653 (map_states_to_core_key_and_core_index): a missing state raises. *)
Fixpoint map_states (indexer : list (core_state * (nat * nat))) (states : list core_state)
  : result (list (nat * nat)) :=
  match states with
  | [] => Ok []
  | s :: r => match dict_get core_state_eq_dec s indexer with
              | Some x => result_bind (map_states indexer r) (fun xs => Ok (x :: xs))
              | None => KeyError
              end
  end.

(** state_space.py:866-912 (_collect_child_indices) for one dense key; the inner list
    has one entry per valid choice.  The Python code fills the array column by column,
    here row by row (only which lookup raises first differs). *)
Definition collect_child_indices (indexer : list (core_state * (nat * nat)))
  (choice_set : list bool) (states : list core_state) : result (list (list (nat * nat))) :=
  result_all
    (map (fun s => map_states indexer
                     (map (fun c => law_of_motion c s) (positions choice_set))) states).

(** The attributes of [StateSpace] used by the solution. *)
Record state_space := mkSS {
  ss_nperiods : nat;
  ss_core : list core_state;
  ss_keys : list ckey;                          (* core_key_to_complex *)
  ss_groups : list (list nat);                  (* core_key_to_core_indices *)
  ss_indexer : list (core_state * (nat * nat));
  ss_grid : list (list nat);                    (* dense; [] for False *)
  ss_dpc : list (complex * nat);                (* dense_period_cores *)
  ss_files : list (complex * states_file);      (* dumped "states" *)
  ss_transit : list (list bool);                (* choice sets used for children *)
  ss_child : list (list (list (nat * nat)))     (* child_indices, [] in last period *)
}.

(** state_space.py:138-151: attributes by dense key. *)
Definition dense_key_to_complex (ss : state_space) (k : nat) : option complex :=
  nth_error (map fst (ss_dpc ss)) k.
Definition dense_key_to_core_key (ss : state_space) (k : nat) : option nat :=
  nth_error (map snd (ss_dpc ss)) k.
Definition dense_key_to_core_indices (ss : state_space) (k : nat) : option (list nat) :=
  match dense_key_to_core_key ss k with
  | Some ck => nth_error (ss_groups ss) ck
  | None => None
  end.

(** state_space.py:294-337 (collect_child_indices) for one dense key. *)
Definition child_indices_of (nperiods : nat) (indexer : list (core_state * (nat * nat)))
  (files : list (complex * states_file)) (cx : complex) (choice_set : list bool)
  : result (list (list (nat * nat))) :=
  if Nat.ltb (cx_period cx) (nperiods - 1) then
    match dict_get complex_eq_dec cx files with
    | Some f => collect_child_indices indexer choice_set (fst f)
    | None => OtherError          (* FileNotFoundError *)
    end
  else Ok [].

(** state_space.py:28-63 and 119-130: create_state_space_class for a model without
    exogenous processes: the children are collected for the key's own choice set
    (state_space.py:317-321). *)
Definition create_state_space (nperiods : nat) (core : list core_state) (csf : cs_fun)
  (grid : list (list nat)) : result state_space :=
  let keys := core_key_to_complex core csf in
  let groups := core_key_to_core_indices core csf in
  let indexer := create_indexer core groups in
  result_bind (create_dense_period_choice core csf grid keys groups)
    (fun acc =>
       let dpc := fst acc in
       let transit := map (fun p => cx_choice_set (fst p)) dpc in
       result_bind
         (result_all (map (fun p => child_indices_of nperiods indexer (snd acc)
                                      (fst (fst p)) (snd p)) (combine dpc transit)))
         (fun child =>
            Ok (mkSS nperiods core keys groups indexer grid dpc (snd acc) transit child))).

(** state_space.py:360-366 (get_dense_keys_from_period). *)
Definition dense_keys_from_period (ss : state_space) (period : nat) : list nat :=
  map fst (filter (fun p => Nat.eqb (cx_period (fst (snd p))) period)
                  (enumerate (ss_dpc ss))).

(** state_space.py:251-254: the expected value functions of the next period. *)
Definition ev_of_period {A} (ss : state_space) (ev : list (list A)) (period : nat) (k : nat)
  : option (list A) :=
  match dense_key_to_complex ss k with
  | Some cx => if Nat.eqb (cx_period cx) period then nth_error ev k else None
  | None => None
  end.

(** state_space.py:855-861: one entry of the array of continuation values. *)
Definition continuation_value {A} (ss : state_space) (ev : list (list A)) (period : nat)
  (dense : option nat) (child : nat * nat) : result A :=
  match dict_get pair_nat_eq_dec (core_dense_key (fst child) dense)
                 (core_key_and_dense_index_to_dense_key (ss_dpc ss)) with
  | None => KeyError
  | Some dk => match ev_of_period ss ev (S period) dk with
               | None => KeyError
               | Some arr => match nth_error arr (snd child) with
                             | Some v => Ok v
                             | None => IndexError
                             end
               end
  end.

(** state_space.py:222-292 (get_continuation_values, without exogenous processes) and
    820-863 (_get_continuation_values), for one dense key of [period]. *)
Definition get_continuation_values {A} (zero : A) (ss : state_space) (ev : list (list A))
  (period : nat) (k : nat) : result (list (list A)) :=
  match nth_error (ss_dpc ss) k, dense_key_to_core_indices ss k, nth_error (ss_transit ss) k,
        nth_error (ss_child ss) k with
  | Some (cx, _), Some indices, Some cs, Some child =>
      if Nat.eqb period (ss_nperiods ss - 1) then
        Ok (map (fun _ => repeat zero (count_true (cx_choice_set cx))) indices)
      else
        result_all
          (map (fun i =>
                  result_all
                    (map (fun j =>
                            match nth_error child i with
                            | None => IndexError
                            | Some row =>
                                match nth_error row j with
                                | None => IndexError
                                | Some ch => continuation_value ss ev period (cx_dense cx) ch
                                end
                            end)
                         (seq 0 (count_true cs))))
               (seq 0 (length indices)))
  | _, _, _, _ => KeyError
  end.

(** Column of a dense variable: an observable or exogenous process (names are abstract
    identifiers) or "type". *)
Inductive dense_col := DObs (name : nat) | DType.

(** shared.py:405-418 (create_dense_state_space_columns).  [observables]: names and
    numbers of levels in dictionary order, [exog]: names of the exogenous processes. *)
Definition dense_columns (observables : list (nat * nat)) (exog : list nat) (n_types : nat)
  : list dense_col :=
  map DObs (filter (fun x => negb (existsb (Nat.eqb x) exog)) (map fst observables))
  ++ (if Nat.leb 2 n_types then [DType] else [])
  ++ map DObs exog.

(** state_space.py:679-696 (_create_dense_state_space_covariates): the grid of
    state_space.py:652-676 labelled with the columns, row by row.  (The data frame
    constructor needs as many columns as the grid has entries per row.) *)
Definition labelled_grid (observables : list (nat * nat)) (exog : list nat) (n_types : nat)
  : list (list (dense_col * nat)) :=
  map (combine (dense_columns observables exog n_types))
      (dense_state_space_grid (map snd observables) n_types).
