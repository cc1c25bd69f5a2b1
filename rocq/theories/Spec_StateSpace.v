(** Independent specification of the indexing structures. *)
From Coq Require Import List Arith Bool.
From Verif Require Import Base Model_CoreStateSpace Model_StateSpace.
Import ListNotations.

(** State [s] is the [r]-th member of the [k]-th group of core rows. *)
Definition member (core : list core_state) (groups : list (list nat)) (k r : nat)
  (s : core_state) : Prop :=
  exists inds i, nth_error groups k = Some inds /\ nth_error inds r = Some i /\
                 nth_error core i = Some s.

(** No two different groups of core states of one period have the same choice set once a
    dense combination is fixed. *)
Definition collision_free (core : list core_state) (csf : cs_fun) (grid : list (list nat))
  : Prop :=
  forall vec s1 s2, In vec grid -> In s1 core -> In s2 core ->
    cs_period s1 = cs_period s2 -> csf (Some vec) s1 = csf (Some vec) s2 ->
    csf None s1 = csf None s2.

(** States which cannot be distinguished by period and core choice set have the same
    choice set in every dense combination. *)
Definition homogeneous (core : list core_state) (csf : cs_fun) (grid : list (list nat))
  : Prop :=
  forall vec s1 s2, In vec grid -> In s1 core -> In s2 core ->
    cs_period s1 = cs_period s2 -> csf None s1 = csf None s2 ->
    csf (Some vec) s1 = csf (Some vec) s2.

(** Dense indices and the dense combination that belongs to them; a model without dense
    variables has the single index [None]. *)
Definition dense_combination (grid : list (list nat)) (d : option nat)
  (ctx : option (list nat)) : Prop :=
  match d with
  | None => grid = [] /\ ctx = None
  | Some i => exists vec, nth_error grid i = Some vec /\ ctx = Some vec
  end.

(** The state [s] with dense index [d] sits in row [r] of the arrays of dense key [k]. *)
Definition located (ss : state_space) (k r : nat) (s : core_state) (d : option nat)
  : Prop :=
  exists cx ck, nth_error (ss_dpc ss) k = Some (cx, ck) /\ cx_dense cx = d /\
                member (ss_core ss) (ss_groups ss) ck r s.

(** Admissible choices lead to states of the state space (C02). *)
Definition closed_under_choices (nperiods : nat) (core : list core_state) (csf : cs_fun)
  : Prop :=
  forall ctx s c, In s core -> S (cs_period s) < nperiods ->
    nth_error (csf ctx s) c = Some true -> In (law_of_motion c s) core.

(** Arrays of the shape in which expected value functions are stored. *)
Definition ev_shape {A} (ss : state_space) (ev : list (list A)) : Prop :=
  length ev = length (ss_dpc ss) /\
  forall k arr inds, nth_error ev k = Some arr ->
    dense_key_to_core_indices ss k = Some inds -> length arr = length inds.

(** The pair (complex, core key) is what one expects for one combination of a core group
    and a dense combination: same dense index, same period, and the choice set of every
    state of the group under the dense combination. *)
Definition right_entry (core : list core_state) (csf : cs_fun) (grid : list (list nat))
  (groups : list (list nat)) (cx : complex) (ck : nat) : Prop :=
  exists ctx inds, dense_combination grid (cx_dense cx) ctx /\
    nth_error groups ck = Some inds /\
    forall i s, In i inds -> nth_error core i = Some s ->
      cs_period s = cx_period cx /\ csf ctx s = cx_choice_set cx.

(** The stored value of state [s] with dense index [d]. *)
Definition value_at {A} (ss : state_space) (ev : list (list A)) (s : core_state)
  (d : option nat) (v : A) : Prop :=
  exists k r arr, located ss k r s d /\ nth_error ev k = Some arr /\
                  nth_error arr r = Some v.

(** Number of levels of a dense variable. *)
Definition n_levels (observables : list (nat * nat)) (n_types : nat) (c : dense_col) : nat :=
  match c with
  | DType => n_types
  | DObs x => match find (fun p => Nat.eqb x (fst p)) observables with
              | Some p => snd p
              | None => 0
              end
  end.

(** The labelled rows are exactly the assignments of a level to every column. *)
Definition right_labels (observables : list (nat * nat)) (exog : list nat) (n_types : nat)
  : Prop :=
  forall row, In row (labelled_grid observables exog n_types) <->
    map fst row = dense_columns observables exog n_types /\
    forall c v, In (c, v) row -> v < n_levels observables n_types c.

(** Well-formed dense variables: distinct names, at least one level, exogenous processes
    are observables (model_processing.py:214-240), and there is a dense variable. *)
Definition wf_dense (observables : list (nat * nat)) (exog : list nat) (n_types : nat)
  : Prop :=
  NoDup (map fst observables) /\ NoDup exog /\
  (forall x, In x exog -> In x (map fst observables)) /\
  (forall x l, In (x, l) observables -> 0 < l) /\
  (observables <> [] \/ 2 <= n_types).
