(** Property theorems: groups, indexer, dense grid, dense keys, continuation values. *)
From Coq Require Import List Arith Bool Lia.
From Verif Require Import Base Proof_Base Model_CoreStateSpace Spec_CoreStateSpace
  Proof_CoreStateSpace Model_StateSpace Spec_StateSpace Proof_StateSpace Proof_DenseGrid.
Import ListNotations.

(** A model with two choices, one with experience bounded by one, three periods, and a
    dense variable with two levels. *)
Definition ex_sp : core_spec := mkSpec 3 [[0; 1]] [1] 2 0 [].
Example ex_sp_wf : wf_spec ex_sp.
Proof. unfold ex_sp. solve_wf. Qed.
Definition ex_csf : cs_fun := choice_set_of ex_sp (process ex_sp 1 (fun _ => None)).
Definition ex_grid : list (list nat) := dense_state_space_grid [2] 0.
Definition get_ok (r : result state_space) : state_space :=
  match r with Ok ss => ss | _ => mkSS 0 [] [] [] [] [] [] [] [] [] end.
Definition ex_ss : state_space := Eval vm_compute in
  get_ok (create_state_space 3 (create_core_state_space ex_sp) ex_csf ex_grid).
Example ex_ss_created :
  create_state_space 3 (create_core_state_space ex_sp) ex_csf ex_grid = Ok ex_ss.
Proof. vm_compute. reflexivity. Qed.

(** ** C04 *)
Theorem C04_groups_partition : forall core csf i s, nth_error core i = Some s ->
  (exists! n, exists inds, nth_error (core_key_to_core_indices core csf) n = Some inds /\
                           In i inds) /\
  (forall n inds j s', nth_error (core_key_to_core_indices core csf) n = Some inds ->
     In i inds -> nth_error core j = Some s' ->
     (In j inds <-> cs_period s = cs_period s' /\ csf None s = csf None s')).
Proof. exact groups_partition. Qed.
Print Assumptions C04_groups_partition.

Theorem C04_indexer_bijection : forall core csf, NoDup core ->
  let groups := core_key_to_core_indices core csf in
  let look s := dict_get core_state_eq_dec s (create_indexer core groups) in
  (forall s, In s core <-> exists x, look s = Some x) /\
  (forall s k r, look s = Some (k, r) <-> member core groups k r s) /\
  (forall s1 s2 x, look s1 = Some x -> look s2 = Some x -> s1 = s2) /\
  (forall k r inds, nth_error groups k = Some inds -> r < length inds ->
     exists s, In s core /\ look s = Some (k, r)).
Proof. exact indexer_bijection. Qed.
Print Assumptions C04_indexer_bijection.

(** Five groups: in the last two periods (and the first) exhausted experience has its own
    group. *)
Example C04_example :
  core_key_to_complex (create_core_state_space ex_sp) ex_csf =
    [(0, [false; true]); (0, [true; true]); (1, [false; true]); (1, [true; true]);
     (2, [false; true]); (2, [true; true])] /\
  dict_get core_state_eq_dec (mkState 1 [0] [])
    (create_indexer (create_core_state_space ex_sp)
       (core_key_to_core_indices (create_core_state_space ex_sp) ex_csf)) = Some (3, 0).
Proof. split; vm_compute; reflexivity. Qed.

(** ** C05 *)
Theorem C05_one_dense_key : forall nperiods core csf grid ss s d ctx,
  NoDup core -> collision_free core csf grid ->
  create_state_space nperiods core csf grid = Ok ss ->
  In s core -> dense_combination grid d ctx ->
  exists! kr, located ss (fst kr) (snd kr) s d.
Proof. exact located_total. Qed.
Print Assumptions C05_one_dense_key.

Theorem C05_dense_key_describes_state : forall nperiods core csf grid ss k r s d,
  collision_free core csf grid ->
  create_state_space nperiods core csf grid = Ok ss -> located ss k r s d ->
  exists ctx, dense_combination grid d ctx /\ In s core /\
    dense_key_to_complex ss k = Some (cs_period s, csf ctx s, d).
Proof. exact located_describes. Qed.
Print Assumptions C05_dense_key_describes_state.

Theorem C05_no_invented_rows : forall nperiods core csf grid ss k,
  collision_free core csf grid ->
  create_state_space nperiods core csf grid = Ok ss -> k < length (ss_dpc ss) ->
  exists inds, dense_key_to_core_indices ss k = Some inds /\ inds <> [] /\
    forall r, r < length inds -> exists s d, located ss k r s d.
Proof. exact keys_inhabited. Qed.
Print Assumptions C05_no_invented_rows.

Theorem C05_construction_succeeds : forall nperiods core csf grid,
  NoDup core -> closed_under_choices nperiods core csf -> collision_free core csf grid ->
  homogeneous core csf grid -> exists ss, create_state_space nperiods core csf grid = Ok ss.
Proof. exact create_state_space_succeeds. Qed.
Print Assumptions C05_construction_succeeds.

Theorem C05_heterogeneous_groups_rejected : forall core csf grid,
  ~ homogeneous core csf grid ->
  create_dense_period_choice core csf grid (core_key_to_complex core csf)
    (core_key_to_core_indices core csf) = ValueError.
Proof. exact not_homogeneous_error. Qed.
Print Assumptions C05_heterogeneous_groups_rejected.

(** Restrictions that do not involve dense variables are always fine. *)
Theorem C05_core_restrictions : forall nperiods core csf grid,
  NoDup core -> closed_under_choices nperiods core csf ->
  (forall ctx s, csf ctx s = csf None s) ->
  collision_free core csf grid /\ homogeneous core csf grid /\
  exists ss, create_state_space nperiods core csf grid = Ok ss.
Proof. exact core_restrictions_ok. Qed.
Print Assumptions C05_core_restrictions.

Example C05_example :
  collision_free (create_core_state_space ex_sp) ex_csf ex_grid /\
  closed_under_choices 3 (create_core_state_space ex_sp) ex_csf /\
  exists ss, create_state_space 3 (create_core_state_space ex_sp) ex_csf ex_grid = Ok ss /\
             length (ss_dpc ss) = 12 /\
             located ss 7 0 (mkState 0 [0] []) (Some 1) /\
             dense_key_to_complex ss 7 = Some (0, [true; true], Some 1).
Proof.
  assert (H : forall ctx s, ex_csf ctx s = ex_csf None s).
  { intros ctx s. reflexivity. }
  split.
  - intros vec s1 s2 _ _ _ _ E. rewrite (H (Some vec) s1), (H (Some vec) s2) in E. exact E.
  - split.
    { apply (model_closed ex_sp (fun _ => None) 0); [exact ex_sp_wf|simpl; lia|reflexivity]. }
    exists ex_ss. split; [exact ex_ss_created|]. split; [reflexivity|]. split; [|reflexivity].
    eexists. eexists. split; [reflexivity|]. split; [reflexivity|].
    eexists. eexists. split; [reflexivity|]. split; reflexivity.
Qed.

(** The first choice is not available to individuals whose dense variable is 0. *)
Definition bad_neg : neg_set := fun c =>
  if Nat.eqb c 0 then Some [fun ctx => match ctx with
                                       | Some [x] => Some (fun _ => Nat.eqb x 0)
                                       | _ => None
                                       end]
  else None.
Definition bad_csf : cs_fun := choice_set_of ex_sp (process ex_sp 1 bad_neg).
Definition bad_ss : state_space := Eval vm_compute in
  get_ok (create_state_space 3 (create_core_state_space ex_sp) bad_csf ex_grid).

(** Then the groups of exhausted and not exhausted experience coincide for these
    individuals, and the construction succeeds but an initial state has no dense key. *)
Theorem C05_collisions_lose_states_refuted :
  exists sp neg grid ss s,
    wf_spec sp /\
    create_state_space (sp_nperiods sp) (create_core_state_space sp)
      (choice_set_of sp (process sp 1 neg)) grid = Ok ss /\
    nth_error grid 0 <> None /\
    reachable sp (process sp 1 neg) (nth_error grid 0) s /\
    ~ exists k r, located ss k r s (Some 0).
Proof.
  exists ex_sp, bad_neg, ex_grid, bad_ss, (mkState 0 [1] []).
  split; [exact ex_sp_wf|]. split; [vm_compute; reflexivity|]. split; [discriminate|]. split.
  - apply reach_init; simpl; [lia| | |].
    + constructor; [simpl; tauto|constructor].
    + constructor; [lia|constructor].
    + split; [reflexivity|intros x []].
  - intros [k [r L]]. apply located_has_location in L. vm_compute in L. discriminate L.
Qed.
Print Assumptions C05_collisions_lose_states_refuted.

(** ** C06 *)
Theorem C06_labels_right_iff : forall observables exog n_types,
  wf_dense observables exog n_types ->
  (right_labels observables exog n_types <->
   map (n_levels observables n_types) (dense_columns observables exog n_types) =
   map snd observables ++ (if Nat.leb 2 n_types then [n_types] else [])).
Proof. exact right_labels_iff. Qed.
Print Assumptions C06_labels_right_iff.

Theorem C06_labels_right_without_exogenous_processes : forall observables n_types,
  wf_dense observables [] n_types -> right_labels observables [] n_types.
Proof. exact right_labels_no_exog. Qed.
Print Assumptions C06_labels_right_without_exogenous_processes.

Theorem C06_labels_right_static_first : forall static exog n_types,
  n_types < 2 -> wf_dense (static ++ exog) (map fst exog) n_types ->
  right_labels (static ++ exog) (map fst exog) n_types.
Proof. exact right_labels_static_first. Qed.
Print Assumptions C06_labels_right_static_first.

(** One exogenous process with three levels and two types: some row says "type 2". *)
Theorem C06_types_and_exogenous_process_refuted :
  exists observables exog n_types row,
    wf_dense observables exog n_types /\
    In row (labelled_grid observables exog n_types) /\
    exists v, In (DType, v) row /\ n_types <= v.
Proof.
  exists [(7, 3)], [7], 2, [(DType, 2); (DObs 7, 0)]. split; [|split].
  - unfold wf_dense. simpl. split; [repeat constructor; simpl; tauto|].
    split; [repeat constructor; simpl; tauto|]. split; [tauto|].
    split; [|left; discriminate]. intros x l [E|[]]. injection E as <- <-. lia.
  - vm_compute. tauto.
  - exists 2. simpl. auto.
Qed.
Print Assumptions C06_types_and_exogenous_process_refuted.

(** Without types: a static observable that sorts after the exogenous process. *)
Theorem C06_static_after_exogenous_refuted :
  exists observables exog row,
    wf_dense observables exog 0 /\
    In row (labelled_grid observables exog 0) /\
    exists c v, In (c, v) row /\ n_levels observables 0 c <= v.
Proof.
  exists [(1, 3); (2, 2)], [1], [(DObs 2, 2); (DObs 1, 0)]. split; [|split].
  - unfold wf_dense. simpl. split; [repeat constructor; simpl; intuition discriminate|].
    split; [repeat constructor; simpl; tauto|]. split; [intros x [<-|[]]; auto|].
    split; [|left; discriminate]. intros x l [E|[E|[]]]; injection E as <- <-; lia.
  - vm_compute. tauto.
  - exists (DObs 2), 2. simpl. auto.
Qed.
Print Assumptions C06_static_after_exogenous_refuted.

Example C06_example :
  wf_dense [(1, 2); (2, 3)] [2] 0 /\
  In [(DObs 1, 1); (DObs 2, 2)] (labelled_grid [(1, 2); (2, 3)] [2] 0) /\
  length (labelled_grid [(1, 2); (2, 3)] [] 2) = 12.
Proof.
  split; [|split; [vm_compute; tauto|reflexivity]].
  unfold wf_dense. simpl. split; [repeat constructor; simpl; intuition discriminate|].
  split; [repeat constructor; simpl; tauto|]. split; [intros x [<-|[]]; auto|].
  split; [|left; discriminate]. intros x l [E|[E|[]]]; injection E as <- <-; lia.
Qed.

(** ** C08 *)
Theorem C08_continuation_values : forall A (zero : A) nperiods core csf grid ss
    (ev : list (list A)) k r s d ctx,
  NoDup core -> closed_under_choices nperiods core csf -> collision_free core csf grid ->
  create_state_space nperiods core csf grid = Ok ss -> ev_shape ss ev ->
  located ss k r s d -> dense_combination grid d ctx -> cs_period s < nperiods ->
  exists M row, get_continuation_values zero ss ev (cs_period s) k = Ok M /\
    nth_error M r = Some row /\ length row = count_true (csf ctx s) /\
    (S (cs_period s) = nperiods -> forall v, In v row -> v = zero) /\
    (S (cs_period s) < nperiods -> forall j c, nth_error (positions (csf ctx s)) j = Some c ->
       exists v, nth_error row j = Some v /\ value_at ss ev (law_of_motion c s) d v).
Proof. exact continuation_values_spec. Qed.
Print Assumptions C08_continuation_values.

(** The hypotheses hold for the state spaces of C01. *)
Theorem C08_models_are_closed : forall sp neg k,
  wf_spec sp -> sp_nlags sp <= 1 -> sp_filters sp = [] ->
  NoDup (create_core_state_space sp) /\
  closed_under_choices (sp_nperiods sp) (create_core_state_space sp)
    (choice_set_of sp (process sp (S k) neg)).
Proof. exact (fun sp neg k W L F => conj (core_nodup sp) (model_closed sp neg k W L F)). Qed.
Print Assumptions C08_models_are_closed.

(** With three choices, a choice that is lost after working and is not available in
    dense combination 0, the solution fails with a missing key. *)
Definition lost_sp : core_spec := mkSpec 3 [[0]] [2] 3 0 [].
Definition lost_neg : neg_set := fun c =>
  if Nat.eqb c 2 then
    Some [(fun _ => Some (fun s => match cs_exp s with e :: _ => Nat.ltb 0 e | [] => false end));
          (fun ctx => match ctx with
                      | Some [x] => Some (fun _ => Nat.eqb x 0)
                      | _ => None
                      end)]
  else None.
Definition lost_ss : state_space := Eval vm_compute in
  get_ok (create_state_space 3 (create_core_state_space lost_sp)
            (choice_set_of lost_sp (process lost_sp 1 lost_neg)) ex_grid).
Theorem C08_collision_breaks_lookup_refuted :
  exists sp neg grid ss, wf_spec sp /\
    create_state_space (sp_nperiods sp) (create_core_state_space sp)
      (choice_set_of sp (process sp 1 neg)) grid = Ok ss /\
    forall ev : list (list nat), ev_shape ss ev ->
      exists k, In k (dense_keys_from_period ss 1) /\
                get_continuation_values 0 ss ev 1 k = KeyError.
Proof.
  exists lost_sp, lost_neg, ex_grid, lost_ss.
  split; [unfold lost_sp; solve_wf|]. split; [vm_compute; reflexivity|].
  intros ev [L _]. exists 1. split; [vm_compute; tauto|].
  cbn in L.
  destruct ev as [|e0 [|e1 [|e2 [|e3 [|e4 [|e5 [|e6 [|e7 ev]]]]]]]]; try discriminate L.
  vm_compute. destruct e2; reflexivity.
Qed.
Print Assumptions C08_collision_breaks_lookup_refuted.

Example C08_example :
  exists ss, create_state_space 3 (create_core_state_space ex_sp) ex_csf ex_grid = Ok ss /\
    let ev := map (fun p => map (fun r => 100 * fst p + r)
                     (seq 0 match dense_key_to_core_indices ss (fst p) with
                            | Some l => length l | None => 0 end)) (enumerate (ss_dpc ss)) in
    ev_shape ss ev /\
    get_continuation_values 0 ss ev 0 7 = Ok [[800; 900]] /\
    get_continuation_values 0 ss ev 2 11 = Ok [[0; 0]].
Proof.
  exists ex_ss. split; [exact ex_ss_created|]. split; [|split; vm_compute; reflexivity].
  split; [reflexivity|]. intros k arr inds Hk Hi.
  do 12 (destruct k as [|k];
          [vm_compute in Hi; injection Hi as <-; vm_compute in Hk; injection Hk as <-; reflexivity|]).
  vm_compute in Hi. destruct k; discriminate Hi.
Qed.
