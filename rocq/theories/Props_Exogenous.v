(** Property theorems: exogenous processes. *)
From Coq Require Import List Arith Bool Reals Lra Lia.
From Verif Require Import Base Proof_Base Model_CoreStateSpace Spec_CoreStateSpace Proof_CoreStateSpace
  Model_StateSpace Spec_StateSpace Proof_StateSpace Proof_DenseGrid Props_StateSpace Model_Solve Spec_Solve
  Proof_Solve Examples_Solve Model_Exogenous Spec_Exogenous Proof_Exogenous Proof_ExogenousProps
  Examples_Exogenous.
Import ListNotations.
Open Scope R_scope.

(** ** C27 *)
Theorem C27_probability_of_a_combination : forall procs x e, procs <> [] ->
  combination (map (fun p => length p) procs) e ->
  transition_probability procs x e = Ok (joint procs x e).
Proof. exact transition_probability_spec. Qed.
Print Assumptions C27_probability_of_a_combination.

Theorem C27_probabilities_sum_to_one : forall procs x, Forall (fun p => p <> []) procs ->
  (forall e, 0 < joint procs x e) /\
  rsum (map (joint procs x) (combinations (map (fun p => length p) procs))) = 1.
Proof. intros procs x F. exact (conj (fun e => joint_pos procs x e F) (joint_sum procs x F)). Qed.
Print Assumptions C27_probabilities_sum_to_one.

Theorem C27_all_combinations : forall levels, NoDup (combinations levels) /\
  forall e, In e (combinations levels) <-> combination levels e.
Proof. intros levels. exact (conj (NoDup_combinations levels) (In_combinations levels)). Qed.
Print Assumptions C27_all_combinations.

(** The columns of the transition frame are the same state in the combinations with the
    same static part, each with the joint probability. *)
Theorem C27_transition_frame : forall nperiods core csf grid procs sx k r s vec d x,
  NoDup core -> closed_under_choices nperiods core csf -> collision_free core csf grid ->
  NoDup grid -> procs <> [] ->
  create_state_space_exog nperiods core csf grid (map (fun p => length p) procs) = Ok sx ->
  located sx k r s (Some d) -> nth_error grid d = Some vec ->
  exists row, transition_row grid (ss_dpc sx) procs k x = Ok row /\
    Forall2 (fun e col => snd col = joint procs x e /\
               exists d', nth_error grid d' = Some (static_part (length procs) vec ++ e) /\
                          located sx (fst col) r s (Some d'))
            (combinations (map (fun p => length p) procs)) row /\
    (forall col, In col row -> 0 < snd col) /\ rsum (map snd row) = 1.
Proof. exact transition_rows. Qed.
Print Assumptions C27_transition_frame.

Example C27_example : 
  combinations [2%nat; 2%nat] = [[0; 0]; [0; 1]; [1; 0]; [1; 1]]%nat /\
  joint [[[]; []]; [[(0%nat, ln 3)]; []]] (fun _ => 1) [1%nat; 0%nat] = 3 / 8.
Proof.
  split; [reflexivity|]. unfold joint, logit, linear_index. cbn.
  rewrite !Rmult_1_l, !Rplus_0_r, exp_ln, exp_0 by lra. lra.
Qed.

(** ** C28 *)
Theorem C28_weighted_continuation_values :
  forall nchoices nperiods core csf grid procs sx inp ev k r s vec d,
  NoDup core -> closed_under_choices nperiods core csf -> collision_free core csf grid ->
  NoDup grid -> procs <> [] -> wf_inputs nchoices csf inp ->
  create_state_space_exog nperiods core csf grid (map (fun p => length p) procs) = Ok sx ->
  ev_shape sx ev -> located sx k r s (Some d) -> nth_error grid d = Some vec ->
  (S (cs_period s) < nperiods)%nat ->
  exists M row, get_weighted_continuation_values sx procs inp ev (cs_period s) k = Ok M /\
    nth_error M r = Some row /\ length row = count_true (csf (Some vec) s) /\
    forall j c, nth_error (positions (csf (Some vec) s)) j = Some c ->
      exists vals,
        Forall2 (fun e v => value_in sx ev (static_part (length procs) vec ++ e) (law_of_motion c s) v)
                (combinations (map (fun p => length p) procs)) vals /\
        nth_error row j = Some (rsum (map (fun p => joint procs (in_cov inp (Some vec) s) (fst p) * snd p)
                                          (combine (combinations (map (fun p => length p) procs)) vals))).
Proof. exact weighted_values. Qed.
Print Assumptions C28_weighted_continuation_values.

Theorem C28_representative_choice_sets : forall nchoices nperiods core csf grid levels sx k k' cx ck ks,
  NoDup core -> closed_under_choices nperiods core csf -> collision_free core csf grid ->
  NoDup grid -> core <> [] -> (forall ctx s, length (csf ctx s) = nchoices) ->
  create_state_space_exog nperiods core csf grid levels = Ok sx ->
  nth_error (ss_dpc sx) k = Some (cx, ck) -> transit_keys grid (ss_dpc sx) levels k = Ok ks -> In k' ks ->
  exists rep, nth_error (ss_transit sx) k' = Some rep /\ length rep = nchoices /\
    (forall c, nth_error (cx_choice_set cx) c = Some true -> nth_error rep c = Some true) /\
    compress (representation_cols rep (cx_choice_set cx)) (positions rep) = positions (cx_choice_set cx).
Proof. exact representative. Qed.
Print Assumptions C28_representative_choice_sets.

(** The first choice is not available at the second level; the representative choice set of
    the key of the second level contains it because it is reached from the first level. *)
Example C28_example : 
  nth_error (ss_dpc exo_ss2) 2 = Some ((0%nat, [false; true], Some 1%nat), 0%nat) /\
  transit_keys [[0%nat]; [1%nat]] (ss_dpc exo_ss2) [2%nat] 0 = Ok [0%nat; 2%nat] /\
  nth_error (ss_transit exo_ss2) 2 = Some [true; true] /\
  representation_cols [true; true] [false; true] = [false; true].
Proof. repeat split; vm_compute; reflexivity. Qed.

(** ** C29 *)
Theorem C29_static_part_is_kept : forall nperiods core csf grid levels sx k r s vec d,
  NoDup core -> closed_under_choices nperiods core csf -> collision_free core csf grid ->
  NoDup grid -> create_state_space_exog nperiods core csf grid levels = Ok sx ->
  located sx k r s (Some d) -> nth_error grid d = Some vec ->
  exists ks static e, transit_keys grid (ss_dpc sx) levels k = Ok ks /\ NoDup ks /\
    vec = static ++ e /\ combination levels e /\
    Forall2 (fun e' k' => exists d', nth_error grid d' = Some (static ++ e') /\ located sx k' r s (Some d'))
            (combinations levels) ks.
Proof. exact transit_states. Qed.
Print Assumptions C29_static_part_is_kept.

(** A model is accepted exactly if the last dimensions of the grid have as many levels as
    the processes; a model with a different layout raises. *)
Theorem C29_accepted_layouts : forall nchoices nperiods core csf levels n_types exog,
  NoDup core -> core <> [] -> closed_under_choices nperiods core csf ->
  let grid := dense_state_space_grid levels n_types in
  collision_free core csf grid -> homogeneous core csf grid ->
  (forall ctx s, length (csf ctx s) = nchoices) ->
  Forall (fun w => (0 < w)%nat) levels -> exog <> [] ->
  ((exists sx, create_state_space_exog nperiods core csf grid exog = Ok sx) <->
   exists static, levels ++ (if Nat.leb 2 n_types then [n_types] else []) = static ++ exog).
Proof. exact accepted_iff. Qed.
Print Assumptions C29_accepted_layouts.

(** Two types and a process with three levels; three types and a process with two levels; a
    static observable with two levels after a process with three levels. *)
Example C29_other_layouts :
  create_state_space_exog 3 (create_core_state_space ex_sp) ex_csf
    (dense_state_space_grid [3%nat] 2) [3%nat] = KeyError /\
  create_state_space_exog 3 (create_core_state_space ex_sp) ex_csf
    (dense_state_space_grid [2%nat] 3) [2%nat] = ValueError /\
  create_state_space_exog 3 (create_core_state_space ex_sp) ex_csf
    (dense_state_space_grid [3%nat; 2%nat] 0) [3%nat] = KeyError.
Proof. exact (conj eq_refl (conj eq_refl eq_refl)). Qed.

Example C29_example :
  create_state_space_exog 3 (create_core_state_space ex_sp) ex_csf exo_grid [3%nat] = Ok exo_ss /\
  nth_error exo_grid 4 = Some [1%nat; 1%nat] /\
  transit_keys exo_grid (ss_dpc exo_ss) [3%nat] 24 = Ok [18%nat; 24%nat; 30%nat].
Proof. repeat split; vm_compute; reflexivity. Qed.

(** ** C66 *)
Theorem C66_solution_is_expected_value : forall sp neg k grid procs sx inp ev0,
  exogenous_model sp neg k grid procs sx inp -> p_delta (in_params inp) <> 0 -> ev_shape sx ev0 ->
  exists ev, solve_exog sx procs inp ev0 = Ok ev /\
    forall s vec, In s (create_core_state_space sp) -> In vec grid ->
      forall v, value_in sx ev vec s v <->
        v = expected_value (choice_set_of sp (process sp (S k) neg)) inp procs
                           (sp_nperiods sp - cs_period s) vec s.
Proof. exact solve_exog_model. Qed.
Print Assumptions C66_solution_is_expected_value.

Example C66_example :
  exogenous_model ex_sp (fun _ => None) 0 exo_grid exo_procs exo_ss exo_inp /\
  ev_shape exo_ss (initial_ev exo_ss) /\ p_delta (in_params exo_inp) <> 0.
Proof.
  split; [exact exo_model|]. split; [apply initial_ev_shape|]. simpl. lra.
Qed.
