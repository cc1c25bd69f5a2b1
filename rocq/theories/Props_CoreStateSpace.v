(** Property theorems: core state space, availability of choices, law of motion. *)
From Coq Require Import List Arith Bool Lia Sorted.
From Verif Require Import Base Proof_Base Model_CoreStateSpace Spec_CoreStateSpace Proof_CoreStateSpace.
Import ListNotations.

(** A model with three choices (two with experience), two initial levels for the first
    choice, a binding maximum for the second one, four periods, one lagged choice. *)
Definition ex_spec : core_spec := mkSpec 4 [[0; 2]; [0]] [5; 2] 3 1 [].

Example ex_spec_wf : wf_spec ex_spec.
Proof. unfold ex_spec. solve_wf. Qed.

(** ** C01 *)
Theorem C01_core_states_exact : forall sp s,
  wf_spec sp -> sp_nlags sp <= 1 ->
  (In s (create_core_state_space sp) <-> feasible sp s).
Proof. exact core_exact. Qed.
Print Assumptions C01_core_states_exact.

Theorem C01_core_states_distinct : forall sp, NoDup (create_core_state_space sp).
Proof. exact core_nodup. Qed.
Print Assumptions C01_core_states_distinct.

Theorem C01_core_states_sorted : forall sp,
  StronglySorted (fun a b => cs_period a <= cs_period b) (create_core_state_space sp).
Proof. exact core_sorted. Qed.
Print Assumptions C01_core_states_sorted.

Example C01_example :
  In (mkState 3 [4; 1] [Some 2]) (create_core_state_space ex_spec) /\
  ~ In (mkState 3 [1; 3] [Some 2]) (create_core_state_space ex_spec) /\
  length (create_core_state_space ex_spec) = 102.
Proof.
  split; [apply (in_by_compute _ core_state_eq_dec); vm_compute; reflexivity|].
  split; [apply (not_in_by_compute _ core_state_eq_dec); vm_compute; reflexivity|].
  vm_compute. reflexivity.
Qed.

(** ** C02 *)
Theorem C02_children_in_core : forall sp neg ctx s c k,
  wf_spec sp -> sp_nlags sp <= 1 -> sp_filters sp = [] ->
  In s (create_core_state_space sp) -> S (cs_period s) < sp_nperiods sp ->
  nth_error (choice_set_of sp (process sp (S k) neg) ctx s) c = Some true ->
  In (law_of_motion c s) (create_core_state_space sp).
Proof. exact child_in_core. Qed.
Print Assumptions C02_children_in_core.

Theorem C02_reachable_in_core : forall sp neg ctx s k,
  wf_spec sp -> sp_nlags sp <= 1 -> sp_filters sp = [] ->
  reachable sp (process sp (S k) neg) ctx s -> In s (create_core_state_space sp).
Proof. exact reachable_in_core. Qed.
Print Assumptions C02_reachable_in_core.

(** In period 2 a state with exhausted second experience: the first and third choice are
    available, the second is not. *)
Example C02_example :
  let s := mkState 2 [0; 2] [Some 1] in
  In s (create_core_state_space ex_spec) /\ S (cs_period s) < sp_nperiods ex_spec /\
  choice_set_of ex_spec (process ex_spec 1 (fun _ => None)) None s = [true; false; true].
Proof.
  split; [apply (in_by_compute _ core_state_eq_dec); vm_compute; reflexivity|].
  split; [simpl; lia|]. vm_compute. reflexivity.
Qed.

Example C02_example_reachable :
  reachable ex_spec (process ex_spec 1 (fun _ => None)) None
            (law_of_motion 1 (mkState 0 [2; 0] [Some 0])).
Proof.
  apply reach_step; [apply reach_init| |reflexivity]; simpl.
  - lia.
  - constructor; [simpl; tauto|]. constructor; [simpl; tauto|constructor].
  - repeat (constructor; [lia|]). constructor.
  - split; [reflexivity|]. intros x [<-|[]]. exists 0. split; [reflexivity|]. lia.
  - lia.
Qed.

(** ** C03 *)
Theorem C03_lags_complete_if_at_most_one : forall sp s,
  wf_spec sp -> sp_nlags sp <= 1 -> In s (create_core_state_space sp) ->
  complete_lags (sp_nlags sp) (sp_nchoices sp) (cs_lag s).
Proof.
  exact (fun sp s W L H => proj1 (proj2 (proj1 (core_exact sp s W L) H))).
Qed.
Print Assumptions C03_lags_complete_if_at_most_one.

Theorem C03_exactly_one_lag_filled : forall sp s,
  wf_spec sp -> 1 <= sp_nlags sp -> In s (create_core_state_space sp) ->
  length (cs_lag s) = sp_nlags sp /\
  length (filter (fun x => match x with Some _ => true | None => false end) (cs_lag s)) = 1.
Proof. exact multi_lag_incomplete. Qed.
Print Assumptions C03_exactly_one_lag_filled.

Theorem C03_several_lags_refuted : forall sp s,
  wf_spec sp -> 2 <= sp_nlags sp ->
  complete_lags (sp_nlags sp) (sp_nchoices sp) (cs_lag s) ->
  ~ In s (create_core_state_space sp).
Proof. exact multi_lag_none_complete. Qed.
Print Assumptions C03_several_lags_refuted.

(** A model with two lags: the state space is not empty, the initial state with lagged
    choices (0, 1) is feasible, but it is not contained. *)
Definition ex_two_lags : core_spec := mkSpec 2 [[0]] [1] 2 2 [].
Example C03_example :
  wf_spec ex_two_lags /\ length (create_core_state_space ex_two_lags) = 12 /\
  feasible ex_two_lags (mkState 0 [0] [Some 0; Some 1]) /\
  ~ In (mkState 0 [0] [Some 0; Some 1]) (create_core_state_space ex_two_lags).
Proof.
  split.
  { unfold ex_two_lags. solve_wf. }
  split; [vm_compute; reflexivity|]. split.
  - unfold feasible; simpl. split; [lia|]. split.
    + split; [reflexivity|]. intros x [<-|[<-|[]]]; eexists; (split; [reflexivity|lia]).
    + exists [0], [0]. repeat split; try (repeat constructor); simpl; auto; try lia.
  - apply (not_in_by_compute _ core_state_eq_dec). vm_compute. reflexivity.
Qed.

(** ** C07 *)
Theorem C07_availability : forall sp neg ctx s c k,
  wf_spec sp ->
  (nth_error (choice_set_of sp (process sp (S k) neg) ctx s) c = Some true <->
   c < sp_nchoices sp /\ ~ excluded_by_user neg ctx s c /\ ~ exhausted sp s c).
Proof. exact availability. Qed.
Print Assumptions C07_availability.

Theorem C07_processing_again_changes_nothing : forall sp neg ctx s k1 k2,
  wf_spec sp ->
  choice_set_of sp (process sp (S k1) neg) ctx s =
  choice_set_of sp (process sp (S k2) neg) ctx s.
Proof. exact process_choice_set_stable. Qed.
Print Assumptions C07_processing_again_changes_nothing.

(** A user formula on the third choice which refers to a dense variable: undefined in
    the core, binding in the dense state [1]. *)
Definition ex_neg : neg_set := fun c =>
  if Nat.eqb c 2 then
    Some [fun ctx => match ctx with
                     | None => None
                     | Some d => Some (fun _ => match d with [1] => true | _ => false end)
                     end]
  else None.
Example C07_example :
  let s := mkState 2 [0; 2] [Some 1] in
  choice_set_of ex_spec (process ex_spec 3 ex_neg) None s = [true; false; true] /\
  choice_set_of ex_spec (process ex_spec 3 ex_neg) (Some [1]) s = [true; false; false] /\
  choice_set_of ex_spec (process ex_spec 3 ex_neg) (Some [0]) s = [true; false; true].
Proof. vm_compute. auto. Qed.

(** ** C09 *)
Theorem C09_period_counts_choices : forall cs s,
  cs_period (follow cs s) = cs_period s + length cs.
Proof. exact follow_period. Qed.
Print Assumptions C09_period_counts_choices.

Theorem C09_experience_counts_choices : forall cs s i,
  nth_error (cs_exp (follow cs s)) i =
  option_map (fun e => e + count_occ Nat.eq_dec cs i) (nth_error (cs_exp s) i).
Proof. exact follow_exp. Qed.
Print Assumptions C09_experience_counts_choices.

Theorem C09_lags_are_last_choices : forall cs s,
  cs_lag (follow cs s) = firstn (length (cs_lag s)) (map Some (rev cs) ++ cs_lag s).
Proof. exact follow_lags. Qed.
Print Assumptions C09_lags_are_last_choices.

Example C09_example :
  follow [1; 0; 2; 1; 1] (mkState 3 [7; 0] [Some 0; Some 2]) =
  mkState 8 [8; 3] [Some 1; Some 1].
Proof. reflexivity. Qed.

(** ** C62 *)
Theorem C62_default_maximum_never_binds : forall sp ctx s c k,
  wf_spec sp -> c < length (sp_starts sp) ->
  (exists levels, nth_error (sp_starts sp) c = Some levels /\
     nth_error (sp_max sp) c = Some (list_max_nat levels + sp_nperiods sp - 1)) ->
  0 < sp_nperiods sp ->
  nth_error (choice_set_of sp (process sp (S k) (fun _ => None)) ctx s) c = Some true.
Proof. exact default_max_never_excludes. Qed.
Print Assumptions C62_default_maximum_never_binds.

Theorem C62_experience_bounded_by_default_maximum : forall cs s i e0 e levels n,
  nth_error (cs_exp s) i = Some e0 -> In e0 levels ->
  nth_error (cs_exp (follow cs s)) i = Some e ->
  length cs <= n - 1 -> e <= list_max_nat levels + (n - 1).
Proof. exact experience_bounded. Qed.
Print Assumptions C62_experience_bounded_by_default_maximum.

Example C62_example :
  exists levels, nth_error (sp_starts ex_spec) 0 = Some levels /\
    nth_error (sp_max ex_spec) 0 = Some (list_max_nat levels + sp_nperiods ex_spec - 1).
Proof. exists [0; 2]. split; reflexivity. Qed.

(** ** C63 *)
Theorem C63_filters_see_final_states_without_initial_experience : forall sp s,
  wf_spec sp -> sp_nlags sp <= 1 -> (forall l, In l (sp_starts sp) -> l = [0]) ->
  (In s (create_core_state_space sp) <->
   feasible (mkSpec (sp_nperiods sp) (sp_starts sp) (sp_max sp) (sp_nchoices sp)
                    (sp_nlags sp) []) s /\
   forall f, In f (sp_filters sp) -> f s = false).
Proof. exact filters_without_initial_experience. Qed.
Print Assumptions C63_filters_see_final_states_without_initial_experience.

(** "Drop states with more than 10 years of experience" keeps a state with 11 years if
    individuals start with 10 years. *)
Theorem C63_filters_see_final_states_refuted : exists sp s f,
  wf_spec sp /\ In f (sp_filters sp) /\ In s (create_core_state_space sp) /\ f s = true.
Proof. exact filters_refuted. Qed.
Print Assumptions C63_filters_see_final_states_refuted.
