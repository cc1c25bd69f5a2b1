(** Filters of the state space: C90. *)
From Coq Require Import List Arith Bool Lia Reals.
From Verif Require Import Base Proof_Base Model_CoreStateSpace Spec_CoreStateSpace
  Proof_CoreStateSpace Model_StateSpace Spec_StateSpace Proof_StateSpace Props_StateSpace
  Model_Solve Spec_Solve Spec_Filters Proof_Filters Examples_Filters.
Import ListNotations.
Open Scope nat_scope.

(** ** C90 *)
Theorem C90_usual_filters_respect_choices : forall sp neg k,
  wf_spec sp -> sp_nlags sp = 1 ->
  (forall f, In f (sp_filters sp) -> usual_filter sp f) ->
  closed_under_choices (sp_nperiods sp) (create_core_state_space sp)
    (choice_set_of sp (process sp (S k) neg)).
Proof. exact usual_closed. Qed.
Print Assumptions C90_usual_filters_respect_choices.

(** They remove no state of a later period that can be reached at all. *)
Theorem C90_usual_filters_keep_reachable_states : forall sp neg ctx s k,
  wf_spec sp -> sp_nlags sp = 1 ->
  (forall f, In f (sp_filters sp) -> usual_filter sp f) ->
  reachable sp (process sp (S k) neg) ctx s -> 0 < cs_period s ->
  In s (create_core_state_space sp).
Proof. exact usual_reachable. Qed.
Print Assumptions C90_usual_filters_keep_reachable_states.

(** Arbitrary filters. *)
Theorem C90_filters_that_follow_choices : forall sp neg k,
  wf_spec sp -> sp_nlags sp <= 1 -> filters_follow_choices sp (process sp (S k) neg) ->
  closed_under_choices (sp_nperiods sp) (create_core_state_space sp)
    (choice_set_of sp (process sp (S k) neg)).
Proof. exact filters_follow_closed. Qed.
Print Assumptions C90_filters_that_follow_choices.

Theorem C90_filters_have_to_follow_choices : forall sp neg k,
  wf_spec sp -> sp_nlags sp <= 1 ->
  (forall l, In l (sp_starts sp) -> exists x, l = [x]) ->
  closed_under_choices (sp_nperiods sp) (create_core_state_space sp)
    (choice_set_of sp (process sp (S k) neg)) ->
  filters_follow_choices sp (process sp (S k) neg).
Proof. exact closed_filters_follow. Qed.
Print Assumptions C90_filters_have_to_follow_choices.

Theorem C90_construction_succeeds_iff_filters_respect_choices : forall sp neg k grid,
  let csf := choice_set_of sp (process sp (S k) neg) in
  (forall ctx s, csf ctx s = csf None s) ->
  ((exists ss, create_state_space (sp_nperiods sp) (create_core_state_space sp) csf grid
               = Ok ss) <->
   closed_under_choices (sp_nperiods sp) (create_core_state_space sp) csf).
Proof. exact construction_iff. Qed.
Print Assumptions C90_construction_succeeds_iff_filters_respect_choices.

(** The filters of robinson_crusoe_extended.yaml without its restriction of the choice
    friday remove states that can be reached, and the model cannot be solved. *)
Theorem C90_filters_remove_reachable_states_refuted : exists sp neg s,
  wf_spec sp /\ sp_nlags sp = 1 /\
  reachable sp (process sp 1 neg) None s /\ 0 < cs_period s /\
  ~ In s (create_core_state_space sp) /\
  create_state_space (sp_nperiods sp) (create_core_state_space sp)
    (choice_set_of sp (process sp 1 neg)) [] = KeyError.
Proof.
  exists rc_sp, (fun _ => None), (mkState 1 [0; 1] [Some 1]).
  split; [exact rc_sp_wf|]. split; [reflexivity|]. split.
  - apply (reach_step rc_sp _ None (mkState 0 [0; 0] [Some 2]) 1).
    + apply reach_init; simpl; [lia| | |].
      * constructor; [simpl; tauto|]. constructor; [simpl; tauto|constructor].
      * constructor; [lia|]. constructor; [lia|constructor].
      * split; [reflexivity|]. intros x [<-|[]]. exists 2. split; [reflexivity|lia].
    + simpl. lia.
    + vm_compute. reflexivity.
  - split; [simpl; lia|]. split.
    + apply (not_in_by_compute _ core_state_eq_dec). vm_compute. reflexivity.
    + vm_compute. reflexivity.
Qed.
Print Assumptions C90_filters_remove_reachable_states_refuted.

(** The usual filters remove about half of the states, but not one that can be reached
    in a later period. *)
Example C90_example :
  wf_spec kw_sp /\ (forall f, In f (sp_filters kw_sp) -> usual_filter kw_sp f) /\
  In (mkState 1 [0; 0; 11] [Some 2]) (create_core_state_space kw_sp) /\
  ~ In (mkState 1 [0; 0; 11] [Some 3]) (create_core_state_space kw_sp) /\
  length (create_core_state_space kw_sp) = 61 /\
  length (create_core_state_space (mkSpec 4 [[0]; [0]; [10]] [3; 3; 12] 4 1 [])) = 136.
Proof.
  split; [exact kw_sp_wf|]. split; [exact kw_usual|].
  split; [apply (in_by_compute _ core_state_eq_dec); vm_compute; reflexivity|].
  split; [apply (not_in_by_compute _ core_state_eq_dec); vm_compute; reflexivity|].
  split; vm_compute; reflexivity.
Qed.

(** The filters of robinson_crusoe_extended.yaml respect its choices. *)
Example C90_example_robinson :
  wf_spec rc_sp /\
  closed_under_choices 10 (create_core_state_space rc_sp)
    (choice_set_of rc_sp (process rc_sp 1 rc_neg)) /\
  filters_follow_choices rc_sp (process rc_sp 1 rc_neg).
Proof.
  split; [exact rc_sp_wf|]. split; [exact rc_closed|].
  apply closed_filters_follow; [exact rc_sp_wf|simpl; lia| |exact rc_closed].
  intros l [<-|[<-|[]]]; eexists; reflexivity.
Qed.

(** A model with the usual filters that can be solved and simulated. *)
Definition kw_ss : state_space := Eval vm_compute in
  get_ok (create_state_space 4 (create_core_state_space kw_sp)
            (choice_set_of kw_sp (process kw_sp 1 (fun _ => None))) []).
Definition kw_inp : inputs :=
  mkInputs (mkParams (fun c => if c <? 2 then Some [(c, 1%R)] else None)
                     (fun c => if c <? 2 then None else Some [(c, 1%R)]) (19 / 20)%R
                     [[1; 0; 0; 0]; [0; 1; 0; 0]; [0; 0; 1; 0]; [0; 0; 0; 1]]%R 2)
    (seq 0 4) (fun _ s i => INR (nth i (cs_exp s) 1)) (fun n _ => [repeat 0%R n; repeat 1%R n])
    100 (fun _ _ => OtherError).
Example C90_example_standard_model :
  standard_model kw_sp (fun _ => None) 0 [] kw_ss kw_inp.
Proof.
  constructor.
  - exact kw_sp_wf.
  - simpl. lia.
  - apply usual_closed; [exact kw_sp_wf|reflexivity|exact kw_usual].
  - intros vec s1 s2 [].
  - vm_compute. reflexivity.
  - reflexivity.
  - split; [reflexivity|]. intros row [<-|[<-|[<-|[<-|[]]]]]; reflexivity.
  - intros p. left. apply Nat.leb_le. destruct p as [|[|[|[|p]]]]; vm_compute; reflexivity.
Qed.
