(** Concrete data sets for the examples of Props_Usable. *)
From Coq Require Import List Arith ZArith Bool String Reals Lia.
From Verif Require Import Base Proof_Base Model_CoreStateSpace Spec_CoreStateSpace Model_StateSpace Spec_StateSpace Props_StateSpace
  Model_Choices Model_Processing Model_Parallel Spec_Parallel Model_Solve Spec_Solve Proof_Solve Examples_Solve
  Model_Simulate Spec_Simulate Examples_Simulate Model_Dataset Spec_Dataset Examples_Dataset.
From Verif Require Import Model_Data Spec_Data Examples_Data Spec_Usable.
Import ListNotations.
Open Scope list_scope.
Open Scope nat_scope.

Definition us_csf : cs_fun := choice_set_of ex_sp (process ex_sp 1 (fun _ => None)).
Definition us_row (i t : Z) (c : string) (e : Z) (l : string) : row :=
  mkRow i t (Some c) None [] [Some e] [Some (Label l)] None.
(** One individual works and stays at home, another one starts with experience. *)
Definition us_good : list row :=
  [us_row 0 0 "work" 0 "poor"; us_row 0 1 "home" 1 "poor"; us_row 1 0 "home" 1 "rich"]%string.
(** Experience starts with a level which is not declared. *)
Definition us_start : list row := [us_row 0 0 "home" 2 "poor"]%string.
(** The second year of work exceeds the maximum. *)
Definition us_maximum : list row := [us_row 0 0 "work" 1 "poor"; us_row 0 1 "home" 2 "poor"]%string.
(** The observable has a level which is not declared. *)
Definition us_level : list row := [us_row 0 0 "home" 0 "middle"]%string.
(** The only observation is a choice which is not available. *)
Definition us_choice : list row := [us_row 0 0 "work" 1 "poor"]%string.

Lemma us_no_numbers : forall data, Forall (fun r => exists i t c e l, r = us_row i t c e l) data ->
  forall r, In r data -> numbers_are_levels ex_labels r.
Proof.
  intros data F r Hr. rewrite Forall_forall in F. destruct (F r Hr) as [i [t [c [e [l ->]]]]].
  intros [|[|k]] levels n _ H; simpl in H; discriminate.
Qed.

Ltac us_numbers := apply us_no_numbers; repeat constructor; do 5 eexists; reflexivity.

Lemma us_good_usable : wf_spec ex_sp /\ sp_nlags ex_sp <= 1 /\ sp_filters ex_sp = [] /\
  labelled ex_sp ex_grid (p_nwages (in_params ex_inp)) ex_labels /\
  collision_free (create_core_state_space ex_sp) us_csf ex_grid /\
  create_state_space (sp_nperiods ex_sp) (create_core_state_space ex_sp) us_csf ex_grid = Ok ex_ss /\
  individuals_in_order us_good /\ in_order us_good /\
  simulated_categories ex_labels 1 = simulated_categories ex_labels 0 /\
  incl (lb_choices ex_labels) (simulated_categories ex_labels 0) /\
  (forall r, In r us_good -> numbers_are_levels ex_labels r) /\
  exists out, prepare_estimation ex_labels ex_sp us_csf ex_grid (simulated_categories ex_labels) us_good = Ok out.
Proof.
  split; [exact ex_sp_wf|]. split; [simpl; lia|]. split; [reflexivity|]. split; [exact ex_labelled|].
  split; [exact (sm_collisions _ _ _ _ _ _ ex_standard)|]. split; [exact ex_ss_created|].
  split; [apply individuals_by; reflexivity|]. split; [apply in_order_by; reflexivity|]. split; [reflexivity|].
  split; [apply incl_refl|]. split; [us_numbers|]. eexists. vm_compute. reflexivity.
Qed.

Lemma us_checks_only : exists sp csf grid ss nw lb categories,
  wf_spec sp /\ sp_nlags sp <= 1 /\ sp_filters sp = [] /\ labelled sp grid nw lb /\
  collision_free (create_core_state_space sp) csf grid /\
  create_state_space (sp_nperiods sp) (create_core_state_space sp) csf grid = Ok ss /\
  (forall i, categories i = lb_choices lb) /\
  (exists data, individuals_in_order data /\ in_order data /\ (forall r, In r data -> numbers_are_levels lb r) /\
     check_estimation_data (info_of lb) categories data = Ok tt /\ (forall r, In r data -> known_levels lb r) /\
     prepare_estimation lb sp csf grid categories data = KeyError /\ exists r, In r data /\ r_period r = 0%Z /\ ~ declared_start sp r) /\
  (exists data, individuals_in_order data /\ in_order data /\ (forall r, In r data -> numbers_are_levels lb r) /\
     check_estimation_data (info_of lb) categories data = Ok tt /\ (forall r, In r data -> r_period r = 0%Z -> declared_start sp r) /\
     prepare_estimation lb sp csf grid categories data = KeyError /\ exists r, In r data /\ ~ below_maximum sp r) /\
  (exists data, individuals_in_order data /\ in_order data /\ (forall r, In r data -> numbers_are_levels lb r) /\
     check_estimation_data (info_of lb) categories data = Ok tt /\ (forall r, In r data -> r_period r = 0%Z -> declared_start sp r) /\
     (forall r, In r data -> below_maximum sp r) /\
     (forall x, prepare_estimation lb sp csf grid categories data <> Ok x) /\ exists r, In r data /\ ~ known_levels lb r).
Proof.
  exists ex_sp, us_csf, ex_grid, ex_ss, (p_nwages (in_params ex_inp)), ex_labels, (simulated_categories ex_labels).
  split; [exact ex_sp_wf|]. split; [simpl; lia|]. split; [reflexivity|]. split; [exact ex_labelled|].
  split; [exact (sm_collisions _ _ _ _ _ _ ex_standard)|]. split; [exact ex_ss_created|]. split; [reflexivity|].
  split; [|split].
  - exists us_start. split; [apply individuals_by; reflexivity|]. split; [apply in_order_by; reflexivity|].
    split; [us_numbers|]. split; [vm_compute; reflexivity|]. split.
    + intros r [<-|[]] [|[|i]] levels H; try discriminate; try (destruct i; discriminate). injection H as <-. exists (Label "poor"). simpl. auto.
    + split; [vm_compute; reflexivity|]. eexists. split; [left; reflexivity|]. split; [reflexivity|].
      intros D. destruct (D 0 [0; 1] eq_refl) as [e [E1 E2]]. simpl in E2. injection E2 as E2. destruct E1 as [<-|[<-|[]]]; discriminate.
  - exists us_maximum. split; [apply individuals_by; reflexivity|]. split; [apply in_order_by; reflexivity|].
    split; [us_numbers|]. split; [vm_compute; reflexivity|]. split.
    + intros r [<-|[<-|[]]] Hp; [|discriminate]. intros [|[|j]] levels H; try discriminate; try (destruct j; discriminate).
      injection H as <-. exists 1. simpl. auto.
    + split; [vm_compute; reflexivity|]. eexists. split; [right; left; reflexivity|].
      intros D. destruct (D 0 1 eq_refl) as [e [E1 E2]]. simpl in E1. injection E1 as <-. lia.
  - exists us_level. split; [apply individuals_by; reflexivity|]. split; [apply in_order_by; reflexivity|].
    split; [us_numbers|]. split; [vm_compute; reflexivity|]. split; [|split; [|split]].
    + intros r [<-|[]] Hp [|[|j]] levels H; try discriminate; try (destruct j; discriminate).
      injection H as <-. exists 0. simpl. auto.
    + intros r [<-|[]] [|[|j]] m H; try discriminate; try (destruct j; discriminate). injection H as <-. exists 0%Z. simpl. split; [reflexivity|lia].
    + intros x H. vm_compute in H. discriminate.
    + eexists. split; [left; reflexivity|]. intros D.
      destruct (D 0 _ eq_refl) as [l [E1 E2]]. simpl in E2. injection E2 as <-. destruct E1 as [E|[E|[]]]; discriminate.
Qed.

Lemma us_unavailable : exists sp csf grid ss nw lb categories data out r c,
  wf_spec sp /\ sp_nlags sp <= 1 /\ sp_filters sp = [] /\ labelled sp grid nw lb /\
  collision_free (create_core_state_space sp) csf grid /\
  create_state_space (sp_nperiods sp) (create_core_state_space sp) csf grid = Ok ss /\
  (forall i, categories i = lb_choices lb) /\
  prepare_estimation lb sp csf grid categories data = Ok out /\ In r data /\ In c (fst out) /\ same_meaning lb r c /\
  nth_error (csf (Some (cd_obs (snd c))) (cd_core (snd c))) (cd_choice (snd c)) = Some false.
Proof.
  exists ex_sp, us_csf, ex_grid, ex_ss, (p_nwages (in_params ex_inp)), ex_labels, (simulated_categories ex_labels), us_choice.
  do 3 eexists.
  split; [exact ex_sp_wf|]. split; [simpl; lia|]. split; [reflexivity|]. split; [exact ex_labelled|].
  split; [exact (sm_collisions _ _ _ _ _ _ ex_standard)|]. split; [exact ex_ss_created|]. split; [reflexivity|].
  split; [vm_compute; reflexivity|]. split; [left; reflexivity|]. split; [left; reflexivity|]. split.
  - constructor; simpl.
    + reflexivity.
    + auto.
    + eexists. split; reflexivity.
    + split; [reflexivity|]. intros i Hi. lia.
    + split; [reflexivity|]. intros [|i] Hi; [|lia]. exists 1. auto.
    + split; [reflexivity|]. intros [|[|i]] levels H; try discriminate; try (destruct i; discriminate). injection H as <-.
      eexists; eexists. split; [reflexivity|]. split; reflexivity.
    + reflexivity.
  - vm_compute. reflexivity.
Qed.
