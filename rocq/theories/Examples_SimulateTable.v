(** A table of parameters with a simulation. *)
From Coq Require Import List Arith Bool String Reals ZArith Lra Lia Permutation.
From Verif Require Import Base Proof_Base Model_CoreStateSpace Spec_CoreStateSpace Model_StateSpace Spec_StateSpace Proof_StateSpace Model_Solve Spec_Solve
  Proof_Solve Model_Parallel Spec_Parallel Model_Simulate Spec_Simulate Proof_PanelModel Model_Strings Model_Cache Model_Choices Spec_Choices
  Model_Params Spec_Params Model_Processing Spec_Processing
  Model_ParseParameters Model_SolveTable Spec_SolveTable Proof_SolveTable Examples_ParameterOrder Examples_SolveTable
  Model_SimulateTable Spec_SimulateTable Proof_SimulateTable.
Import ListNotations.

(** The same table with present bias and a measurement error. *)
Definition ts_params : list param := (("beta", "beta", / 2) :: ("meas_error", "sd_a", 2) :: pe_params)%string%R.
Definition ts_simulation : result (core_spec * inputs * sim_spec) :=
  table_simulation tb_robust 2 pe_covariates [] tb_cov tb_base 100 (fun _ _ => OtherError) ts_params.
(** Two individuals, two periods. *)
Definition ts_draws : list (list R) := map (fun i => [INR i; 1%R]) (seq 0 4).
Definition ts_df : frame individual :=
  [((3, 0), mkInd (mkState 0 [0%nat] [Some 0%nat]) []); ((7, 0), mkInd (mkState 0 [0%nat] [Some 1%nat]) [])]%nat.

Lemma ts_words : forall p, In p ts_params -> word (p_category p).
Proof. intros p I. repeat (destruct I as [<-|I]; [reflexivity|]). destruct I. Qed.
Lemma ts_documented : documented_choices ts_params pe_covariates ["a"%string] ["a"; "home"]%string.
Proof. exact (proj1 (st_choices ts_params pe_covariates (st_words ts_params ts_words))). Qed.
Lemma ts_small : small_experience 2 ts_params ["a"%string].
Proof.
  assert (L : forall c k, initial_level ts_params c k <-> initial_level pe_params c k).
  { assert (D : forall c k, declares_level ts_params c k <-> declares_level pe_params c k).
    { intros c k. split; intros (p & d & I & E); exists p, d; (split; [|exact E]).
      - destruct I as [<-|[<-|I]]; [discriminate (proj1 E)|discriminate (proj1 E)|exact I].
      - right. right. exact I. }
    intros c k. unfold initial_level. rewrite D. split; (intros [H|[H H']]; [left; exact H|right; split; [exact H|]; intros j J; apply D in J; exact (H' j J)]). }
  intros c I. destruct (tb_small c I) as [A B]. split; [intros k H; apply A, L, H|]. intros m [M1 M2]. apply B. split.
  - intros v [V1 V2] P. exfalso. clear -V1. repeat (destruct V1 as [V1|V1]; [discriminate V1|]). destruct V1.
  - intros N. destruct M2 as [top [T1 [T2 T3]]].
    + intros v [V|[V|V]]; [discriminate V|discriminate V|exact (N v V)].
    + exists top. split; [apply L, T1|]. split; [|exact T3]. intros k K. apply T2, L, K.
Qed.
Lemma ts_kind : shocks_of_kind ts_params Sdcorr.
Proof.
  destruct pe_kind as [[p [I E]] K]. split; [exists p; split; [right; right; exact I|exact E]|].
  intros q k' J H. destruct J as [<-|[<-|J]].
  1,2: exfalso; rewrite <- !Proof_Names.substring_contains in H; destruct k'; cbn in H; destruct H; discriminate.
  exact (K q k' J H).
Qed.
Lemma ts_delta : value_is ts_params "delta" "delta" 1.
Proof.
  destruct tb_delta as [A B]. split; [right; right; exact A|]. intros w [I|[I|I]]; [discriminate I|discriminate I|exact (B w I)].
Qed.
Lemma ts_bias : bias_is ts_params (/ 2).
Proof.
  left. split; [left; reflexivity|]. intros w [I|I]; [injection I as <-; reflexivity|].
  repeat (destruct I as [I|I]; [discriminate I|]). destruct I.
Qed.

Lemma ts_setup : exists inp si ev,
  ts_simulation = Ok (tb_sp, inp, si) /\ solve_with_backward_induction tb_ss inp (initial_ev tb_ss) = Ok ev /\
  simulation_setup tb_sp (fun _ => None) 0 [] tb_ss inp ev si (fun l => l) 2 [3; 7]%nat ts_draws ts_draws ts_df.
Proof.
  assert (E : exists inp mp, table_model tb_robust 2 pe_covariates [] tb_cov tb_base 100 (fun _ _ => OtherError) ts_params = Ok (tb_sp, inp) /\
     process_parameters 2 pe_covariates ts_params = Ok mp /\ List.length (snd (mp_meas mp)) = 2%nat).
  { unfold table_model. destruct (process_parameters 2 pe_covariates ts_params) as [mp| | | | |] eqn:E; try (vm_compute in E; discriminate).
    cbn [result_bind]. eexists. exists mp. split; [|split; [reflexivity|]].
    - f_equal. f_equal. vm_compute in E. injection E as <-. vm_compute. reflexivity.
    - vm_compute in E. injection E as <-. reflexivity. }
  destruct E as (inp & mp & TM & PP & LM).
  destruct (table_standard _ _ _ _ _ _ _ _ _ _ _ _ _ (fun _ => None) 0%nat [] tb_ss TM ts_words ts_documented ts_small (le_n 1)
    (or_introl eq_refl) tb_collisions tb_created tb_exact) as [SM _].
  assert (NZ : 1%R <> 0%R) by lra.
  destruct (table_solution _ _ _ _ _ _ _ _ _ _ _ _ _ _ _ (fun _ => None) 0%nat [] tb_ss (initial_ev tb_ss) TM ts_words ts_documented ts_small (le_n 1)
    (or_introl eq_refl) ts_kind ts_delta NZ tb_collisions tb_created tb_exact (initial_ev_shape tb_ss)) as (L & ev & _ & EV & _).
  exists inp, (simulation_params inp mp), ev. split; [unfold ts_simulation, table_simulation; rewrite PP, TM; reflexivity|]. split; [exact EV|].
  assert (SH : ev_shape tb_ss ev).
  { destruct SM as [W L' F CF CR IC LC NI].
    destruct (backward_induction 2 2 (create_core_state_space tb_sp) (choice_set_of tb_sp (process tb_sp 1 (fun _ => None))) [] tb_ss inp)
      with (ev0 := initial_ev tb_ss) as [ev' [E [S _]]]; auto.
    - apply Proof_CoreStateSpace.core_nodup.
    - split; [exact IC|]. split; [|exact (proj1 LC)]. intros ctx s. reflexivity.
    - intros s Hs. exact (Proof_SolveProps.core_periods tb_sp s W L' Hs).
    - destruct (st_parts _ _ _ _ _ _ _ _ _ _ _ _ _ TM ts_words ts_documented _ ts_kind) as (_ & _ & DE & _). rewrite (DE 1%R ts_delta). exact NZ.
    - apply initial_ev_shape.
    - rewrite EV in E. injection E as ->. exact S. }
  constructor.
  - exact SM.
  - exact SH.
  - reflexivity.
  - reflexivity.
  - exact LM.
  - intros l. apply Permutation.Permutation_refl.
  - apply le_n.
  - cbn. intuition lia.
  - discriminate.
  - split; [reflexivity|]. intros row H. apply in_map_iff in H. destruct H as [i [<- _]]. reflexivity.
  - split; [reflexivity|]. intros row H. apply in_map_iff in H. destruct H as [i [<- _]]. reflexivity.
  - reflexivity.
  - intros i x [I|[I|[]]]; injection I as <- <-; (split; [vm_compute; tauto|]; split; [reflexivity|exact I]).
  - intros s x Hs _. exists 1%nat. assert (A : forallb (fun s => match nth_error (choice_set_of tb_sp (process tb_sp 1 (fun _ => None)) None s) 1 with
      | Some true => true | _ => false end) (create_core_state_space tb_sp) = true) by (vm_compute; reflexivity).
    rewrite forallb_forall in A. specialize (A s Hs). unfold available, context. destruct (nth_error _ 1) as [[]|]; try discriminate. reflexivity.
Qed.
