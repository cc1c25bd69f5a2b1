(** A table of parameters with its model. *)
From Coq Require Import List Arith Bool String Reals ZArith Lra Lia.
From Verif Require Import Base Proof_Base Model_CoreStateSpace Spec_CoreStateSpace Model_StateSpace Spec_StateSpace Proof_StateSpace Model_Solve Spec_Solve
  Proof_Solve Model_Strings Model_Cache Model_Choices Spec_Choices Proof_Choices Model_Params Spec_Params Model_Processing Spec_Processing Proof_Processing
  Model_ParseParameters Model_SolveTable Spec_SolveTable Proof_SolveTable Examples_ParameterOrder Props_StateSpace.
Import ListNotations.

(** Two periods; the covariate is experience, or one, and the base draws are zero. *)
Definition tb_cov (ctx : option (list nat)) (s : core_state) (name : string) : R :=
  if String.eqb name "exp_a" then INR (nth 0 (cs_exp s) 0%nat) else 1%R.
Definition tb_robust (n : nat) (M : nat -> nat -> R) : nat -> nat -> R := M.
Definition tb_base (c p : nat) : list (list R) := [[0%R; 0%R]].
Definition tb_sp : core_spec := mkSpec 2 [[0%nat]] [1%nat] 2 1 [].
Definition tb_model : result (core_spec * inputs) :=
  table_model tb_robust 2 pe_covariates [] tb_cov tb_base 100 (fun _ _ => OtherError) pe_params.
Definition tb_ss : state_space := Eval vm_compute in
  get_ok (create_state_space 2 (create_core_state_space tb_sp) (choice_set_of tb_sp (process tb_sp 1 (fun _ => None))) []).

Lemma tb_accepted : exists inp, tb_model = Ok (tb_sp, inp).
Proof.
  unfold tb_model, table_model. destruct (process_parameters 2 pe_covariates pe_params) as [mp| | | | |] eqn:E; try (vm_compute in E; discriminate).
  cbn [result_bind]. eexists. f_equal. f_equal.
  vm_compute in E. injection E as <-. vm_compute. reflexivity.
Qed.
Lemma tb_words : forall p, In p pe_params -> word (p_category p).
Proof. intros p I. repeat (destruct I as [<-|I]; [reflexivity|]). destruct I. Qed.
Lemma tb_documented : documented_choices pe_params pe_covariates ["a"%string] ["a"; "home"]%string.
Proof. exact (proj1 (st_choices pe_params pe_covariates (st_words pe_params tb_words))). Qed.
Lemma tb_small : small_experience 2 pe_params ["a"%string].
Proof.
  intros c [<-|[]].
  assert (E : exists st m, parse_experience 2 pe_params "a" = Ok (st, m) /\ numbers st = [0%nat]).
  { eexists. eexists. split; vm_compute; reflexivity. }
  destruct E as [st [m [E NU]]]. assert (G : well_named "a") by (split; [discriminate|reflexivity]).
  destruct (levels_ok 2 pe_params "a" tb_words G st m E) as [_ [_ [L _]]]. rewrite NU in L.
  assert (Z0 : forall k, initial_level pe_params "a" k -> k = 0%nat).
  { intros k H. apply L in H. destruct H as [<-|[]]. reflexivity. }
  split.
  - intros k H. rewrite (Z0 k H). lia.
  - intros z [_ M]. destruct M as [top [T [_ ->]]].
    + intros v I. repeat (destruct I as [I|I]; [discriminate I|]). destruct I.
    + rewrite (Z0 top T). cbn. lia.
Qed.
Lemma tb_delta : value_is pe_params "delta" "delta" 1.
Proof.
  split; [left; reflexivity|]. intros w I. destruct I as [I|I]; [injection I as <-; reflexivity|].
  repeat (destruct I as [I|I]; [discriminate I|]). destruct I.
Qed.
Lemma tb_created : create_state_space 2 (create_core_state_space tb_sp) (choice_set_of tb_sp (process tb_sp 1 (fun _ => None))) [] = Ok tb_ss.
Proof. vm_compute. reflexivity. Qed.
Lemma tb_collisions : collision_free (create_core_state_space tb_sp) (choice_set_of tb_sp (process tb_sp 1 (fun _ => None))) [].
Proof. intros vec s1 s2 []. Qed.
Lemma tb_exact : forall p, solved_exactly tb_ss 100 p.
Proof.
  intros p. left. apply Nat.leb_le. destruct p as [|[|p]]; vm_compute; reflexivity.
Qed.
Lemma tb_reward : forall ctx e,
  table_reward pe_params "a" (tb_cov ctx (mkState 1 [1%nat] [Some 0%nat])) e = exp (1 + 0) * exp (clip (- max_log_float) max_log_float e) + 0.
Proof.
  intros ctx e. unfold table_reward, table_wage, table_shock, earns, row_sum, rows_of, tb_cov. cbn. f_equal; f_equal; f_equal; lra.
Qed.
Lemma tb_state : In (mkState 1 [1%nat] [Some 0%nat]) (create_core_state_space tb_sp).
Proof. vm_compute. tauto. Qed.
