(** Independent specification: the likelihood of data whose wages are in other units. *)
From Coq Require Import List Arith Bool Reals Sorting.Permutation.
From Verif Require Import Base Model_CoreStateSpace Model_StateSpace Model_Parallel Model_Solve Spec_Solve
  Model_ConditionalDraws Spec_ConditionalDraws Model_Likelihood Spec_Likelihood.
Import ListNotations.
Open Scope R_scope.

(** A Cholesky routine which returns factors without negative numbers on the diagonal. *)
Definition usual_cholesky (rc : nat -> matrix -> matrix) : Prop :=
  cholesky_routine rc /\
  forall n A i, symmetric n A -> positive_semidefinite n A -> (i < n)%nat -> 0 <= rc n A i i.

(** The data with all wages multiplied by [lam]. *)
Definition scaled_obs (lam : R) (o : obs) : obs := mkObs (ob_code o) (option_map (Rmult lam) (ob_wage o)).
Definition scaled_data (lam : R) (data : frame obs) : frame obs :=
  map (fun r => (fst r, scaled_obs lam (snd r))) data.

(** The parameters in units in which all rewards are multiplied by [lam]: the shocks of
    choices without wage and the smoothing parameter are multiplied by [lam]; the shocks of
    choices with wage are multiplicative and stay the same, like their measurement errors. *)
Definition spec_scaled (lam : R) (lk lk' : like_spec) : Prop :=
  lk_nwages lk' = lk_nwages lk /\ lk_meas lk' = lk_meas lk /\ lk_has_meas lk' = lk_has_meas lk /\
  lk_beta_delta lk' = lk_beta_delta lk /\ lk_tau lk' = lam * lk_tau lk /\
  forall c j, mat (lk_chol lk') c j = (if Nat.ltb c (lk_nwages lk) then 1 else lam) * mat (lk_chol lk) c j.

(** Systematic wages, non-pecuniary rewards and continuation values of all states are
    multiplied by [lam]; [positions cs] are the codes of the available choices. *)
Definition env_scaled (lam : R) (lk : like_spec) (env env' : like_env) : Prop :=
  (forall k, le_choice_set env' k = le_choice_set env k) /\
  (forall k j, le_draws env' k j = le_draws env k j) /\
  (forall k i, length (le_wages env' k i) = length (le_wages env k i) /\
               length (le_nonpec env' k i) = length (le_nonpec env k i) /\
               length (le_cont env' k i) = length (le_cont env k i)) /\
  (forall k i j c, nth_error (positions (le_choice_set env k)) j = Some c ->
     nth j (le_wages env' k i) 0 = (if Nat.ltb c (lk_nwages lk) then lam else 1) * nth j (le_wages env k i) 0) /\
  (forall k i j, nth j (le_nonpec env' k i) 0 = lam * nth j (le_nonpec env k i) 0) /\
  (forall k i j, nth j (le_cont env' k i) 0 = lam * nth j (le_cont env k i) 0).

(** The shocks of the choices [cs] have a regular covariance matrix, and measurement errors
    are specified for all wages or none. *)
Definition regular_shocks (lk : like_spec) (cs : list bool) : Prop :=
  (lk_nwages lk <= length cs)%nat /\ square (length cs) (lk_chol lk) /\ Spec_Solve.lower_triangular (lk_chol lk) /\
  (forall c, available cs c -> mat (lk_chol lk) c c <> 0) /\
  (lk_has_meas lk = true -> forall c, (c < lk_nwages lk)%nat -> nth c (lk_meas lk) 0 <> 0).

(** The observed wage, the systematic wage of the observed choice and the density of the
    wage are not so large or so small that they are clipped, in both units. *)
Definition moderate (lam : R) (lk : like_spec) (env : like_env) (k pos : nat) (ob : obs) : Prop :=
  forall w i s sd, ob_wage ob = Some w -> nth_error (positions (le_choice_set env k)) i = Some (ob_code ob) ->
    nth_error (le_wages env k pos) i = Some s -> nth_error (lk_meas lk) i = Some sd ->
    representable w /\ representable (lam * w) /\ representable s /\ representable (lam * s) /\
    let l := ln (lognormal_density (ln s)
                   (restricted_cov (lk_chol lk) (le_choice_set env k) (ob_code ob) (ob_code ob) + sd ^ 2) w) in
    - 10 ^ 200 <= l <= 10 ^ 200 /\ - 10 ^ 200 <= l - ln lam <= 10 ^ 200.

(** Each observation can be evaluated for each type. *)
Definition all_evaluable (lam : R) (lk lk' : like_spec) (locate : index -> obs -> nat -> result (nat * nat))
  (env : like_env) (n_types : nat) (data : frame obs) : Prop :=
  forall idx ob t k pos, In (idx, ob) data -> (t < n_types)%nat -> locate idx ob t = Ok (k, pos) ->
    evaluable lk env k pos ob /\ regular_shocks lk (le_choice_set env k) /\
    square (length (le_choice_set env k)) (lk_chol lk') /\ moderate lam lk env k pos ob.

(** Number of wages observed for an individual. *)
Definition observed_wages (data : frame obs) (id : nat) : nat :=
  length (filter (fun r => Nat.eqb (fst (fst r)) id &&
                           match ob_wage (snd r) with Some _ => true | None => false end) data).

(** No contribution reaches the bounds of the criterion. *)
Definition inside (cs : list R) : Prop := Forall (fun c => - 10 ^ 200 < c < 10 ^ 200) cs.

(** The individuals of the contributions: with several types, each individual observed in
    the first period once for each type, in the order of the table of types; with a single
    type, all individuals in ascending order. *)
Definition evaluated_ids (order_types : list nat -> list nat) (n_types : nat) (data : frame obs) : list nat :=
  if Nat.leb 2 n_types then
    order_types (flat_map (fun _ => map (fun r => fst (fst r)) (filter (fun r => Nat.eqb (snd (fst r)) 0) data))
                          (seq 0 n_types))
  else isort Nat.leb (drop_duplicates Nat.eq_dec (map (fun r => fst (fst r)) data)).

Definition number_of_wages (data : frame obs) : nat :=
  length (filter (fun r => match ob_wage (snd r) with Some _ => true | None => false end) data).
Definition number_of_individuals (data : frame obs) : nat :=
  length (drop_duplicates Nat.eq_dec (map (fun r => fst (fst r)) data)).

(** Parameters and states in two units, and the log likelihoods [v] and [v'] of the data in
    these units. *)
Definition scaled_problem (rc qr : nat -> matrix -> matrix) (lam : R) (n_types : nat) (order_types : list nat -> list nat)
  (data : frame obs) (lk lk' : like_spec) (locate locate' : index -> obs -> nat -> result (nat * nat))
  (env env' : like_env) (params : list (list (nat * R))) (x : nat -> nat -> nat -> R)
  (order_rows order_rows' : list (lrow * (R * R)) -> list (lrow * (R * R)))
  (v : R) (cs : list R) (v' : R) (cs' : list R) : Prop :=
  spec_scaled lam lk lk' /\ env_scaled lam lk env env' /\
  (forall i o t, locate' i (scaled_obs lam o) t = locate i o t) /\
  length params = n_types /\
  (forall l, Permutation (order_rows l) l) /\ (forall l, Permutation (order_rows' l) l) /\
  all_evaluable lam lk lk' locate env n_types data /\
  log_like rc qr lk locate env n_types params x order_rows order_types data = Ok (v, cs) /\
  log_like rc qr lk' locate' env' n_types params x order_rows' order_types (scaled_data lam data) = Ok (v', cs') /\
  inside cs /\ inside cs'.
