(** Properties of the probabilities of types. *)
From Coq Require Import List Arith Permutation Reals Lra Lia.
From Verif Require Import Base Model_CoreStateSpace Model_StateSpace Model_Solve Model_Parallel Model_Simulate
  Model_ConditionalDraws Spec_ConditionalDraws Proof_Matrix Proof_ConditionalDraws Model_Likelihood Spec_Solve Spec_Likelihood Spec_TypeProbabilities Proof_LikelihoodPanel
  Proof_TypeProbabilities Examples_Likelihood.
Import ListNotations.
Open Scope R_scope.

(** ** C102 *)
Theorem C102_probabilities_agree : forall (x : nat -> nat -> R) x0 params,
  params <> [] -> (forall t name, x t name = x0 name) ->
  (forall p, In p (logits (type_indices params x)) -> - 10 ^ 200 <= ln p) ->
  exists lps, log_type_probabilities (type_x_betas params x) = Ok lps /\ length lps = length params /\
    rsum (map exp lps) = 1 /\
    forall t lp, nth_error lps t = Some lp ->
      drawn_with_probability (sample_characteristic x0 params) t (exp lp).
Proof. exact probabilities_agree. Qed.
Print Assumptions C102_probabilities_agree.

Example C102_probabilities_agree_applies :
  ex_params <> [] /\ (forall t name, ex_x 1 t name = (fun _ => 1) name) /\
  forall p, In p (logits (type_indices ex_params (ex_x 1))) -> - 10 ^ 200 <= ln p.
Proof.
  split; [discriminate|]. split; [reflexivity|]. intros p. apply ex_probabilities. cbn. right. left. reflexivity.
Qed.

Theorem C102_weights_of_the_criterion :
  forall rc qr lk locate env n_types params x xs order_rows order_types data v cs,
  (2 <= n_types)%nat -> length params = n_types -> NoDup (map fst data) -> individuals data <> [] ->
  (forall l, Permutation (order_rows l) l) -> (forall l, Permutation (order_types l) l) ->
  (forall id t name, x id t name = xs id name) ->
  (forall id p, In id (individuals data) -> In p (logits (type_indices params (x id))) -> - 10 ^ 200 <= ln p) ->
  log_like rc qr lk locate env n_types params x order_rows order_types data = Ok (v, cs) ->
  exists numbered weights,
    covers rc qr lk locate env n_types data numbered /\
    (forall id, length (weights id) = n_types /\
       forall t p, nth_error (weights id) t = Some p ->
         drawn_with_probability (sample_characteristic (xs id) params) t p) /\
    v = mean (map (fun id => clip (- 10 ^ 200) (10 ^ 200)
                     (ln (mixture (weights id) (likelihood_of (map snd numbered) id)))) (individuals data)).
Proof. exact criterion_weights. Qed.
Print Assumptions C102_weights_of_the_criterion.

(** Two individuals with different probabilities of the two types. *)
Example C102_weights_of_the_criterion_applies :
  NoDup (map fst ex_data) /\ individuals ex_data = [0; 1]%nat /\
  (forall id t name, ex_x id t name = (fun i _ => INR i) id name) /\
  (forall id p, In id (individuals ex_data) -> In p (logits (type_indices ex_params (ex_x id))) -> - 10 ^ 200 <= ln p) /\
  exists v cs, log_like cholesky lazy_qr ex_lk ex_locate ex_env 2 ex_params ex_x (fun l => l) (fun l => l) ex_data = Ok (v, cs).
Proof.
  split; [exact ex_unique|]. split; [reflexivity|]. split; [reflexivity|]. split; [exact ex_probabilities|].
  apply log_like_succeeds; try reflexivity; try (cbn; lia); [cbn; lra|exact ex_evaluable].
Qed.
