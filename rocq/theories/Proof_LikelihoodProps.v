(** Proofs about the number of contributions and about wages of choices without wage. *)
From Coq Require Import List Arith Bool Reals Lra Lia Sorting.Permutation.
From Verif Require Import Base Proof_Base Model_CoreStateSpace Model_StateSpace Model_Parallel Model_Solve Spec_Solve
  Model_ConditionalDraws Spec_ConditionalDraws Proof_Matrix Proof_ConditionalDraws
  Model_Likelihood Spec_Likelihood Proof_Likelihood Proof_LikelihoodRows Proof_LikelihoodPanel Examples_Likelihood.
Import ListNotations.
Open Scope R_scope.

Lemma length_flat_const : forall A (l : list A) n, length (flat_map (fun _ => l) (seq 0 n)) = (n * length l)%nat.
Proof.
  intros A l n. generalize 0%nat. induction n as [|n IH]; intros k; [reflexivity|].
  cbn [seq flat_map]. rewrite app_length, IH. reflexivity.
Qed.

Lemma repeated_contributions : forall rc qr lk locate env n_types params x order_rows order_types data v cs,
  (2 <= n_types)%nat -> length params = n_types -> NoDup (map fst data) -> individuals data <> [] ->
  (forall l, Permutation (order_rows l) l) -> (forall l, Permutation (order_types l) l) ->
  (forall id p, In id (individuals data) -> In p (logits (type_indices params (x id))) -> - 10 ^ 200 <= ln p) ->
  log_like rc qr lk locate env n_types params x order_rows order_types data = Ok (v, cs) ->
  length cs = (n_types * length (individuals data))%nat /\
  exists contribution, v = mean (map contribution (individuals data)) /\
    Permutation cs (flat_map (fun _ => map contribution (individuals data)) (seq 0 n_types)).
Proof.
  intros rc qr lk locate env n_types params x o1 o2 data v cs H1 H2 H3 H4 H5 H6 H7 H8.
  destruct (log_like_types rc qr lk locate env n_types params x o1 o2 data v cs H1 H2 H3 H4 H5 H6 H7 H8)
    as [numbered [_ [V P]]]. split.
  - rewrite (Permutation_length P), length_flat_const, map_length. reflexivity.
  - eexists. split; [exact V|exact P].
Qed.

Lemma four_contributions :
  exists lk locate env params x data,
    NoDup (map fst data) /\ length (individuals data) = 2%nat /\
    exists v cs, log_like cholesky lazy_qr lk locate env 2 params x (fun l => l) (fun l => l) data = Ok (v, cs) /\
      length cs = 4%nat.
Proof.
  exists ex_lk, ex_locate, ex_env, ex_params, ex_x, ex_data.
  split; [exact ex_unique|]. split; [reflexivity|].
  destruct (log_like_succeeds cholesky lazy_qr ex_lk ex_locate ex_env 2 ex_params ex_x (fun l => l) (fun l => l) ex_data)
    as [v [cs E]]; try reflexivity; try (cbn; lia); [cbn; lra|exact ex_evaluable|].
  exists v, cs. split; [exact E|].
  refine (proj1 (repeated_contributions cholesky lazy_qr ex_lk ex_locate ex_env 2 ex_params ex_x
    (fun l => l) (fun l => l) ex_data v cs _ eq_refl ex_unique _ _ _ ex_probabilities E)).
  - lia.
  - discriminate.
  - intros; apply Permutation_refl.
  - intros; apply Permutation_refl.
Qed.

Lemma wage_accepted : forall rc qr wages base c chol n_wages meas has w s sd,
  nth_error wages c = Some s -> nth_error meas c = Some sd -> (n_wages <= c)%nat ->
  representable w -> representable s -> 0 < gram (length wages) (of_rows chol) c c + sd ^ 2 ->
  (c = n_wages -> exists draws ll,
     create_draws_and_log_prob_wages rc qr (log_wage (Some w)) wages base c chol n_wages meas has = Ok (draws, ll) /\
     exp ll = lognormal_density (ln s) (gram (length wages) (of_rows chol) c c + sd ^ 2) w) /\
  (c <> n_wages ->
     create_draws_and_log_prob_wages rc qr (log_wage (Some w)) wages base c chol n_wages meas has = IndexError).
Proof.
  intros rc qr wages base c chol n_wages meas has w s sd Hs Hm Hc Rw Rs Pv.
  rewrite (wage_without_wage_choice rc qr wages base c chol n_wages meas has w s sd Hs Hm Hc). split.
  - intros E. rewrite (proj2 (Nat.eqb_eq c n_wages) E). cbn [log_wage option_map].
    rewrite (representable_clip w Rw), (representable_clip s Rs).
    destruct (density_spec (gram (length wages) (of_rows chol)) c (ln w) (ln s) meas sd Hm Pv) as [mn [ll [E1 D]]].
    rewrite E1. cbn [result_bind fst snd]. eexists. eexists. split; [reflexivity|].
    rewrite D, exp_ln by (apply representable_pos; exact Rw). reflexivity.
  - intros N. rewrite (proj2 (Nat.eqb_neq c n_wages) N). reflexivity.
Qed.
