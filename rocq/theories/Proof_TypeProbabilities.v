(** Probabilities of types in the estimation and in the simulation. *)
From Coq Require Import List Arith Permutation Bool Reals Lra Lia.
From Verif Require Import Base Proof_Base Model_CoreStateSpace Model_StateSpace Model_Solve Spec_Solve Model_Parallel
  Model_Simulate Spec_Simulate Model_ConditionalDraws Model_Likelihood Spec_Likelihood Proof_Likelihood Proof_LikelihoodRows
  Proof_LikelihoodPanel Proof_SimulateProps Spec_TypeProbabilities.
Import ListNotations.
Open Scope R_scope.

Lemma type_x_betas_common : forall params (x : nat -> nat -> R) x0, (forall t name, x t name = x0 name) ->
  type_x_betas params x = map (pandas_dot x0) params.
Proof.
  intros params x x0 H. unfold type_x_betas.
  rewrite (map_ext _ (fun tp : nat * list (nat * R) => pandas_dot x0 (snd tp))).
  2:{ intros [t l]. unfold pandas_dot. cbn [fst snd]. generalize 0 as a.
      induction l as [|[n b] l IH]; intros a; [reflexivity|]. cbn [fold_left fst snd]. rewrite H. apply IH. }
  rewrite <- (map_map snd (pandas_dot x0)). rewrite map_snd_enumerate. reflexivity.
Qed.
Lemma softmax_logits : forall z, softmax z = logits z.
Proof. intros. rewrite logits_map. reflexivity. Qed.

Lemma rsum_firstn_le : forall l n, (forall p, In p l -> 0 <= p) -> 0 <= rsum (firstn n l) <= rsum l.
Proof.
  induction l as [|p l IH]; intros n H; [rewrite firstn_nil; unfold rsum; simpl; lra|].
  assert (0 <= p) by (apply H; left; reflexivity).
  destruct n as [|n]; unfold rsum in *; simpl.
  - specialize (IH 0%nat (fun q Hq => H q (or_intror Hq))). simpl in IH. lra.
  - specialize (IH n (fun q Hq => H q (or_intror Hq))). lra.
Qed.
Lemma rsum_firstn_S : forall l n p, nth_error l n = Some p -> rsum (firstn (S n) l) = rsum (firstn n l) + p.
Proof.
  induction l as [|q l IH]; intros n p H; [destruct n; discriminate|]. destruct n as [|n]; simpl in H.
  - injection H as ->. unfold rsum. simpl. lra.
  - specialize (IH n p H). unfold rsum in *. cbn [firstn fold_right] in *. lra.
Qed.

Lemma interval_of : forall probs t p, (forall q, In q probs -> 0 <= q) -> rsum probs = 1 -> nth_error probs t = Some p ->
  exists lo, 0 <= lo /\ lo + p <= 1 /\ forall u, 0 <= u < 1 -> (drawn_interval probs t u <-> lo <= u < lo + p).
Proof.
  intros probs t p Pos S H. exists (rsum (firstn t probs)).
  pose proof (rsum_firstn_le probs t Pos). pose proof (rsum_firstn_le probs (Datatypes.S t) Pos).
  pose proof (interval_length probs t p S H) as I. pose proof (rsum_firstn_S probs t p H) as F.
  assert (L : (t < length probs)%nat) by (apply nth_error_Some; congruence).
  split; [lra|]. split; [rewrite <- F; lra|]. intros u Hu. unfold drawn_interval. rewrite I. tauto.
Qed.

Lemma logits_drawn : forall x params t p, params <> [] ->
  nth_error (logits (map (pandas_dot x) params)) t = Some p ->
  drawn_with_probability (sample_characteristic x params) t p.
Proof.
  intros x params t p Hp H. assert (Hz : map (pandas_dot x) params <> []) by (destruct params; [contradiction|discriminate]).
  destruct (interval_of (logits (map (pandas_dot x) params)) t p) as [lo [H1 [H2 H3]]].
  - intros q Hq. apply logits_pos in Hq. lra.
  - apply logits_sum. exact Hz.
  - exact H.
  - exists lo. split; [exact H1|]. split; [exact H2|]. intros u Hu.
    rewrite <- (H3 u Hu). rewrite <- softmax_logits. apply (sample_spec x params u Hp Hu).
Qed.

Lemma logits_length : forall z, length (logits z) = length z.
Proof. intros. unfold logits. rewrite map_length, seq_length. reflexivity. Qed.

Lemma probabilities_agree : forall (x : nat -> nat -> R) x0 params, params <> [] -> (forall t name, x t name = x0 name) ->
  (forall p, In p (logits (type_indices params x)) -> - 10 ^ 200 <= ln p) ->
  exists lps, log_type_probabilities (type_x_betas params x) = Ok lps /\ length lps = length params /\
    rsum (map exp lps) = 1 /\
    forall t lp, nth_error lps t = Some lp ->
      drawn_with_probability (sample_characteristic x0 params) t (exp lp).
Proof.
  intros x x0 params Hp C H. assert (Hz : map (pandas_dot x0) params <> []) by (destruct params; [contradiction|discriminate]).
  rewrite <- type_x_betas_linear, (type_x_betas_common params x x0 C) in H.
  rewrite (type_x_betas_common params x x0 C). exists (map ln (logits (map (pandas_dot x0) params))).
  assert (E : map exp (map ln (logits (map (pandas_dot x0) params))) = logits (map (pandas_dot x0) params)).
  { rewrite map_map. rewrite <- (map_id (logits (map (pandas_dot x0) params))) at 2.
    apply map_ext_in. intros q Hq. apply exp_ln. apply logits_pos in Hq. lra. }
  split; [apply log_type_spec; [exact Hz | exact H]|].
  split; [rewrite map_length, logits_length, map_length; reflexivity|].
  split; [rewrite E; apply logits_sum; exact Hz|].
  intros t lp Ht. rewrite nth_error_map in Ht.
  destruct (nth_error (logits (map (pandas_dot x0) params)) t) as [p|] eqn:Ep; [|discriminate].
  injection Ht as <-. rewrite exp_ln.
  - apply logits_drawn; assumption.
  - apply nth_error_In, logits_pos in Ep. lra.
Qed.

Lemma criterion_weights : forall rc qr lk locate env n_types params x xs order_rows order_types data v cs,
  (2 <= n_types)%nat -> length params = n_types -> NoDup (map fst data) -> individuals data <> [] ->
  (forall l, Permutation (order_rows l) l) -> (forall l, Permutation (order_types l) l) ->
  (forall id t name, x id t name = xs id name) ->
  (forall id p, In id (individuals data) -> In p (logits (type_indices params (x id))) -> - 10 ^ 200 <= ln p) ->
  log_like rc qr lk locate env n_types params x order_rows order_types data = Ok (v, cs) ->
  exists numbered weights,
    covers rc qr lk locate env n_types data numbered /\
    (forall id, length (weights id) = n_types /\
       forall t p, nth_error (weights id) t = Some p ->
         drawn_with_probability (sample_characteristic (xs id) params) t p) /\
    v = mean (map (fun id => clip (- 10 ^ 200) (10 ^ 200)
                     (ln (mixture (weights id) (likelihood_of (map snd numbered) id)))) (individuals data)).
Proof.
  intros rc qr lk locate env n_types params x xs orow otyp data v cs H2 Hl Nd Ne Po Pt C H L.
  destruct (log_like_types rc qr lk locate env n_types params x orow otyp data v cs H2 Hl Nd Ne Po Pt H L)
    as [numbered [Cov [Ev _]]].
  assert (Hp : params <> []) by (intros ->; simpl in Hl; lia).
  exists numbered, (fun id => logits (map (pandas_dot (xs id)) params)). split; [exact Cov|].
  split; [intros id; split; [rewrite logits_length, map_length; exact Hl|intros t p Ht; apply logits_drawn; assumption]|].
  rewrite Ev. f_equal. apply map_ext. intros id.
  rewrite <- type_x_betas_linear, (type_x_betas_common params (x id) (xs id) (C id)). reflexivity.
Qed.
