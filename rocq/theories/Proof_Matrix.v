(** Finite sums, positive semidefinite matrices and their factors. *)
From Coq Require Import List Arith Bool Reals Lra Lia.
From Verif Require Import Base Model_ConditionalDraws Spec_ConditionalDraws.
Import ListNotations.
Open Scope R_scope.

Lemma sumn_ext : forall n f g, (forall i, (i < n)%nat -> f i = g i) -> sumn n f = sumn n g.
Proof.
  induction n as [|n IH]; intros f g H; simpl; [reflexivity|].
  rewrite (IH f g), H by (intros; try apply H; lia). reflexivity.
Qed.

Lemma sumn_plus : forall n f g, sumn n (fun i => f i + g i) = sumn n f + sumn n g.
Proof. induction n as [|n IH]; intros; simpl; [lra|]. rewrite IH. lra. Qed.

Lemma sumn_minus : forall n f g, sumn n (fun i => f i - g i) = sumn n f - sumn n g.
Proof. induction n as [|n IH]; intros; simpl; [lra|]. rewrite IH. lra. Qed.

Lemma sumn_scal : forall n c f, sumn n (fun i => c * f i) = c * sumn n f.
Proof. induction n as [|n IH]; intros; simpl; [lra|]. rewrite IH. lra. Qed.

Lemma sumn_scal_r : forall n c f, sumn n (fun i => f i * c) = sumn n f * c.
Proof. induction n as [|n IH]; intros; simpl; [lra|]. rewrite IH. lra. Qed.

Lemma sumn_zero : forall n, sumn n (fun _ => 0) = 0.
Proof. induction n as [|n IH]; simpl; [reflexivity|]. rewrite IH. lra. Qed.

Lemma sumn_zero' : forall n f, (forall i, (i < n)%nat -> f i = 0) -> sumn n f = 0.
Proof. intros n f H. rewrite (sumn_ext n f (fun _ => 0)) by exact H. apply sumn_zero. Qed.

Lemma sumn_nonneg : forall n f, (forall i, (i < n)%nat -> 0 <= f i) -> 0 <= sumn n f.
Proof.
  induction n as [|n IH]; intros f H; simpl; [lra|].
  specialize (IH f (fun i Hi => H i (Nat.lt_trans _ _ _ Hi (Nat.lt_succ_diag_r n)))).
  specialize (H n (Nat.lt_succ_diag_r n)). lra.
Qed.

Lemma sumn_swap : forall n m (f : nat -> nat -> R),
  sumn n (fun i => sumn m (fun j => f i j)) = sumn m (fun j => sumn n (fun i => f i j)).
Proof.
  induction n as [|n IH]; intros m f; simpl.
  - symmetry. apply sumn_zero.
  - rewrite IH, <- sumn_plus. reflexivity.
Qed.

Lemma sumn_single : forall n b f, (b < n)%nat ->
  sumn n (fun k => f k * (if Nat.eqb k b then 1 else 0)) = f b.
Proof.
  induction n as [|n IH]; intros b f H; [lia|]. simpl.
  destruct (Nat.eq_dec b n) as [->|N].
  - rewrite Nat.eqb_refl, sumn_zero'; [lra|]. intros i Hi.
    destruct (Nat.eqb i n) eqn:E; [apply Nat.eqb_eq in E; lia|lra].
  - rewrite IH by lia. destruct (Nat.eqb n b) eqn:E; [apply Nat.eqb_eq in E; lia|lra].
Qed.

Lemma sumn_front : forall n f, sumn (S n) f = f 0%nat + sumn n (fun k => f (S k)).
Proof.
  induction n as [|n IH]; intros f; [simpl; lra|].
  change (sumn (S (S n)) f) with (sumn (S n) f + f (S n)). rewrite IH. simpl. lra.
Qed.

Lemma sumn_skip : forall n i f, (i <= n)%nat ->
  sumn (S n) f = f i + sumn n (fun k => f (skip i k)).
Proof.
  induction n as [|n IH]; intros i f H.
  - replace i with 0%nat by lia. simpl. lra.
  - destruct (Nat.eq_dec i (S n)) as [->|N].
    + change (sumn (S (S n)) f) with (sumn (S n) f + f (S n)).
      rewrite (sumn_ext (S n) (fun k => f (skip (S n) k)) f); [lra|].
      intros k Hk. unfold skip. destruct (Nat.ltb k (S n)) eqn:E; [reflexivity|].
      apply Nat.ltb_ge in E. lia.
    + change (sumn (S (S n)) f) with (sumn (S n) f + f (S n)). rewrite (IH i f) by lia.
      change (sumn (S n) (fun k => f (skip i k))) with (sumn n (fun k => f (skip i k)) + f (skip i n)).
      replace (skip i n) with (S n); [lra|]. unfold skip.
      destruct (Nat.ltb n i) eqn:E; [apply Nat.ltb_lt in E; lia|reflexivity].
Qed.

Lemma skip_lt : forall n i k, (i <= n)%nat -> (k < n)%nat -> (skip i k < S n)%nat.
Proof. intros n i k Hi Hk. unfold skip. destruct (Nat.ltb k i); lia. Qed.
Lemma skip_neq : forall i k, skip i k <> i.
Proof.
  intros i k. unfold skip. destruct (Nat.ltb k i) eqn:E; [apply Nat.ltb_lt in E|apply Nat.ltb_ge in E]; lia.
Qed.
Lemma skip_mono : forall i a b, (a < b)%nat -> (skip i a < skip i b)%nat.
Proof.
  intros i a b H. unfold skip. destruct (Nat.ltb_spec a i), (Nat.ltb_spec b i); lia.
Qed.
Lemma unskip_skip : forall i k, unskip i (skip i k) = Some k.
Proof.
  intros i k. unfold unskip, skip. destruct (Nat.ltb k i) eqn:E.
  - rewrite E. reflexivity.
  - apply Nat.ltb_ge in E. destruct (Nat.ltb (S k) i) eqn:E2; [apply Nat.ltb_lt in E2; lia|].
    destruct (Nat.eqb (S k) i) eqn:E3; [apply Nat.eqb_eq in E3; lia|]. f_equal. simpl. rewrite Nat.sub_0_r. reflexivity.
Qed.
Lemma unskip_self : forall i, unskip i i = None.
Proof. intros i. unfold unskip. rewrite Nat.ltb_irrefl, Nat.eqb_refl. reflexivity. Qed.
Lemma unskip_cases : forall n i a, (a < S n)%nat -> (i <= n)%nat -> a <> i ->
  exists k, a = skip i k /\ (k < n)%nat.
Proof.
  intros n i a Ha Hi N. unfold skip. destruct (Nat.ltb a i) eqn:E.
  - apply Nat.ltb_lt in E. exists a. rewrite (proj2 (Nat.ltb_lt a i)) by exact E. split; [reflexivity|lia].
  - apply Nat.ltb_ge in E. exists (a - 1)%nat.
    rewrite (proj2 (Nat.ltb_ge (a - 1) i)) by lia. split; lia.
Qed.

(** The quadratic form at a vector given by its entry at [i] and the others. *)
Definition form (n : nat) (A : matrix) (x : nat -> R) : R :=
  sumn n (fun i => sumn n (fun j => x i * A i j * x j)).
Definition glue (i : nat) (t : R) (x : nat -> R) : nat -> R :=
  fun a => match unskip i a with Some k => x k | None => t end.

Lemma form_glue : forall n i A t x, (i <= n)%nat -> symmetric (S n) A ->
  form (S n) A (glue i t x) =
    t * A i i * t + 2 * t * sumn n (fun k => A i (skip i k) * x k)
    + form n (fun a b => A (skip i a) (skip i b)) x.
Proof.
  intros n i A t x Hi Sy. unfold form. rewrite (sumn_skip n i) by exact Hi.
  assert (G0 : glue i t x i = t) by (unfold glue; rewrite unskip_self; reflexivity).
  assert (G1 : forall k, glue i t x (skip i k) = x k) by (intros; unfold glue; rewrite unskip_skip; reflexivity).
  rewrite (sumn_skip n i (fun j => glue i t x i * A i j * glue i t x j)) by exact Hi. rewrite G0.
  rewrite (sumn_ext n (fun k => t * A i (skip i k) * glue i t x (skip i k))
             (fun k => t * (A i (skip i k) * x k))) by (intros; rewrite G1; lra).
  rewrite sumn_scal.
  rewrite (sumn_ext n (fun k => sumn (S n) (fun j => glue i t x (skip i k) * A (skip i k) j * glue i t x j))
             (fun k => t * (A i (skip i k) * x k) + sumn n (fun j => x k * A (skip i k) (skip i j) * x j))).
  - rewrite sumn_plus, sumn_scal. lra.
  - intros k Hk. rewrite (sumn_skip n i) by exact Hi. rewrite G0, G1.
    rewrite (Sy (skip i k) i) by (try apply skip_lt; lia).
    rewrite (sumn_ext n (fun j => x k * A (skip i k) (skip i j) * glue i t x (skip i j))
               (fun j => x k * A (skip i k) (skip i j) * x j)) by (intros; rewrite G1; lra). lra.
Qed.

(** Removing a row and a column of a positive semidefinite matrix by elimination. *)
Lemma schur_symmetric : forall n i A, (i <= n)%nat -> symmetric (S n) A ->
  symmetric n (updated_reduced_cov A i).
Proof.
  intros n i A Hi Sy a b Ha Hb. unfold updated_reduced_cov.
  rewrite (Sy (skip i a) (skip i b)) by (apply skip_lt; assumption). unfold Rdiv. lra.
Qed.

Lemma schur_psd : forall n i A, (i <= n)%nat -> symmetric (S n) A -> positive_semidefinite (S n) A ->
  A i i <> 0 -> positive_semidefinite n (updated_reduced_cov A i).
Proof.
  intros n i A Hi Sy P N x.
  set (s := sumn n (fun k => A i (skip i k) * x k)).
  pose proof (P (glue i (- s / A i i) x)) as H. change (0 <= form (S n) A (glue i (- s / A i i) x)) in H.
  rewrite form_glue in H by assumption. fold s in H.
  change (0 <= form n (updated_reduced_cov A i) x).
  replace (form n (updated_reduced_cov A i) x)
    with (form n (fun a b => A (skip i a) (skip i b)) x - s * s / A i i).
  - replace (- s / A i i * A i i * (- s / A i i) + 2 * (- s / A i i) * s)
      with (- (s * s / A i i)) in H by (field; exact N). lra.
  - unfold form, updated_reduced_cov.
    rewrite (sumn_ext n (fun a => sumn n (fun j => x a *
        (A (skip i a) (skip i j) - A i (skip i a) * A i (skip i j) / A i i) * x j))
      (fun a => sumn n (fun j => x a * A (skip i a) (skip i j) * x j)
                - (s / A i i) * (A i (skip i a) * x a))).
    + rewrite sumn_minus, sumn_scal. fold s. unfold Rdiv. lra.
    + intros a Ha.
      rewrite (sumn_ext n (fun j => x a * (A (skip i a) (skip i j) - A i (skip i a) * A i (skip i j) / A i i) * x j)
        (fun j => x a * A (skip i a) (skip i j) * x j
                  - (A i (skip i a) * x a / A i i) * (A i (skip i j) * x j)))
        by (intros; unfold Rdiv; lra).
      rewrite sumn_minus, sumn_scal. fold s. unfold Rdiv. lra.
Qed.

Lemma gram_symmetric : forall n m L, symmetric n (gram m L).
Proof. intros n m L i j _ _. unfold gram. apply sumn_ext. intros; lra. Qed.

Lemma gram_psd : forall n m L, positive_semidefinite n (gram m L).
Proof.
  intros n m L x. unfold gram.
  replace (sumn n (fun i => sumn n (fun j => x i * sumn m (fun k => L i k * L j k) * x j)))
    with (sumn m (fun k => sumn n (fun i => x i * L i k) * sumn n (fun i => x i * L i k))).
  - apply sumn_nonneg. intros k _. apply Rle_0_sqr.
  - rewrite (sumn_ext m _ (fun k => sumn n (fun i => sumn n (fun j => x i * L i k * (L j k * x j))))).
    + rewrite sumn_swap. apply sumn_ext. intros i _. rewrite sumn_swap. apply sumn_ext. intros j _.
      rewrite <- sumn_scal, <- sumn_scal_r. apply sumn_ext. intros; lra.
    + intros k _. rewrite <- sumn_scal_r. apply sumn_ext. intros i _. rewrite <- sumn_scal.
      apply sumn_ext. intros; lra.
Qed.

Lemma psd_diag : forall n A i, (i < n)%nat -> symmetric n A -> positive_semidefinite n A -> 0 <= A i i.
Proof.
  intros [|n] A i Hi Sy P; [lia|]. pose proof (P (glue i 1 (fun _ => 0))) as H.
  change (0 <= form (S n) A (glue i 1 (fun _ => 0))) in H. rewrite form_glue in H by (assumption || lia).
  rewrite sumn_zero' in H by (intros; lra). unfold form in H.
  rewrite sumn_zero' in H by (intros; apply sumn_zero'; intros; lra). lra.
Qed.

Lemma psd_zero_diag : forall n A i j, (i < n)%nat -> (j < n)%nat -> symmetric n A -> positive_semidefinite n A ->
  A i i = 0 -> A i j = 0.
Proof.
  intros [|n] A i j Hi Hj Sy P Z; [lia|].
  destruct (Nat.eq_dec j i) as [->|N]; [exact Z|].
  destruct (unskip_cases n i j Hj) as [k [-> Hk]]; [lia|exact N|].
  set (a := A i (skip i k)). set (d := A (skip i k) (skip i k)).
  assert (Q : forall t, 0 <= 2 * t * a + d).
  { intros t. pose proof (P (glue i t (fun m => if Nat.eqb m k then 1 else 0))) as H.
    change (0 <= form (S n) A (glue i t (fun m => if Nat.eqb m k then 1 else 0))) in H.
    rewrite form_glue in H by (assumption || lia). rewrite Z in H.
    rewrite (sumn_single n k (fun m => A i (skip i m)) Hk) in H. fold a in H.
    unfold form in H.
    assert (Q2 : sumn n (fun i0 => sumn n (fun j => (if Nat.eqb i0 k then 1 else 0) * A (skip i i0) (skip i j) *
                   (if Nat.eqb j k then 1 else 0))) = d).
    { transitivity (sumn n (fun m => A (skip i m) (skip i k) * (if Nat.eqb m k then 1 else 0))).
      - apply sumn_ext. intros m _.
        rewrite (sumn_single n k (fun j => (if Nat.eqb m k then 1 else 0) * A (skip i m) (skip i j)) Hk). lra.
      - apply (sumn_single n k (fun m => A (skip i m) (skip i k)) Hk). }
    rewrite Q2 in H. lra. }
  destruct (Req_dec a 0) as [E|E]; [exact E|exfalso].
  specialize (Q (- (d + 1) / (2 * a))).
  replace (2 * (- (d + 1) / (2 * a)) * a) with (- (d + 1)) in Q by (field; exact E). lra.
Qed.

(** A Cholesky routine exists. *)
Fixpoint cholesky (n : nat) (A : matrix) : matrix :=
  match n with
  | O => fun _ _ => 0
  | S m =>
      let B := if Req_EM_T (A 0%nat 0%nat) 0 then fun i j => A (S i) (S j) else updated_reduced_cov A 0 in
      fun i j => match i, j with
                 | O, O => sqrt (A 0%nat 0%nat)
                 | O, S _ => 0
                 | S i', O => if Req_EM_T (A 0%nat 0%nat) 0 then 0 else A i 0%nat / sqrt (A 0%nat 0%nat)
                 | S i', S j' => cholesky m B i' j'
                 end
  end.

Lemma minor_psd : forall n A, symmetric (S n) A -> positive_semidefinite (S n) A ->
  positive_semidefinite n (fun i j => A (S i) (S j)).
Proof.
  intros n A Sy P x. pose proof (P (glue 0 0 x)) as H. change (0 <= form (S n) A (glue 0 0 x)) in H.
  rewrite form_glue in H by (assumption || lia). unfold form in H.
  change (0 <= 0 * A 0%nat 0%nat * 0 + 2 * 0 * sumn n (fun k => A 0%nat (S k) * x k) +
            sumn n (fun i => sumn n (fun j => x i * A (S i) (S j) * x j))) in H. lra.
Qed.

Lemma cholesky_is_routine : cholesky_routine cholesky.
Proof.
  intros n. induction n as [|n IH]; intros A Sy P.
  - split; intros i j Hi; lia.
  - pose proof (psd_diag (S n) A 0 (Nat.lt_0_succ n) Sy P) as D0.
    assert (F : factor n (cholesky n (if Req_EM_T (A 0%nat 0%nat) 0 then fun i j => A (S i) (S j)
                                     else updated_reduced_cov A 0))
                  (if Req_EM_T (A 0%nat 0%nat) 0 then fun i j => A (S i) (S j) else updated_reduced_cov A 0)).
    { destruct (Req_EM_T (A 0%nat 0%nat) 0) as [E|E]; apply IH.
      - intros i j Hi Hj. apply Sy; lia.
      - apply minor_psd; assumption.
      - apply schur_symmetric; [lia|exact Sy].
      - apply schur_psd; [lia|exact Sy|exact P|exact E]. }
    destruct F as [F1 F2].
    split.
    + intros i j Hi Hj H. destruct i as [|i], j as [|j]; try lia; [reflexivity|].
      simpl. apply F1; lia.
    + intros i j Hi Hj. rewrite sumn_front. destruct i as [|i], j as [|j].
      * simpl. rewrite sumn_zero' by (intros; lra). rewrite sqrt_sqrt by exact D0. lra.
      * simpl. rewrite sumn_zero' by (intros; lra).
        destruct (Req_EM_T (A 0%nat 0%nat) 0) as [E|E].
        -- rewrite (psd_zero_diag (S n) A 0 (S j)) by (assumption || lia). lra.
        -- rewrite (Sy 0%nat (S j)) by lia. field. intros Z. apply sqrt_eq_0 in Z; lra.
      * simpl. rewrite sumn_zero' by (intros; lra).
        destruct (Req_EM_T (A 0%nat 0%nat) 0) as [E|E].
        -- rewrite (Sy (S i) 0%nat), (psd_zero_diag (S n) A 0 (S i)) by (assumption || lia). lra.
        -- field. intros Z. apply sqrt_eq_0 in Z; lra.
      * set (h := fun i => if Req_EM_T (A 0%nat 0%nat) 0 then 0 else A (S i) 0%nat / sqrt (A 0%nat 0%nat)).
        match type of F2 with mat_eq _ (fun i j => sumn n (fun k => ?c _ _ * _)) _ => 
          change (h i * h j + sumn n (fun k => c i k * c j k) = A (S i) (S j)) end.
        specialize (F2 i j). cbn beta in F2. rewrite F2 by lia. unfold h.
        destruct (Req_EM_T (A 0%nat 0%nat) 0) as [E|E]; [lra|].
        unfold updated_reduced_cov. change (skip 0 i) with (S i). change (skip 0 j) with (S j).
        rewrite (Sy (S i) 0%nat), (Sy (S j) 0%nat) by lia.
        assert (Q : sqrt (A 0%nat 0%nat) <> 0) by (intros Z; apply sqrt_eq_0 in Z; lra).
        assert (Q2 : A 0%nat 0%nat = sqrt (A 0%nat 0%nat) * sqrt (A 0%nat 0%nat)) by (symmetry; apply sqrt_sqrt; exact D0).
        replace (A 0%nat (S i) / sqrt (A 0%nat 0%nat) * (A 0%nat (S j) / sqrt (A 0%nat 0%nat)))
          with (A 0%nat (S i) * A 0%nat (S j) / (sqrt (A 0%nat 0%nat) * sqrt (A 0%nat 0%nat)))
          by (field; exact Q).
        rewrite <- Q2. lra.
Qed.

(** A QR routine exists. *)
Lemma qr_exists : exists qr, qr_routine qr.
Proof.
  exists (fun n M i j => cholesky n (gram n (fun a b => M b a)) j i). intros n M.
  destruct (cholesky_is_routine n (gram n (fun a b => M b a))) as [F1 F2].
  - apply gram_symmetric.
  - apply gram_psd.
  - split.
    + intros i j Hi Hj H. apply F1; assumption.
    + intros i j Hi Hj. exact (F2 i j Hi Hj).
Qed.
