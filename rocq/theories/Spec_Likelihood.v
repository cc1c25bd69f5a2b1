(** Independent specification of the likelihood. *)
From Coq Require Import List Arith Bool Reals.
From Coq Require Import Sorting.Permutation.
From Verif Require Import Base Model_Parallel Model_Solve Model_ConditionalDraws Model_Likelihood Spec_Solve.
Import ListNotations.
Open Scope R_scope.

(** Logit probability of entry [c] of [z]. *)
Definition logit (z : list R) (c : nat) : R := exp (nth c z 0) / rsum (map exp z).

(** Average over the draws of the logit probability of choice [c] with the values of the
    choices divided by [tau]. *)
Definition smoothed_probability (wages nonpecs conts : list R) (delta : R)
  (draws : list (list R)) (tau : R) (c : nat) : R :=
  mean (map (fun e => logit (map (fun v => v / tau) (choice_values wages nonpecs conts delta e)) c)
            draws).

Definition rprod (l : list R) : R := fold_right Rmult 1 l.

(** Likelihood of all rows of individual [id] with type [t]. *)
Definition likelihood_of (rows : list (lrow * (R * R))) (id t : nat) : R :=
  rprod (map (fun r => exp (fst (snd r)) * exp (snd (snd r)))
             (filter (fun r => Nat.eqb (fst (lr_index (fst r))) id && Nat.eqb (lr_type (fst r)) t)
                     rows)).

(** Mixture over the types with probabilities [probs]. *)
Definition mixture (probs : list R) (like : nat -> R) : R :=
  rsum (map (fun tp => snd tp * like (fst tp)) (enumerate probs)).

(** Linear indices of the types with coefficients [params] for covariates [x]. *)
Definition type_indices (params : list (list (nat * R))) (x : nat -> nat -> R) : list R :=
  map (fun tp => linear_index (x (fst tp)) (snd tp)) (enumerate params).

(** Logit probabilities of all entries. *)
Definition logits (z : list R) : list R := map (logit z) (seq 0 (length z)).

(** No two rows belong to the same individual, period and type. *)
Definition unique_rows (rows : list (lrow * (R * R))) : Prop :=
  NoDup (map (fun r => (lr_index (fst r), lr_type (fst r))) rows).

(** Covariance of the shocks of choices [c] and [d] as far as it is due to the components
    which belong to available choices; [L] is the Cholesky factor of all choices. *)
Definition restricted_cov (L : list (list R)) (cs : list bool) (c d : nat) : R :=
  rsum (map (fun k => mat L c k * mat L d k) (positions cs)).

(** [w] is not affected by the clipping of wages. *)
Definition representable (w : R) : Prop :=
  1 / 10 ^ 200 <= w <= 10 ^ 200.

(** [numbered] lists each observation of the data exactly once for each type, with the
    dense key of its state, the number of the draws which are used for it, and its
    contributions (choice, wage) to the log likelihood.  No two rows use the same draws. *)
Definition covers (rc qr : nat -> matrix -> matrix) (lk : like_spec)
  (locate : index -> obs -> nat -> result (nat * nat)) (env : like_env) (n_types : nat) (data : frame obs)
  (numbered : list ((nat * nat) * (lrow * (R * R)))) : Prop :=
  NoDup (map fst numbered) /\
  Permutation (map (fun n => (lr_index (fst (snd n)), lr_type (fst (snd n)), lr_obs (fst (snd n)))) numbered)
              (flat_map (fun t => map (fun d => (fst d, t, snd d)) data) (seq 0 n_types)) /\
  forall k j r ll, In ((k, j), (r, ll)) numbered ->
    locate (lr_index r) (lr_obs r) (lr_type r) = Ok (k, lr_pos r) /\
    row_loglikes rc qr lk (le_choice_set env k) (le_wages env k (lr_pos r)) (le_nonpec env k (lr_pos r))
      (le_cont env k (lr_pos r)) (le_draws env k j) (ob_code (lr_obs r)) (ob_wage (lr_obs r)) = Ok ll.

(** Individuals observed in the first period. *)
Definition individuals (data : frame obs) : list nat :=
  map (fun r => fst (fst r)) (filter (fun r => Nat.eqb (snd (fst r)) 0) data).


(** An observation at state [pos] of dense key [k] can be evaluated: the observed choice is
    available, a wage is only observed for a choice with wage, and the arrays have the
    right shapes. *)
Definition evaluable (lk : like_spec) (env : like_env) (k pos : nat) (ob : obs) : Prop :=
  let cs := le_choice_set env k in
  available cs (ob_code ob) /\
  (ob_wage ob = None \/ (ob_code ob < lk_nwages lk)%nat) /\
  length cs = length (lk_meas lk) /\
  length (le_wages env k pos) = count_true cs /\ length (le_nonpec env k pos) = count_true cs /\
  length (le_cont env k pos) = count_true cs /\ forall j, le_draws env k j <> [].

(** Covariance of the shocks of the available choices, by position among them. *)
Definition restricted_matrix (L : list (list R)) (cs : list bool) : matrix :=
  fun a b => restricted_cov L cs (nth a (positions cs) 0%nat) (nth b (positions cs) 0%nat).

(** Shocks of [n] available choices, the first [nw] of them with a wage, from a standard
    normal draw [b]: [mean] plus [U b]; for wages the exponential of at most 460. *)
Definition shocks_from (n nw : nat) (mean : nat -> R) (U : matrix) (b : list R) : list R :=
  map (fun a => let z := mean a + sumn n (fun k => U a k * nth k b 0) in
                if Nat.ltb a nw then exp (Rmin 460 z) else z) (seq 0 n).

(** The shocks given the observation of the wage [w] of the choice at position [i] with
    systematic wage [s] and measurement error [sd] have mean [mean] and factor [U]; without
    observation they have mean zero and the factor [L]. *)
Definition conditional_distribution (L : list (list R)) (cs : list bool) (i : nat) (s sd : R)
  (wage : option R) (mean : nat -> R) (U : matrix) : Prop :=
  let n := count_true cs in
  let cov := restricted_matrix L cs in
  match wage with
  | None => (forall a, mean a = 0) /\
            forall a b, (a < n)%nat -> (b < n)%nat ->
              U a b = mat L (nth a (positions cs) 0%nat) (nth b (positions cs) 0%nat)
  | Some w =>
      forall a b ba bb, (a < n)%nat -> (b < n)%nat ->
        cov a i - ba * (cov i i + sd ^ 2) = 0 -> cov b i - bb * (cov i i + sd ^ 2) = 0 ->
        mean a = ba * (ln w - ln s) /\
        sumn n (fun k => U a k * U b k) =
          cov a b - ba * cov b i - bb * cov a i + ba * bb * (cov i i + sd ^ 2)
  end.
