(** Model of the draws for the likelihood (likelihood.py:107-115), which are created once
    from the processed data and kept for all evaluations.  Definitions only; see
    Props_LikelihoodDraws.v for the theorems. *)
From Coq Require Import List Arith ZArith Bool Reals.
From Verif Require Import Base Model_Parallel Model_Solve Model_ConditionalDraws Model_Likelihood.
Import ListNotations.

(** The groups of [df.groupby("dense_key")] in the order of the loop. *)
Definition observed_keys (rows : list lrow) : list nat :=
  isort Nat.leb (drop_duplicates Nat.eq_dec (map lr_key rows)).

(** likelihood.py:107-115: each dense key takes the next seed and as many sets of draws as
    there are rows.  [generate s n c] stands for [create_base_draws((n, n_draws, c), s, ...)],
    shared.py:61-133; [n_choices] is the number of available choices for a dense key. *)
Definition base_draws_est (generate : Z -> nat -> nat -> list (list (list R))) (seed : Z)
  (n_choices : nat -> nat) (rows : list lrow) (k position : nat) : list (list R) :=
  match find (fun p => Nat.eqb (snd p) k) (enumerate (observed_keys rows)) with
  | Some p => nth position
                (generate (seed + Z.of_nat (fst p))%Z
                   (length (filter (fun r => Nat.eqb (lr_key r) k) rows)) (n_choices k)) []
  | None => []
  end.

(** The part of the solved model that does not depend on the data. *)
Definition with_draws (env : like_env) (draws : nat -> nat -> list (list R)) : like_env :=
  mkLikeEnv (le_choice_set env) (le_wages env) (le_nonpec env) (le_cont env) draws.

(** likelihood.py:32-176 (get_log_like_func, log_like) for given parameters; [order_rows] is
    the order of rows after the parallel loop over dense keys.  The type covariates are
    sorted by individual (parallelization.py:76). *)
Definition estimate (generate : Z -> nat -> nat -> list (list (list R))) (seed : Z)
  (robust_cholesky qr : nat -> matrix -> matrix) (lk : like_spec)
  (locate : index -> obs -> nat -> result (nat * nat)) (env : like_env)
  (n_types : nat) (params : list (list (nat * R))) (x : nat -> nat -> nat -> R)
  (order_rows : list (lrow * (R * R)) -> list (lrow * (R * R))) (data : frame obs) : result (R * list R) :=
  result_bind (duplicate_for_types locate n_types data) (fun rows =>
  log_like robust_cholesky qr lk locate
    (with_draws env (base_draws_est generate seed (fun k => count_true (le_choice_set env k)) rows))
    n_types params x order_rows (isort Nat.leb) data).
