(** Model of the log likelihood (likelihood.py).  Floating-point numbers are modelled by
    the real numbers.  Definitions only; see Props_Likelihood.v for the theorems. *)
From Coq Require Import List Arith Bool Reals.
From Verif Require Import Base Model_CoreStateSpace Model_StateSpace Model_Parallel Model_Solve
  Model_ConditionalDraws.
Import ListNotations.
Open Scope R_scope.

(** ** Choice probabilities *)

(** likelihood.py:381-386: search of the maximum, starting with [None]. *)
Definition search_max (x : list R) : option R :=
  fold_left (fun m xi => match m with
                         | None => Some xi
                         | Some m' => if Rlt_dec m' xi then Some xi else Some m'
                         end) x None.

(** likelihood.py:367-396 (_logsumexp).  [expf] is the routine for exponentials
    ([np.exp]).  Nothing is defined for an empty vector. *)
Definition logsumexp_with (expf : R -> R) (x : list R) : result R :=
  match search_max x with
  | None => ValueError
  | Some m => Ok (m + ln (fold_left (fun s xi => s + expf (xi - m)) x 0))
  end.
Definition logsumexp : list R -> result R := logsumexp_with exp.

(** likelihood.py:462-473: one draw. *)
Definition log_probability_of_draw (wages nonpec cont : list R) (delta : R) (choice : nat)
  (tau : R) (draw : list R) : result R :=
  let values := map (fun j => fst (aggregate_keane_wolpin_utility (nth j wages 0)
                       (nth j nonpec 0) (nth j cont 0) (nth j draw 0) delta) / tau)
                    (seq 0 (length draw)) in
  match nth_error values choice with
  | None => IndexError
  | Some v => result_bind (logsumexp values) (fun s => Ok (v - s))
  end.

(** likelihood.py:399-477 (_simulate_log_probability_of_individuals_observed_choice) for
    one observation.  A division by zero raises in Numba. *)
Definition simulate_log_probability (wages nonpec cont : list R) (draws : list (list R))
  (delta : R) (choice : nat) (tau : R) : result R :=
  if Req_EM_T tau 0 then OtherError else
  result_bind (result_all (map (log_probability_of_draw wages nonpec cont delta choice tau) draws))
  (fun lps => result_bind (logsumexp lps) (fun s => Ok (s - ln (INR (length draws))))).

(** [np.searchsorted] (side "left") in a sorted list. *)
Fixpoint searchsorted (l : list nat) (x : nat) : nat :=
  match l with
  | [] => 0
  | y :: r => if Nat.ltb y x then S (searchsorted r x) else 0
  end.

(** likelihood.py:620-652 (_map_choice_codes_to_indices_of_valid_choice_set) for one code.
    The positions of the available choices are ascending, so that sorting them does
    nothing. *)
Definition map_choice_code (code : nat) (choice_set : list bool) : result nat :=
  let available := positions choice_set in
  match nth_error (seq 0 (length available)) (searchsorted available code) with
  | Some i => Ok i
  | None => IndexError
  end.

(** ** Contributions of one observation *)

(** The entries of [optim_paras] and [options] which are used: Cholesky factor, number of
    wage choices (they come first), standard deviations of measurement errors of all
    choices in order (zero for choices without wage), whether there are measurement
    errors, discount factor and smoothing parameter. *)
Record like_spec := mkLikeSpec {
  lk_chol : list (list R);
  lk_nwages : nat;
  lk_meas : list R;
  lk_has_meas : bool;
  lk_beta_delta : R;
  lk_tau : R
}.

(** likelihood.py:537: logarithm of the observed wage ([None]: missing). *)
Definition log_wage (wage : option R) : option R :=
  option_map (fun w => ln (clip (1 / max_float) max_float w)) wage.

(** likelihood.py:274-330 (_compute_wage_and_choice_log_likelihood_contributions) for one
    row: [wages], [nonpec] and [cont] belong to the state of the row, [code] is the
    observed choice.  The pair is (loglike_choice, loglike_wage). *)
Definition row_loglikes (robust_cholesky qr : nat -> matrix -> matrix) (lk : like_spec)
  (choice_set : list bool) (wages nonpec cont : list R) (base_draws : list (list R))
  (code : nat) (wage : option R) : result (R * R) :=
  let n_wages := length (select_valid_choices (seq 0 (lk_nwages lk)) choice_set) in
  result_bind (map_choice_code code choice_set) (fun choice =>
  result_bind
    (create_draws_and_log_prob_wages robust_cholesky qr (log_wage wage) wages base_draws choice
       (subset_cholesky (lk_chol lk) choice_set) n_wages (lk_meas lk) (lk_has_meas lk))
  (fun dl =>
  result_bind (simulate_log_probability wages nonpec cont (fst dl) (lk_beta_delta lk) choice (lk_tau lk))
  (fun lc => Ok (clip (- max_float) max_float lc, clip (- max_float) max_float (snd dl))))).

(** ** The panel *)

(** A row of the data after processing: index (identifier, period), type, observed choice
    and wage, dense key and core index. *)
Record obs := mkObs {
  ob_code : nat;
  ob_wage : option R
}.
Record lrow := mkLrow {
  lr_index : index;
  lr_type : nat;
  lr_obs : obs;
  lr_key : nat;
  lr_pos : nat
}.

(** likelihood.py:528-534: the data are repeated for each type (a model with one type has
    no column "type", written as type 0) and mapped to states by [locate] (the model of
    the mapping is in Model_Simulate.v). *)
Definition duplicate_for_types (locate : index -> obs -> nat -> result (nat * nat))
  (n_types : nat) (data : frame obs) : result (list lrow) :=
  result_all
    (flat_map (fun t => map (fun r => result_bind (locate (fst r) (snd r) t)
                             (fun kp => Ok (mkLrow (fst r) t (snd r) (fst kp) (snd kp)))) data)
              (seq 0 (if Nat.leb 2 n_types then n_types else 1))).

(** What the likelihood reads from the solution for a state of a dense key, and the draws
    for a row of the group of a dense key. *)
Record like_env := mkLikeEnv {
  le_choice_set : nat -> list bool;
  le_wages : nat -> nat -> list R;
  le_nonpec : nat -> nat -> list R;
  le_cont : nat -> nat -> list R;
  le_draws : nat -> nat -> list (list R)
}.

(** One row with its contributions. *)
Definition contributions_of_row (robust_cholesky qr : nat -> matrix -> matrix) (lk : like_spec)
  (env : like_env) (position : nat) (r : lrow) : result (lrow * (R * R)) :=
  let k := lr_key r in
  let i := lr_pos r in
  result_bind
    (row_loglikes robust_cholesky qr lk (le_choice_set env k) (le_wages env k i)
       (le_nonpec env k i) (le_cont env k i) (le_draws env k position)
       (ob_code (lr_obs r)) (ob_wage (lr_obs r)))
    (fun ll => Ok (r, ll)).

(** likelihood.py:107-115 and 272-275: the rows of each dense key are treated together;
    row number [j] of a group uses the draws number [j] of that key.  Each row with dense
    key and number. *)
Definition number_rows (rows : list lrow) : list ((nat * nat) * lrow) :=
  flat_map (fun k => map (fun jr => ((k, fst jr), snd jr))
                         (enumerate (filter (fun r => Nat.eqb (lr_key r) k) rows)))
           (isort Nat.leb (drop_duplicates Nat.eq_dec (map lr_key rows))).

(** likelihood.py:272-330 with both decorators.  The order of the rows in the result (an
    unstable sort by index) is left open: see [log_like]. *)
Definition compute_contributions (robust_cholesky qr : nat -> matrix -> matrix) (lk : like_spec)
  (env : like_env) (rows : list lrow) : result (list (lrow * (R * R))) :=
  result_all (map (fun n => contributions_of_row robust_cholesky qr lk env (snd (fst n)) (snd n))
                  (number_rows rows)).

(** likelihood.py:243-251 with types: for each pair of identifier and period the first
    row of the type; a missing combination is not a number and is skipped by the sum over
    periods. *)
Definition per_individual_and_type (rows : list (lrow * (R * R))) (id t : nat) : R :=
  fold_right Rplus 0
    (map (fun p =>
            match find (fun r => Nat.eqb (fst (lr_index (fst r))) id &&
                                 Nat.eqb (snd (lr_index (fst r))) p &&
                                 Nat.eqb (lr_type (fst r)) t) rows with
            | Some r => fst (snd r) + snd (snd r)
            | None => 0
            end)
         (isort Nat.leb (drop_duplicates Nat.eq_dec
            (map (fun r => snd (lr_index (fst r)))
                 (filter (fun r => Nat.eqb (fst (lr_index (fst r))) id) rows))))).

(** The same without types: the sum over all rows of the individual. *)
Definition per_individual (rows : list (lrow * (R * R))) (id : nat) : R :=
  fold_right Rplus 0
    (map (fun r => fst (snd r) + snd (snd r))
         (filter (fun r => Nat.eqb (fst (lr_index (fst r))) id) rows)).

(** likelihood.py:345-364: indices of the type probabilities of one individual; [x t] are
    the covariates with type [t], [params] the coefficients of the types. *)
Definition type_x_betas (params : list (list (nat * R))) (x : nat -> nat -> R) : list R :=
  map (fun tp => pandas_dot (x (fst tp)) (snd tp)) (enumerate params).

(** likelihood.py:333-342 (_compute_log_type_probabilities) for one row.
    [special.logsumexp] subtracts the maximum like the routine above. *)
Definition log_type_probabilities (x_betas : list R) : result (list R) :=
  result_bind (logsumexp x_betas) (fun s =>
  Ok (map (fun x => clip (- max_float) max_float (x - s)) x_betas)).

(** likelihood.py:540-546: the rows of the first period in the data repeated for each type;
    their order after likelihood.py:345-346 is that of an unstable sort by index and left
    open.  [x] are the covariates of an individual with a given type. *)
Definition type_rows (data : frame obs) (n_types : nat) : list nat :=
  flat_map (fun _ => map (fun r => fst (fst r))
                         (filter (fun r => Nat.eqb (snd (fst r)) 0) data)) (seq 0 n_types).

(** likelihood.py:253-267: contributions.  With types there is one entry for each row of
    the type covariates: the sum of the two data frames is aligned on the level
    "identifier" of the larger index. *)
Definition type_contribution (params : list (list (nat * R))) (x : nat -> nat -> nat -> R)
  (rows : list (lrow * (R * R))) (id : nat) : result R :=
  result_bind (log_type_probabilities (type_x_betas params (x id))) (fun lps =>
  result_bind (logsumexp (map (fun tl => per_individual_and_type rows id (fst tl) + snd tl)
                              (enumerate lps)))
  (fun c => Ok (clip (- max_float) max_float c))).
Definition contributions (n_types : nat) (params : list (list (nat * R)))
  (x : nat -> nat -> nat -> R) (type_ids : list nat) (rows : list (lrow * (R * R)))
  : result (list R) :=
  if Nat.leb 2 n_types then
    result_all (map (type_contribution params x rows) type_ids)
  else
    Ok (map (fun id => clip (- max_float) max_float (per_individual rows id))
            (isort Nat.leb (drop_duplicates Nat.eq_dec (map (fun r => fst (lr_index (fst r))) rows)))).

(** likelihood.py:130-176 (log_like): the value is the mean of the contributions.
    [order_rows] and [order_types] are the orders in which the sorts leave the rows. *)
Definition log_like (robust_cholesky qr : nat -> matrix -> matrix) (lk : like_spec)
  (locate : index -> obs -> nat -> result (nat * nat)) (env : like_env)
  (n_types : nat) (params : list (list (nat * R))) (x : nat -> nat -> nat -> R)
  (order_rows : list (lrow * (R * R)) -> list (lrow * (R * R)))
  (order_types : list nat -> list nat) (data : frame obs) : result (R * list R) :=
  result_bind (duplicate_for_types locate n_types data) (fun rows =>
  result_bind (compute_contributions robust_cholesky qr lk env rows) (fun computed =>
  result_bind (contributions n_types params x (order_types (type_rows data n_types))
                 (order_rows computed))
  (fun cs => Ok (fold_right Rplus 0 cs / INR (length cs), cs)))).
