(** Property theorems: log likelihood and conditional draws. *)
From Coq Require Import List Arith Bool Reals Lra Lia Sorting.Permutation.
From Verif Require Import Base Proof_Base Model_CoreStateSpace Model_StateSpace Model_Parallel Model_Solve Spec_Solve
  Model_ConditionalDraws Spec_ConditionalDraws Proof_Matrix Proof_ConditionalDraws
  Model_Likelihood Spec_Likelihood Proof_Likelihood Proof_LikelihoodRows Proof_LikelihoodChoice
  Proof_LikelihoodPanel Examples_Likelihood Proof_LikelihoodProps.
Import ListNotations.
Open Scope R_scope.

(** ** C30 *)

(** The value is right for every routine for exponentials which is only right for
    arguments up to zero: exponentials above one are never evaluated. *)
Theorem C30_logarithm_of_sum : forall f x, (forall y, y <= 0 -> f y = exp y) -> x <> [] ->
  logsumexp_with f x = Ok (ln (rsum (map exp x))).
Proof. exact logsumexp_with_spec. Qed.
Print Assumptions C30_logarithm_of_sum.

Theorem C30_bounds : forall x s, logsumexp x = Ok s ->
  maximum x <= s <= maximum x + ln (INR (length x)).
Proof. exact logsumexp_bounds. Qed.
Print Assumptions C30_bounds.

Theorem C30_shift : forall x s c, logsumexp x = Ok s ->
  logsumexp (map (fun y => y + c) x) = Ok (s + c).
Proof. exact logsumexp_shift. Qed.
Print Assumptions C30_shift.

(** A vector of huge entries with a routine which returns zero where exponentials would
    overflow. *)
Example C30_example :
  logsumexp_with (fun y => if Rle_dec y 0 then exp y else 0) [1000; 1000] = Ok (1000 + ln 2) /\
  logsumexp_with (fun y => if Rle_dec y 0 then exp y else 0) [] = ValueError.
Proof.
  split; [|reflexivity]. rewrite logsumexp_with_spec; [|intros y Hy; destruct (Rle_dec y 0); [reflexivity|lra]|discriminate].
  f_equal. unfold rsum. cbn [map fold_right].
  replace (exp 1000 + (exp 1000 + 0)) with (exp 1000 * 2) by lra.
  rewrite ln_mult, ln_exp; [lra|apply exp_pos|lra].
Qed.

(** ** C31 *)
Theorem C31_average_of_logits : forall wages nonpecs conts draws delta c tau,
  same_lengths wages nonpecs conts draws -> (c < length wages)%nat -> draws <> [] -> tau <> 0 ->
  exists lp, simulate_log_probability wages nonpecs conts draws delta c tau = Ok lp /\
    exp lp = smoothed_probability wages nonpecs conts delta draws tau c /\
    0 < exp lp <= 1.
Proof. exact simulate_spec. Qed.
Print Assumptions C31_average_of_logits.

Theorem C31_sum_to_one : forall wages nonpecs conts draws delta tau, wages <> [] -> draws <> [] ->
  rsum (map (smoothed_probability wages nonpecs conts delta draws tau) (seq 0 (length wages))) = 1.
Proof. exact smoothed_sum. Qed.
Print Assumptions C31_sum_to_one.

Example C31_example :
  same_lengths [1; 1] [0; 2] [5; 0] [[1; 0]; [2; 1]] /\
  smoothed_probability [1; 1] [0; 2] [0; 0] (95 / 100) [[2; 0]] 1 0 = 1 / 2 /\
  simulate_log_probability [1; 1] [0; 2] [0; 0] [[2; 0]] (95 / 100) 0 0 = OtherError.
Proof.
  split; [|split].
  - split; [reflexivity|]. split; [reflexivity|]. intros e [<-|[<-|[]]]; reflexivity.
  - unfold smoothed_probability, mean, logit, choice_values, rsum. cbn.
    replace ((1 * 2 + 0 + 95 / 100 * 0) / 1) with 2 by lra.
    replace ((1 * 0 + 2 + 95 / 100 * 0) / 1) with 2 by lra.
    pose proof (exp_pos 2). field. lra.
  - unfold simulate_log_probability. destruct (Req_EM_T 0 0); [reflexivity|lra].
Qed.

(** ** C32 *)
Theorem C32_available_choice : forall cs code, available cs code ->
  exists i, map_choice_code code cs = Ok i /\ nth_error (positions cs) i = Some code.
Proof. exact map_choice_available. Qed.
Print Assumptions C32_available_choice.

Theorem C32_treated_as_next_choice : forall cs code next, available cs next -> (code < next)%nat ->
  (forall c, (code <= c)%nat -> (c < next)%nat -> ~ available cs c) ->
  map_choice_code code cs = map_choice_code next cs.
Proof. exact map_choice_next. Qed.
Print Assumptions C32_treated_as_next_choice.

Theorem C32_fails_without_next_choice : forall cs code,
  (forall c, (code <= c)%nat -> ~ available cs c) -> map_choice_code code cs = IndexError.
Proof. exact map_choice_none. Qed.
Print Assumptions C32_fails_without_next_choice.

(** An observed choice which is not available is not rejected. *)
Theorem C32_unavailable_rejected_refuted :
  exists cs code i, unavailable cs code /\ map_choice_code code cs = Ok i.
Proof. exists [true; false; true], 1%nat, 1%nat. split; reflexivity. Qed.
Print Assumptions C32_unavailable_rejected_refuted.

Example C32_example :
  map_choice_code 2 [true; false; true; false] = Ok 1%nat /\ available [true; false; true; false] 2 /\
  map_choice_code 1 [true; false; true; false] = Ok 1%nat /\
  map_choice_code 3 [true; false; true; false] = IndexError.
Proof. repeat split. Qed.

(** ** C33 *)
Theorem C33_standard_deviation_of_the_choice : forall rc qr lk cs wages nonpec cont base code w s sd lc lw,
  square (length cs) (lk_chol lk) -> length wages = count_true cs ->
  (forall c, (c <= code)%nat -> available cs c) -> nth_error wages code = Some s ->
  representable w -> representable s -> nth_error (lk_meas lk) code = Some sd ->
  0 < restricted_cov (lk_chol lk) cs code code + sd ^ 2 ->
  row_loglikes rc qr lk cs wages nonpec cont base code (Some w) = Ok (lc, lw) ->
  lw = clip (- 10 ^ 200) (10 ^ 200)
         (ln (lognormal_density (ln s) (restricted_cov (lk_chol lk) cs code code + sd ^ 2) w)).
Proof. exact row_density_prefix. Qed.
Print Assumptions C33_standard_deviation_of_the_choice.

(** In general it is the entry at the position of the choice among the available ones. *)
Theorem C33_standard_deviation_of_the_position : forall rc qr lk cs wages nonpec cont base code w i s sd lc lw,
  square (length cs) (lk_chol lk) -> length wages = count_true cs ->
  nth_error (positions cs) i = Some code -> nth_error wages i = Some s ->
  representable w -> representable s -> nth_error (lk_meas lk) i = Some sd ->
  0 < restricted_cov (lk_chol lk) cs code code + sd ^ 2 ->
  row_loglikes rc qr lk cs wages nonpec cont base code (Some w) = Ok (lc, lw) ->
  lw = clip (- 10 ^ 200) (10 ^ 200)
         (ln (lognormal_density (ln s) (restricted_cov (lk_chol lk) cs code code + sd ^ 2) w)).
Proof. exact row_density. Qed.
Print Assumptions C33_standard_deviation_of_the_position.

Theorem C33_standard_deviation_of_the_choice_refuted :
  exists lk cs wages nonpec cont base code w s sd,
    square (length cs) (lk_chol lk) /\ length wages = count_true cs /\ available cs code /\
    nth_error (positions cs) 0 = Some code /\ nth_error wages 0 = Some s /\ representable w /\ representable s /\
    nth_error (lk_meas lk) code = Some sd /\ (code < lk_nwages lk)%nat /\
    0 < restricted_cov (lk_chol lk) cs code code + sd ^ 2 /\
    forall rc qr, exists lc lw, row_loglikes rc qr lk cs wages nonpec cont base code (Some w) = Ok (lc, lw) /\
      lw <> clip (- 10 ^ 200) (10 ^ 200)
             (ln (lognormal_density (ln s) (restricted_cov (lk_chol lk) cs code code + sd ^ 2) w)).
Proof. exact wrong_measurement_error. Qed.
Print Assumptions C33_standard_deviation_of_the_choice_refuted.

Example C33_example :
  square 2 ex_chol /\ (forall c, (c <= 0)%nat -> available [true; true] c) /\
  0 < restricted_cov ex_chol [true; true] 0 0 + 0 ^ 2 /\
  forall rc qr, exists ll, row_loglikes rc qr ex_lk [true; true] [1; 1] [0; 2] [0; 0] [[0; 1]] 0 (Some 1) = Ok ll.
Proof.
  split; [|split; [|split]].
  - split; [reflexivity|]. intros row [<-|[<-|[]]]; reflexivity.
  - intros c H. assert (c = 0%nat) by lia. subst c. reflexivity.
  - unfold restricted_cov, ex_chol, mat, rsum. cbn. lra.
  - intros rc qr. apply row_succeeds with (i := 0%nat); try reflexivity; try discriminate.
    + cbn. lra.
    + cbn. lia.
    + right. cbn. lia.
Qed.

(** ** C34 *)
Theorem C34_conditional_mean : forall n L c lw m meas sd, nth_error meas c = Some sd ->
  gram n L c c + sd ^ 2 <> 0 ->
  exists mean ll, update_mean_and_evaluate_likelihood (Some lw) m (gram n L) c meas = Ok (mean, ll) /\
    forall i b, prediction_coefficient (gram n L) c (sd ^ 2) i b -> mean i = b * (lw - m).
Proof. exact mean_spec. Qed.
Print Assumptions C34_conditional_mean.

Theorem C34_density : forall cov c lw m meas sd, nth_error meas c = Some sd ->
  0 < cov c c + sd ^ 2 ->
  exists mean ll, update_mean_and_evaluate_likelihood (Some lw) m cov c meas = Ok (mean, ll) /\
    exp ll = lognormal_density m (cov c c + sd ^ 2) (exp lw).
Proof. exact density_spec. Qed.
Print Assumptions C34_density.

Theorem C34_no_wage : forall m cov c meas,
  exists mean, update_mean_and_evaluate_likelihood None m cov c meas = Ok (mean, 0) /\ forall i, mean i = 0.
Proof. exact no_wage. Qed.
Print Assumptions C34_no_wage.

Theorem C34_observed_shock : forall cov c lw m meas, nth_error meas c = Some 0 -> cov c c <> 0 ->
  exists mean ll, update_mean_and_evaluate_likelihood (Some lw) m cov c meas = Ok (mean, ll) /\
    mean c = lw - m.
Proof. exact mean_at_observed. Qed.
Print Assumptions C34_observed_shock.

(** Covariance ((1, 1), (1, 2)); the first shock is observed without error. *)
Example C34_example :
  gram 2 (of_rows ex_chol) 0%nat 0%nat + 0 ^ 2 <> 0 /\
  prediction_coefficient (gram 2 (of_rows ex_chol)) 0 (0 ^ 2) 1 1 /\
  prediction_coefficient (gram 2 (of_rows ex_chol)) 0 (1 ^ 2) 1 (1 / 2).
Proof.
  destruct ex_chol_gram as [A [B _]]. unfold prediction_coefficient. rewrite A, B. repeat split; lra.
Qed.

(** ** C35 *)
Theorem C35_conditional_covariance : forall rc n n_wages L i, cholesky_routine rc ->
  (i < n_wages)%nat -> (n_wages <= n)%nat -> gram n L i i <> 0 ->
  exists U, update_cholcov rc n n_wages L i = Ok U /\ Spec_ConditionalDraws.lower_triangular n U /\
    (forall a, U i a = 0 /\ U a i = 0) /\
    forall a b ba bb, (a < n)%nat -> (b < n)%nat ->
      prediction_coefficient (gram n L) i 0 a ba -> prediction_coefficient (gram n L) i 0 b bb ->
      sumn n (fun k => U a k * U b k) = error_covariance (gram n L) i 0 a b ba bb.
Proof. exact cholcov_spec. Qed.
Print Assumptions C35_conditional_covariance.

Theorem C35_without_observation : forall rc qr n n_wages L meas,
  update_cholcov rc n n_wages L n_wages = Ok L /\
  update_cholcov_with_measurement_error qr n n_wages L meas n_wages = Ok L.
Proof. exact cholcov_unobserved. Qed.
Print Assumptions C35_without_observation.

(** The assumption about the routine can be met: there is a Cholesky decomposition of
    every positive semidefinite matrix. *)
Theorem C35_routine_exists : cholesky_routine cholesky.
Proof. exact cholesky_is_routine. Qed.
Print Assumptions C35_routine_exists.

Example C35_example :
  exists U, update_cholcov cholesky 2 1 (of_rows ex_chol) 0 = Ok U /\
    sumn 2 (fun k => U 1%nat k * U 1%nat k) = 1 /\ U 0%nat 0%nat = 0.
Proof.
  destruct ex_chol_gram as [A [B C]].
  destruct (cholcov_spec cholesky 2 1 (of_rows ex_chol) 0 cholesky_is_routine) as [U [E [_ [Z S]]]]; try lia; [rewrite A; lra|].
  exists U. split; [exact E|]. split; [|apply (proj1 (Z 0%nat))].
  rewrite (S 1%nat 1%nat 1 1) by (try lia; unfold prediction_coefficient; rewrite A, B; lra).
  unfold error_covariance. rewrite A, B, C. lra.
Qed.

(** ** C36 *)
Theorem C36_trailing_block : forall qr n L sd i, qr_routine qr -> (i < n)%nat ->
  gram n L i i + sd ^ 2 <> 0 ->
  let r := qr (S n) (extended_cholcov_t L sd i) in
  Spec_ConditionalDraws.lower_triangular n (fun a b => r (S b) (S a)) /\
  forall a b ba bb, (a < n)%nat -> (b < n)%nat ->
    prediction_coefficient (gram n L) i (sd ^ 2) a ba -> prediction_coefficient (gram n L) i (sd ^ 2) b bb ->
    sumn n (fun k => r (S k) (S a) * r (S k) (S b)) = error_covariance (gram n L) i (sd ^ 2) a b ba bb.
Proof. exact trailing_block. Qed.
Print Assumptions C36_trailing_block.

Theorem C36_signs_preserve_product : forall n C, (forall k, (k < n)%nat -> C k k <> 0) ->
  mat_eq n (gram n (make_cholesky_unique n C)) (gram n C).
Proof. exact unique_product. Qed.
Print Assumptions C36_signs_preserve_product.

Theorem C36_conditional_covariance : forall qr n n_wages L meas sd i, qr_routine qr ->
  (i < n_wages)%nat -> (n_wages <= n)%nat -> nth_error meas i = Some sd -> sd <> 0 ->
  Spec_ConditionalDraws.lower_triangular n L -> (forall k, (k < n)%nat -> L k k <> 0) ->
  exists U, update_cholcov_with_measurement_error qr n n_wages L meas i = Ok U /\
    Spec_ConditionalDraws.lower_triangular n U /\
    (forall k, (k < n)%nat -> 0 < U k k) /\
    forall a b ba bb, (a < n)%nat -> (b < n)%nat ->
      prediction_coefficient (gram n L) i (sd ^ 2) a ba -> prediction_coefficient (gram n L) i (sd ^ 2) b bb ->
      sumn n (fun k => U a k * U b k) = error_covariance (gram n L) i (sd ^ 2) a b ba bb.
Proof. exact kalman_regular. Qed.
Print Assumptions C36_conditional_covariance.

(** With a zero on the diagonal the normalisation of the signs can lose variance: the
    shock of the second choice has variance 2, the draws have variance 1. *)
Theorem C36_conditional_covariance_refuted :
  exists qr n L meas U, qr_routine qr /\ Spec_ConditionalDraws.lower_triangular n L /\ nth_error meas 0 = Some 1 /\
    gram n L 0%nat 0%nat + 1 ^ 2 <> 0 /\
    update_cholcov_with_measurement_error qr n 1 L meas 0 = Ok U /\
    prediction_coefficient (gram n L) 0 (1 ^ 2) 1 0 /\
    error_covariance (gram n L) 0 (1 ^ 2) 1 1 0 0 = 2 /\
    sumn n (fun k => U 1%nat k * U 1%nat k) = 1.
Proof. exact zero_diagonal_loses_variance. Qed.
Print Assumptions C36_conditional_covariance_refuted.

Theorem C36_routine_exists : exists qr, qr_routine qr.
Proof. exact qr_exists. Qed.
Print Assumptions C36_routine_exists.

Example C36_example :
  Spec_ConditionalDraws.lower_triangular 2 (of_rows ex_chol) /\
  (forall k, (k < 2)%nat -> of_rows ex_chol k k <> 0) /\ nth_error [1; 0] 0 = Some 1 /\
  error_covariance (gram 2 (of_rows ex_chol)) 0 (1 ^ 2) 1 1 (1 / 2) (1 / 2) = 3 / 2.
Proof.
  destruct ex_chol_lower as [A B]. split; [exact A|]. split; [exact B|]. split; [reflexivity|].
  destruct ex_chol_gram as [C [D E]]. unfold error_covariance. rewrite C, D, E. lra.
Qed.

(** ** C37 *)
Theorem C37_observed_wage : forall rc qr wages base c chol n_wages meas w s,
  cholesky_routine rc -> (c < n_wages)%nat -> (n_wages <= length wages)%nat ->
  nth_error wages c = Some s -> representable w -> representable s -> nth_error meas c = Some 0 ->
  gram (length wages) (of_rows chol) c c <> 0 -> ln w - ln s <= 460 ->
  exists draws ll,
    create_draws_and_log_prob_wages rc qr (log_wage (Some w)) wages base c chol n_wages meas false = Ok (draws, ll) /\
    length draws = length base /\
    forall d, In d draws -> length d = length wages /\ s * nth c d 0 = w.
Proof. exact observed_draws. Qed.
Print Assumptions C37_observed_wage.

Example C37_example :
  nth_error [1; 1] 0 = Some 1 /\ representable 1 /\ ln 1 - ln 1 <= 460 /\
  gram 2 (of_rows ex_chol) 0%nat 0%nat <> 0.
Proof.
  split; [reflexivity|]. split; [exact one_representable|]. split; [lra|].
  rewrite (proj1 ex_chol_gram). lra.
Qed.

(** ** C38 *)
Theorem C38_mixture_over_types : forall rc qr lk locate env n_types params x order_rows order_types data v cs,
  (2 <= n_types)%nat -> length params = n_types -> NoDup (map fst data) -> individuals data <> [] ->
  (forall l, Permutation (order_rows l) l) -> (forall l, Permutation (order_types l) l) ->
  (forall id p, In id (individuals data) -> In p (logits (type_indices params (x id))) -> - 10 ^ 200 <= ln p) ->
  log_like rc qr lk locate env n_types params x order_rows order_types data = Ok (v, cs) ->
  exists numbered,
    covers rc qr lk locate env n_types data numbered /\
    let contribution id := clip (- 10 ^ 200) (10 ^ 200)
       (ln (mixture (logits (type_indices params (x id))) (likelihood_of (map snd numbered) id))) in
    v = mean (map contribution (individuals data)) /\
    Permutation cs (flat_map (fun _ => map contribution (individuals data)) (seq 0 n_types)).
Proof. exact log_like_types. Qed.
Print Assumptions C38_mixture_over_types.

Theorem C38_one_type : forall rc qr lk locate env params x order_rows order_types data v cs,
  (forall l, Permutation (order_rows l) l) ->
  log_like rc qr lk locate env 1 params x order_rows order_types data = Ok (v, cs) ->
  exists numbered ids,
    covers rc qr lk locate env 1 data numbered /\
    NoDup ids /\ (forall id, In id ids <-> exists p ob, In ((id, p), ob) data) /\
    cs = map (fun id => clip (- 10 ^ 200) (10 ^ 200) (ln (likelihood_of (map snd numbered) id 0))) ids /\
    v = mean cs.
Proof. exact log_like_single. Qed.
Print Assumptions C38_one_type.

Theorem C38_type_probabilities : forall z,
  (z <> [] -> rsum (logits z) = 1) /\ (forall p, In p (logits z) -> 0 < p <= 1) /\ length (logits z) = length z.
Proof.
  intros z. split; [exact (logits_sum z)|]. split; [exact (logits_pos z)|].
  exact (eq_trans (map_length _ _) (seq_length _ _)).
Qed.
Print Assumptions C38_type_probabilities.

(** The contribution of the choice in each row: the smoothed probability with shocks drawn
    from their distribution given the observed wage. *)
Theorem C38_choice_contribution : forall rc qr lk cs wages nonpec cont base code wage i s sd lc lw,
  cholesky_routine rc -> qr_routine qr ->
  square (length cs) (lk_chol lk) -> Spec_Solve.lower_triangular (lk_chol lk) ->
  length wages = count_true cs -> length nonpec = count_true cs -> length cont = count_true cs ->
  nth_error (positions cs) i = Some code ->
  nth_error wages i = Some s -> nth_error (lk_meas lk) i = Some sd ->
  (forall w, wage = Some w -> representable w /\ representable s /\
     (i < count_true (firstn (lk_nwages lk) cs))%nat /\ restricted_cov (lk_chol lk) cs code code <> 0 /\
     if lk_has_meas lk
     then sd <> 0 /\ forall c, available cs c -> mat (lk_chol lk) c c <> 0
     else sd = 0) ->
  row_loglikes rc qr lk cs wages nonpec cont base code wage = Ok (lc, lw) ->
  exists mean U,
    conditional_distribution (lk_chol lk) cs i s sd wage mean U /\
    lc = clip (- 10 ^ 200) (10 ^ 200)
           (ln (smoothed_probability wages nonpec cont (lk_beta_delta lk)
                  (map (shocks_from (count_true cs) (count_true (firstn (lk_nwages lk) cs)) mean U) base)
                  (lk_tau lk) i)).
Proof. exact row_choice. Qed.
Print Assumptions C38_choice_contribution.

Theorem C38_succeeds : forall rc qr lk locate env n_types params x order_rows order_types data,
  (1 <= n_types)%nat -> length params = n_types -> lk_tau lk <> 0 -> (lk_nwages lk <= length (lk_meas lk))%nat ->
  (forall idx ob t, In (idx, ob) data -> (t < n_types)%nat ->
     exists k pos, locate idx ob t = Ok (k, pos) /\ evaluable lk env k pos ob) ->
  exists v cs, log_like rc qr lk locate env n_types params x order_rows order_types data = Ok (v, cs).
Proof. exact log_like_succeeds. Qed.
Print Assumptions C38_succeeds.

(** Two individuals, two types with probabilities which depend on the individual. *)
Example C38_example :
  NoDup (map fst ex_data) /\ individuals ex_data = [0; 1]%nat /\
  (forall id p, In id (individuals ex_data) -> In p (logits (type_indices ex_params (ex_x id))) -> - 10 ^ 200 <= ln p) /\
  exists v cs, log_like cholesky lazy_qr ex_lk ex_locate ex_env 2 ex_params ex_x (fun l => l) (fun l => l) ex_data = Ok (v, cs).
Proof.
  split; [exact ex_unique|]. split; [reflexivity|]. split; [exact ex_probabilities|].
  apply log_like_succeeds; try reflexivity; try (cbn; lia); [cbn; lra|exact ex_evaluable].
Qed.

(** ** C67 *)
Theorem C67_each_contribution_is_repeated : forall rc qr lk locate env n_types params x order_rows order_types data v cs,
  (2 <= n_types)%nat -> length params = n_types -> NoDup (map fst data) -> individuals data <> [] ->
  (forall l, Permutation (order_rows l) l) -> (forall l, Permutation (order_types l) l) ->
  (forall id p, In id (individuals data) -> In p (logits (type_indices params (x id))) -> - 10 ^ 200 <= ln p) ->
  log_like rc qr lk locate env n_types params x order_rows order_types data = Ok (v, cs) ->
  length cs = (n_types * length (individuals data))%nat /\
  exists contribution, v = mean (map contribution (individuals data)) /\
    Permutation cs (flat_map (fun _ => map contribution (individuals data)) (seq 0 n_types)).
Proof. exact repeated_contributions. Qed.
Print Assumptions C67_each_contribution_is_repeated.

Theorem C67_one_contribution_per_individual_refuted :
  exists lk locate env params x data,
    NoDup (map fst data) /\ length (individuals data) = 2%nat /\
    exists v cs, log_like cholesky lazy_qr lk locate env 2 params x (fun l => l) (fun l => l) data = Ok (v, cs) /\
      length cs = 4%nat.
Proof. exact four_contributions. Qed.
Print Assumptions C67_one_contribution_per_individual_refuted.

(** ** C68 *)
Theorem C68_wage_with_a_choice_without_wage : forall rc qr wages base c chol n_wages meas has w s sd,
  nth_error wages c = Some s -> nth_error meas c = Some sd -> (n_wages <= c)%nat ->
  representable w -> representable s -> 0 < gram (length wages) (of_rows chol) c c + sd ^ 2 ->
  (c = n_wages -> exists draws ll,
     create_draws_and_log_prob_wages rc qr (log_wage (Some w)) wages base c chol n_wages meas has = Ok (draws, ll) /\
     exp ll = lognormal_density (ln s) (gram (length wages) (of_rows chol) c c + sd ^ 2) w) /\
  (c <> n_wages ->
     create_draws_and_log_prob_wages rc qr (log_wage (Some w)) wages base c chol n_wages meas has = IndexError).
Proof. exact wage_accepted. Qed.
Print Assumptions C68_wage_with_a_choice_without_wage.

Example C68_example :
  nth_error [1; 1] 1 = Some 1 /\ nth_error [0; 0] 1 = Some 0 /\ (1 <= 1)%nat /\ representable 1 /\
  0 < gram 2 (of_rows ex_chol) 1%nat 1%nat + 0 ^ 2.
Proof.
  split; [reflexivity|]. split; [reflexivity|]. split; [lia|]. split; [exact one_representable|].
  destruct ex_chol_gram as [_ [_ C]]. rewrite C. lra.
Qed.
