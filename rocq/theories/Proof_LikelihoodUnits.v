(** Proofs about the likelihood of data whose wages are in other units. *)
From Coq Require Import List Arith Bool Reals Lra Lia Sorting.Permutation Sorting.Sorted.
From Verif Require Import Base Proof_Base Model_CoreStateSpace Model_StateSpace Proof_StateSpace
  Model_Parallel Model_Solve Spec_Solve Proof_Solve
  Model_ConditionalDraws Spec_ConditionalDraws Proof_Matrix Proof_ConditionalDraws
  Model_Likelihood Spec_Likelihood Proof_Likelihood Proof_LikelihoodRows Proof_LikelihoodChoice Proof_LikelihoodPanel
  Spec_Simulate Model_Simulate Spec_Units Proof_Units Spec_LikelihoodUnits.
Import ListNotations.
Open Scope R_scope.

(** ** Triangular factors of definite matrices *)
Definition definite (n : nat) (A : matrix) : Prop :=
  forall x, form n A x = 0 -> forall i, (i < n)%nat -> x i = 0.

Lemma form_gram : forall n m L x, form n (gram m L) x = sumn m (fun k => sumn n (fun i => L i k * x i) * sumn n (fun i => L i k * x i)).
Proof.
  intros n m L x. unfold form, gram. symmetry.
  rewrite (sumn_ext m _ (fun k => sumn n (fun i => sumn n (fun j => L i k * x i * (L j k * x j))))).
  - rewrite sumn_swap. apply sumn_ext. intros i _. rewrite sumn_swap. apply sumn_ext. intros j _.
    rewrite (sumn_ext m _ (fun k => (x i * x j) * (L i k * L j k))) by (intros; lra). rewrite sumn_scal. lra.
  - intros k _. rewrite <- sumn_scal_r. apply sumn_ext. intros i _. rewrite <- sumn_scal. apply sumn_ext. intros; lra.
Qed.

Lemma form_ext : forall n A B x, mat_eq n A B -> form n A x = form n B x.
Proof. intros n A B x H. unfold form. apply sumn_ext. intros i Hi. apply sumn_ext. intros j Hj. rewrite H by assumption. reflexivity. Qed.

Lemma gram_definite : forall n L, Spec_ConditionalDraws.lower_triangular n L -> (forall k, (k < n)%nat -> L k k <> 0) ->
  definite n (gram n L).
Proof.
  intros n L LT LD x H. rewrite form_gram in H.
  pose proof (sum_sqr_zero n _ H) as Z. cbn beta in Z.
  apply (upper_kernel_zero n (fun k i => L i k)); [|exact LD|exact Z].
  intros i j Hi Hj. apply LT; lia.
Qed.

Lemma schur_definite : forall n i A, (i <= n)%nat -> symmetric (S n) A -> A i i <> 0 -> definite (S n) A ->
  definite n (updated_reduced_cov A i).
Proof.
  intros n i A Hi Sy N D x H.
  set (s := sumn n (fun k => A i (skip i k) * x k)).
  assert (E : form (S n) A (glue i (- s / A i i) x) = 0).
  { rewrite form_glue by assumption. fold s.
    assert (F : form n (updated_reduced_cov A i) x = form n (fun a b => A (skip i a) (skip i b)) x - s * s / A i i).
    { unfold form, updated_reduced_cov.
      rewrite (sumn_ext n (fun a => sumn n (fun j => x a *
          (A (skip i a) (skip i j) - A i (skip i a) * A i (skip i j) / A i i) * x j))
        (fun a => sumn n (fun j => x a * A (skip i a) (skip i j) * x j)
                  - (s / A i i) * (A i (skip i a) * x a))).
      + rewrite sumn_minus, sumn_scal. fold s. unfold Rdiv. lra.
      + intros a Ha.
        rewrite (sumn_ext n (fun j => x a * (A (skip i a) (skip i j) - A i (skip i a) * A i (skip i j) / A i i) * x j)
          (fun j => x a * A (skip i a) (skip i j) * x j
                    - (A i (skip i a) * x a / A i i) * (A i (skip i j) * x j)))
          by (intros; unfold Rdiv; lra).
        rewrite sumn_minus, sumn_scal. fold s. unfold Rdiv. lra. }
    rewrite F in H.
    replace (- s / A i i * A i i * (- s / A i i) + 2 * (- s / A i i) * s) with (- (s * s / A i i)) by (field; exact N). lra. }
  intros k Hk. pose proof (D _ E (skip i k) (skip_lt n i k Hi Hk)) as Z. unfold glue in Z. rewrite unskip_skip in Z. exact Z.
Qed.

Lemma factor_diagonal : forall n F A, factor n F A -> definite n A -> forall k, (k < n)%nat -> F k k <> 0.
Proof.
  intros n F A [LT E] D k Hk Z.
  destruct (triangular_kernel n (fun i j => F j i) k Hk) as [x [[j [Hj Xj]] Hx]]; [|exact Z|].
  - intros a b Ha Hb. apply LT; lia.
  - apply Xj. apply (D x); [|exact Hj]. rewrite <- (form_ext n (gram n F) A x E), form_gram.
    apply sumn_zero'. intros i Hi. rewrite (Hx i Hi). lra.
Qed.

Lemma positive_root_unique : forall a b, 0 < a -> 0 < b -> a * a = b * b -> a = b.
Proof. intros a b Ha Hb H. assert ((a - b) * (a + b) = 0) by lra. apply Rmult_integral in H0. lra. Qed.

Lemma factor_unique : forall n L M, Spec_ConditionalDraws.lower_triangular n L -> Spec_ConditionalDraws.lower_triangular n M ->
  (forall k, (k < n)%nat -> 0 < L k k) -> (forall k, (k < n)%nat -> 0 < M k k) ->
  mat_eq n (gram n L) (gram n M) -> mat_eq n L M.
Proof.
  intros n L M LL LM DL DM E.
  assert (T : forall (X : matrix) i j, Spec_ConditionalDraws.lower_triangular n X -> (i < n)%nat -> (j < n)%nat ->
     gram n X i j = sumn j (fun k => X i k * X j k) + X i j * X j j).
  { intros X i j LX Hi Hj. unfold gram. rewrite (sumn_truncate _ n (S j)); [reflexivity|lia|].
    intros k H1 H2. rewrite (LX j k) by lia. lra. }
  assert (C : forall j, (j < n)%nat -> forall i, (i < n)%nat -> L i j = M i j).
  { intros j. induction j as [j IH] using lt_wf_ind. intros Hj.
    assert (S : forall i, (i < n)%nat -> L i j * L j j = M i j * M j j).
    { intros i Hi. pose proof (E i j Hi Hj) as Eij. rewrite !T in Eij by assumption.
      rewrite (sumn_ext j (fun k => L i k * L j k) (fun k => M i k * M j k)) in Eij; [lra|].
      intros k Hk. rewrite !(IH k) by lia. reflexivity. }
    assert (D : L j j = M j j) by (apply positive_root_unique; [apply DL; exact Hj|apply DM; exact Hj|apply S; exact Hj]).
    intros i Hi. specialize (S i Hi). rewrite <- D in S. pose proof (DL j Hj). apply (Rmult_eq_reg_r (L j j)); [exact S|lra]. }
  intros i j Hi Hj. apply C; assumption.
Qed.

(** A change of units of the shocks. *)
Lemma gram_scaled : forall n (d : nat -> R) (L L' : matrix), (forall a b, (a < n)%nat -> (b < n)%nat -> L' a b = d a * L a b) ->
  forall a b, (a < n)%nat -> (b < n)%nat -> gram n L' a b = d a * d b * gram n L a b.
Proof.
  intros n d L L' H a b Ha Hb. unfold gram. rewrite <- sumn_scal. apply sumn_ext. intros k Hk. rewrite !H by assumption. lra.
Qed.

Lemma factor_scaled : forall n (d : nat -> R) (F F' A A' : matrix),
  (forall a, (a < n)%nat -> 0 < d a) -> factor n F A -> factor n F' A' ->
  (forall k, (k < n)%nat -> 0 < F k k) -> (forall k, (k < n)%nat -> 0 < F' k k) ->
  (forall a b, (a < n)%nat -> (b < n)%nat -> A' a b = d a * d b * A a b) ->
  forall a b, (a < n)%nat -> (b < n)%nat -> F' a b = d a * F a b.
Proof.
  intros n d F F' A A' Hd [LF EF] [LF' EF'] DF DF' HA.
  assert (U : mat_eq n F' (fun a b => d a * F a b)).
  { apply factor_unique; [exact LF'| |exact DF'| |].
    - intros a b Ha Hb Hab. rewrite (LF a b) by assumption. lra.
    - intros k Hk. apply Rmult_lt_0_compat; [apply Hd|apply DF]; exact Hk.
    - intros a b Ha Hb. rewrite (gram_scaled n d F (fun a b => d a * F a b)) by (try assumption; reflexivity).
      unfold gram. rewrite (EF' a b Ha Hb), (EF a b Ha Hb). apply HA; assumption. }
  exact U.
Qed.

(** The factor of the conditional covariance in other units. *)
Lemma cholcov_scaled : forall rc n nw (d : nat -> R) L L' i U U',
  usual_cholesky rc -> (i < nw)%nat -> (nw <= n)%nat -> (forall a, (a < n)%nat -> 0 < d a) -> d i = 1 ->
  Spec_ConditionalDraws.lower_triangular n L -> (forall k, (k < n)%nat -> L k k <> 0) ->
  (forall a b, (a < n)%nat -> (b < n)%nat -> L' a b = d a * L a b) ->
  update_cholcov rc n nw L i = Ok U -> update_cholcov rc n nw L' i = Ok U' ->
  forall a b, (a < n)%nat -> (b < n)%nat -> U' a b = d a * U a b.
Proof.
  intros rc n nw d L L' i U U' [RC RP] Hi Hn Hd Di LT LD HL E E'.
  unfold update_cholcov in E, E'. rewrite (proj2 (Nat.ltb_lt i nw) Hi) in E, E'. injection E as <-. injection E' as <-.
  destruct n as [|n]; [lia|]. replace (S n - 1)%nat with n by lia. assert (Hi' : (i <= n)%nat) by lia.
  pose proof (gram_scaled (S n) d L L' HL) as HG.
  assert (LT' : Spec_ConditionalDraws.lower_triangular (S n) L').
  { intros a b Ha Hb Hab. rewrite HL, (LT a b) by assumption. lra. }
  assert (LD' : forall k, (k < S n)%nat -> L' k k <> 0).
  { intros k Hk. rewrite HL by assumption. apply Rmult_integral_contrapositive_currified; [pose proof (Hd k Hk); lra|apply LD; exact Hk]. }
  assert (P : forall X, Spec_ConditionalDraws.lower_triangular (S n) X -> (forall k, (k < S n)%nat -> X k k <> 0) ->
     factor n (rc n (updated_reduced_cov (gram (S n) X) i)) (updated_reduced_cov (gram (S n) X) i) /\
     (forall k, (k < n)%nat -> 0 < rc n (updated_reduced_cov (gram (S n) X) i) k k) /\ gram (S n) X i i <> 0).
  { intros X LX DX.
    assert (N : gram (S n) X i i <> 0).
    { intros Z. pose proof (sum_sqr_zero (S n) (fun k => X i k) Z i ltac:(lia)) as Q. cbn beta in Q. apply (DX i); [lia|exact Q]. }
    pose proof (gram_symmetric (S n) (S n) X) as Sy. pose proof (gram_psd (S n) (S n) X) as Ps.
    pose proof (schur_symmetric n i _ Hi' Sy) as Sy1. pose proof (schur_psd n i _ Hi' Sy Ps N) as Ps1.
    pose proof (RC n _ Sy1 Ps1) as F. split; [exact F|]. split; [|exact N].
    pose proof (factor_diagonal n _ _ F (schur_definite n i _ Hi' Sy N (gram_definite (S n) X LX DX))) as NZ.
    intros k Hk. pose proof (RP n _ k Sy1 Ps1 Hk). pose proof (NZ k Hk). lra. }
  destruct (P L LT LD) as [F [DF N]]. destruct (P L' LT' LD') as [F' [DF' N']].
  pose proof (factor_scaled n (fun a => d (skip i a)) _ _ _ _ (fun a Ha => Hd (skip i a) (skip_lt n i a Hi' Ha)) F F' DF DF') as Q.
  intros a b Ha Hb.
  destruct (Nat.eq_dec a i) as [->|Na]; [rewrite !insert_zero_row; lra|].
  destruct (Nat.eq_dec b i) as [->|Nb]; [rewrite !insert_zero_col; lra|].
  destruct (unskip_cases n i a Ha Hi' Na) as [a' [-> Ha']].
  destruct (unskip_cases n i b Hb Hi' Nb) as [b' [-> Hb']].
  rewrite !insert_zero_skip. apply Q; [|assumption|assumption].
  intros a1 b1 Ha1 Hb1. unfold updated_reduced_cov.
  pose proof (skip_lt n i a1 Hi' Ha1) as Sa. pose proof (skip_lt n i b1 Hi' Hb1) as Sb.
  rewrite !HG by (assumption || lia). rewrite Di. field. exact N.
Qed.

Lemma kalman_scaled : forall qr n nw (d : nat -> R) L L' meas sd i U U',
  qr_routine qr -> (i < nw)%nat -> (nw <= n)%nat -> (forall a, (a < n)%nat -> 0 < d a) -> d i = 1 ->
  nth_error meas i = Some sd -> sd <> 0 ->
  Spec_ConditionalDraws.lower_triangular n L -> (forall k, (k < n)%nat -> L k k <> 0) ->
  (forall a b, (a < n)%nat -> (b < n)%nat -> L' a b = d a * L a b) ->
  update_cholcov_with_measurement_error qr n nw L meas i = Ok U ->
  update_cholcov_with_measurement_error qr n nw L' meas i = Ok U' ->
  forall a b, (a < n)%nat -> (b < n)%nat -> U' a b = d a * U a b.
Proof.
  intros qr n nw d L L' meas sd i U U' Q Hi Hn Hd Di Hm NZ LT LD HL E E'.
  pose proof (gram_scaled n d L L' HL) as HG.
  assert (LT' : Spec_ConditionalDraws.lower_triangular n L').
  { intros a b Ha Hb Hab. rewrite HL, (LT a b) by assumption. lra. }
  assert (LD' : forall k, (k < n)%nat -> L' k k <> 0).
  { intros k Hk. rewrite HL by assumption. apply Rmult_integral_contrapositive_currified; [pose proof (Hd k Hk); lra|apply LD; exact Hk]. }
  destruct (kalman_regular qr n nw L meas sd i Q Hi Hn Hm NZ LT LD) as [V [EV [LV [DV SV]]]].
  destruct (kalman_regular qr n nw L' meas sd i Q Hi Hn Hm NZ LT' LD') as [V' [EV' [LV' [DV' SV']]]].
  rewrite EV in E. injection E as <-. rewrite EV' in E'. injection E' as <-.
  assert (Vp : 0 < gram n L i i + sd ^ 2).
  { pose proof (psd_diag n (gram n L) i ltac:(lia) (gram_symmetric n n L) (gram_psd n n L)) as P.
    assert (0 < sd ^ 2) by (simpl; rewrite Rmult_1_r; apply Rsqr_pos_lt; exact NZ). lra. }
  assert (Gi : gram n L' i i = gram n L i i) by (rewrite HG, Di by lia; lra).
  set (b0 := fun a => gram n L a i / (gram n L i i + sd ^ 2)).
  assert (P0 : forall a, prediction_coefficient (gram n L) i (sd ^ 2) a (b0 a)).
  { intros a. unfold prediction_coefficient, b0. field. lra. }
  assert (P1 : forall a, (a < n)%nat -> prediction_coefficient (gram n L') i (sd ^ 2) a (d a * b0 a)).
  { intros a Ha. unfold prediction_coefficient, b0. rewrite Gi, HG, Di by (assumption || lia). field. lra. }
  apply (factor_scaled n d V V' (gram n V) (gram n V') Hd); [split; [exact LV|intros a b _ _; reflexivity]|split; [exact LV'|intros a b _ _; reflexivity]|exact DV|exact DV'|].
  intros a b Ha Hb. unfold gram at 1 2.
  rewrite (SV a b (b0 a) (b0 b) Ha Hb (P0 a) (P0 b)), (SV' a b _ _ Ha Hb (P1 a Ha) (P1 b Hb)).
  unfold error_covariance. rewrite Gi, !HG, Di by (assumption || lia). ring.
Qed.

(** ** One observation *)
Definition unit_factor (lam : R) (nw a : nat) : R := if Nat.ltb a nw then 1 else lam.

Lemma draw_scaled : forall lam n nw mean mean' U U' b,
  (forall a, (a < n)%nat -> mean' a = unit_factor lam nw a * mean a) ->
  (forall a c, (a < n)%nat -> (c < n)%nat -> U' a c = unit_factor lam nw a * U a c) ->
  forall j, nth j (conditional_draw n nw mean' U' b) 0 = unit_factor lam nw j * nth j (conditional_draw n nw mean U b) 0.
Proof.
  intros lam n nw mean mean' U U' b HM HU j. destruct (Nat.lt_ge_cases j n) as [Hj|Hj].
  2:{ rewrite !nth_overflow by (unfold conditional_draw; rewrite map_length, seq_length; exact Hj). lra. }
  unfold conditional_draw. rewrite !nth_map_seq by exact Hj. rewrite !fold_left_sumn.
  assert (E : mean' j + sumn (S j) (fun k => nth k b 0 * U' j k) = unit_factor lam nw j * (mean j + sumn (S j) (fun k => nth k b 0 * U j k))).
  { rewrite (sumn_ext (S j) _ (fun k => unit_factor lam nw j * (nth k b 0 * U j k))) by (intros; rewrite HU by lia; lra).
    rewrite sumn_scal, HM by exact Hj. lra. }
  rewrite E. unfold unit_factor. destruct (Nat.ltb j nw); [|reflexivity]. rewrite !Rmult_1_l. reflexivity.
Qed.

Lemma sorted_prefix : forall l n a c, StronglySorted lt l -> nth_error l a = Some c ->
  Nat.ltb c n = Nat.ltb a (length (filter (fun x => Nat.ltb x n) l)).
Proof.
  induction l as [|x l IH]; intros n a c S H; [destruct a; discriminate|]. inversion S as [|? ? S' F]; subst. cbn [filter].
  rewrite Forall_forall in F.
  destruct a as [|a]; cbn [nth_error] in H.
  - injection H as <-. destruct (Nat.ltb_spec x n) as [Hx|Hx]; cbn [length]; [symmetry; apply Nat.ltb_lt; lia|].
    assert (Z : filter (fun y => Nat.ltb y n) l = []).
    { clear - F Hx. induction l as [|y l IH]; [reflexivity|]. cbn [filter].
      pose proof (F y (or_introl eq_refl)) as Fy. rewrite (proj2 (Nat.ltb_ge y n)) by lia. apply IH. intros z Hz. apply F. right. exact Hz. }
    rewrite Z. reflexivity.
  - rewrite (IH n a c S' H). destruct (Nat.ltb_spec x n) as [Hx|Hx]; cbn [length]; [reflexivity|].
    assert (Z : filter (fun y => Nat.ltb y n) l = []).
    { clear - F Hx. induction l as [|y l IH]; [reflexivity|]. cbn [filter].
      pose proof (F y (or_introl eq_refl)) as Fy. rewrite (proj2 (Nat.ltb_ge y n)) by lia. apply IH. intros z Hz. apply F. right. exact Hz. }
    rewrite Z. destruct a; reflexivity.
Qed.

Lemma wage_positions : forall cs nw a c, (nw <= length cs)%nat -> nth_error (positions cs) a = Some c ->
  Nat.ltb c nw = Nat.ltb a (length (select_valid_choices (seq 0 nw) cs)).
Proof.
  intros cs nw a c H1 H. rewrite select_valid_filter by exact H1. apply sorted_prefix; [apply positions_sorted|exact H].
Qed.

Lemma density_scaled : forall lam s v w, 0 < lam -> 0 < s -> 0 < w -> 0 < v ->
  ln (lognormal_density (ln (lam * s)) v (lam * w)) = ln (lognormal_density (ln s) v w) - ln lam.
Proof.
  intros lam s v w Hl Hs Hw Hv.
  assert (E' : forall m y, 0 < y -> ln (lognormal_density m v y) = - ln (2 * PI) / 2 - ln y - ln v / 2 - (ln y - m) ^ 2 / (2 * v)).
  { intros m y Hy. rewrite <- (exp_ln y Hy) at 1. rewrite ln_density by exact Hv. reflexivity. }
  assert (0 < lam * w) by (apply Rmult_lt_0_compat; assumption).
  rewrite !E' by assumption. rewrite (ln_mult lam w), (ln_mult lam s) by assumption.
  replace (ln lam + ln w - (ln lam + ln s)) with (ln w - ln s) by lra. lra.
Qed.

Definition wage_change (lam : R) (wage : option R) : R := match wage with Some _ => ln lam | None => 0 end.

Lemma row_scaled : forall rc qr lam lk lk' cs wages wages' nonpec nonpec' cont cont' base code wage lc lw lc' lw',
  usual_cholesky rc -> qr_routine qr -> 0 < lam -> spec_scaled lam lk lk' ->
  regular_shocks lk cs -> square (length cs) (lk_chol lk') ->
  available cs code -> (wage = None \/ (code < lk_nwages lk)%nat) -> length cs = length (lk_meas lk) ->
  length wages = count_true cs -> length wages' = length wages ->
  (forall j c, nth_error (positions cs) j = Some c -> nth j wages' 0 = (if Nat.ltb c (lk_nwages lk) then lam else 1) * nth j wages 0) ->
  (forall j, nth j nonpec' 0 = lam * nth j nonpec 0) -> (forall j, nth j cont' 0 = lam * nth j cont 0) ->
  length nonpec' = length nonpec -> length cont' = length cont ->
  (forall w i s sd, wage = Some w -> nth_error (positions cs) i = Some code ->
    nth_error wages i = Some s -> nth_error (lk_meas lk) i = Some sd ->
    representable w /\ representable (lam * w) /\ representable s /\ representable (lam * s) /\
    let l := ln (lognormal_density (ln s) (restricted_cov (lk_chol lk) cs code code + sd ^ 2) w) in
    - 10 ^ 200 <= l <= 10 ^ 200 /\ - 10 ^ 200 <= l - ln lam <= 10 ^ 200) ->
  row_loglikes rc qr lk cs wages nonpec cont base code wage = Ok (lc, lw) ->
  row_loglikes rc qr lk' cs wages' nonpec' cont' base code (option_map (Rmult lam) wage) = Ok (lc', lw') ->
  lc' = lc /\ lw' = lw - wage_change lam wage.
Proof.
  intros rc qr lam lk lk' cs wages wages' nonpec nonpec' cont cont' base code wage lc lw lc' lw'
    RC QR Hl [S1 [S2 [S3 [S4 [S5 S6]]]]] [Nc [Sq [Lt [LD Me]]]] Sq' Av Wn Lm Lw Lw' HW HN HC LN LC MO H H'.
  destruct (map_choice_available cs code Av) as [i [Mi Hi]].
  assert (Hin : (i < count_true cs)%nat) by (rewrite <- length_positions; apply nth_error_Some; rewrite Hi; discriminate).
  destruct (nth_error wages i) as [s|] eqn:Es; [|apply nth_error_None in Es; lia].
  assert (Lp : (count_true cs <= length cs)%nat).
  { clear. unfold count_true. induction cs as [|b cs IH]; [reflexivity|]. cbn [filter]. destruct b; cbn [length]; lia. }
  destruct (nth_error (lk_meas lk) i) as [sd|] eqn:Em; [|apply nth_error_None in Em; lia].
  set (nw := length (select_valid_choices (seq 0 (lk_nwages lk)) cs)) in *.
  assert (WP : forall a c, nth_error (positions cs) a = Some c -> Nat.ltb c (lk_nwages lk) = Nat.ltb a nw).
  { intros a c Hac. apply wage_positions; assumption. }
  assert (Nw : (nw <= count_true cs)%nat).
  { unfold nw. rewrite select_valid_filter by exact Nc. rewrite <- length_positions. generalize (positions cs). clear. induction l as [|x l IH]; [reflexivity|].
    cbn [filter]. destruct (Nat.ltb x (lk_nwages lk)); cbn [length]; lia. }
  set (n := count_true cs) in *.
  set (L := of_rows (subset_cholesky (lk_chol lk) cs)). set (L' := of_rows (subset_cholesky (lk_chol lk') cs)).
  set (d := unit_factor lam nw).
  assert (Hd : forall a, (a < n)%nat -> 0 < d a) by (intros a _; unfold d, unit_factor; destruct (Nat.ltb a nw); lra).
  assert (HL : forall a b, (a < n)%nat -> (b < n)%nat -> L' a b = d a * L a b).
  { intros a b Ha Hb. unfold L, L'.
    rewrite (subset_entry (lk_chol lk) cs a b _ _ Sq (positions_nth cs a Ha) (positions_nth cs b Hb)).
    rewrite (subset_entry (lk_chol lk') cs a b _ _ Sq' (positions_nth cs a Ha) (positions_nth cs b Hb)).
    rewrite S6, (WP a _ (positions_nth cs a Ha)). reflexivity. }
  assert (LT : Spec_ConditionalDraws.lower_triangular n L) by (apply subset_lower; assumption).
  assert (Ld : forall k, (k < n)%nat -> L k k <> 0).
  { intros k Hk. unfold L. rewrite (subset_entry (lk_chol lk) cs k k _ _ Sq (positions_nth cs k Hk) (positions_nth cs k Hk)).
    apply LD. apply In_positions. apply nth_In. rewrite length_positions. exact Hk. }
  pose proof (gram_scaled n d L L' HL) as HG.
  (* the draws determine the contribution of the choice *)
  assert (Fin : forall mean mean' U U', (forall a, (a < n)%nat -> mean' a = d a * mean a) ->
     (forall a b, (a < n)%nat -> (b < n)%nat -> U' a b = d a * U a b) ->
     simulate_log_probability wages' nonpec' cont' (map (conditional_draw n nw mean' U') base) (lk_beta_delta lk') i (lk_tau lk') =
     simulate_log_probability wages nonpec cont (map (conditional_draw n nw mean U) base) (lk_beta_delta lk) i (lk_tau lk)).
  { intros mean mean' U U' HM HU. rewrite S4, S5. apply probability_scaled; [exact Hl|].
    split; [exact Lw'|]. split; [exact LN|]. split; [exact LC|]. split; [exact HN|]. split; [exact HC|].
    clear - HM HU HW WP Lw Lw'. induction base as [|b base IH]; [constructor|]. cbn [map]. constructor; [|exact IH].
    split; [unfold conditional_draw; rewrite !map_length; reflexivity|]. intros j. fold d in HM, HU.
    rewrite (draw_scaled lam n nw mean mean' U U' b HM HU j).
    destruct (Nat.lt_ge_cases j n) as [Hj|Hj].
    - rewrite (HW j _ (positions_nth cs j Hj)), (WP j _ (positions_nth cs j Hj)). unfold unit_factor. destruct (Nat.ltb j nw); lra.
    - rewrite (nth_overflow wages') by (rewrite Lw', Lw; exact Hj). rewrite (nth_overflow wages) by (rewrite Lw; exact Hj). lra. }
  destruct wage as [w|].
  - (* an observed wage *)
    destruct Wn as [Wn|Wn]; [discriminate|].
    destruct (MO w i s sd eq_refl Hi Es Em) as [Rw [Rw' [Rs [Rs' [D1 D2]]]]].
    assert (Hnw : (i < nw)%nat) by (apply Nat.ltb_lt; rewrite <- (WP i code Hi); apply Nat.ltb_lt; exact Wn).
    assert (Di : d i = 1) by (unfold d, unit_factor; rewrite (proj2 (Nat.ltb_lt i nw) Hnw); reflexivity).
    assert (Es' : nth_error wages' i = Some (lam * s)).
    { rewrite (nth_error_nth' wages' 0) by (rewrite Lw', Lw; exact Hin). rewrite (HW i code Hi).
      rewrite (proj2 (Nat.ltb_lt code (lk_nwages lk)) Wn). rewrite (nth_error_nth _ _ 0 Es). reflexivity. }
    assert (Gi : gram n L i i = restricted_cov (lk_chol lk) cs code code) by (apply restricted_gram; assumption).
    assert (Gi' : gram n L' i i = gram n L i i) by (rewrite HG, Di by assumption; lra).
    assert (Gp : 0 < gram n L i i).
    { assert (0 <= gram n L i i) by (unfold gram; apply sumn_nonneg; intros k _; apply Rle_0_sqr).
      assert (gram n L i i <> 0); [|lra].
      intros Z. pose proof (sum_sqr_zero n (fun k => L i k) Z i Hin) as Q. apply (Ld i Hin). exact Q. }
    assert (Vp : 0 < gram n L i i + sd ^ 2) by (pose proof (pow2_ge_0 sd); lra).
    split.
    + clear D1 D2. unfold row_loglikes in H, H'. rewrite Mi in H, H'. cbn [result_bind] in H, H'.
      rewrite S1 in H'. fold nw in H, H'.
      unfold create_draws_and_log_prob_wages in H, H'. rewrite Es in H. rewrite Es' in H'. rewrite Lw', Lw in H'. rewrite Lw in H. fold n in H, H'. fold L in H. fold L' in H'.
      cbn [log_wage option_map update_mean_and_evaluate_likelihood] in H, H'. rewrite S2, S3, Em in H'. rewrite Em in H. cbn [result_bind fst snd] in H, H'.
      rewrite (representable_clip w Rw), (representable_clip s Rs) in H. rewrite (representable_clip _ Rw'), (representable_clip _ Rs') in H'.
      set (mean := fun a => gram n L i a * (ln w - ln s) / (gram n L i i + sd ^ 2)) in *.
      set (mean' := fun a => gram n L' i a * (ln (lam * w) - ln (lam * s)) / (gram n L' i i + sd ^ 2)) in *.
      assert (HM : forall a, (a < n)%nat -> mean' a = d a * mean a).
      { intros a Ha. unfold mean, mean'. rewrite Gi', HG, Di by assumption. pose proof (representable_pos _ Rw). pose proof (representable_pos _ Rs).
        rewrite !ln_mult by assumption. field. lra. }
      destruct (if lk_has_meas lk then update_cholcov_with_measurement_error qr n nw L (lk_meas lk) i
                else update_cholcov rc n nw L i) as [U| | | | |] eqn:EU; try discriminate.
      destruct (if lk_has_meas lk then update_cholcov_with_measurement_error qr n nw L' (lk_meas lk) i
                else update_cholcov rc n nw L' i) as [U'| | | | |] eqn:EU'; try discriminate.
      cbn [result_bind fst snd] in H, H'.
      assert (HU : forall a b, (a < n)%nat -> (b < n)%nat -> U' a b = d a * U a b).
      { destruct (lk_has_meas lk) eqn:Eh.
        - assert (NZ : sd <> 0).
          { pose proof (Me eq_refl i) as M. rewrite (nth_error_nth _ _ 0 Em) in M. apply M.
            assert (i <= code)%nat; [|lia]. clear - Hi. pose proof (positions_sorted cs) as So. revert i Hi.
            assert (G : forall l k i c, StronglySorted lt l -> (forall x, In x l -> (k <= x)%nat) -> nth_error l i = Some c -> (k + i <= c)%nat).
            { induction l as [|x l IH]; intros k i c SS B E; [destruct i; discriminate|]. inversion SS as [|? ? SS' F]; subst.
              destruct i as [|i]; cbn in E; [injection E as <-; pose proof (B x (or_introl eq_refl)); lia|].
              rewrite Forall_forall in F. specialize (IH (S k) i c SS'). 
              assert (S k + i <= c)%nat; [apply IH; [|exact E]|lia]. intros y Hy. pose proof (F y Hy). pose proof (B x (or_introl eq_refl)). lia. }
            intros i Hi. apply (G _ 0%nat i code So (fun x _ => Nat.le_0_l x) Hi). }
          exact (kalman_scaled qr n nw d L L' (lk_meas lk) sd i U U' QR Hnw Nw Hd Di Em NZ LT Ld HL EU EU').
        - exact (cholcov_scaled rc n nw d L L' i U U' RC Hnw Nw Hd Di LT Ld HL EU EU'). }
      rewrite (Fin mean mean' U U' HM HU) in H'.
      destruct (simulate_log_probability wages nonpec cont _ _ _ _) as [lp| | | | |]; try discriminate.
      cbn [result_bind] in H, H'. injection H as <- _. injection H' as <- _. reflexivity.
    + cbn [option_map] in H'.
      assert (Gi2 : restricted_cov (lk_chol lk') cs code code = restricted_cov (lk_chol lk) cs code code).
      { rewrite <- Gi, <- Gi'. symmetry. apply restricted_gram; assumption. }
      rewrite Gi in Vp. pose proof (row_density rc qr lk cs wages nonpec cont base code w i s sd lc lw Sq Lw Hi Es Rw Rs Em Vp H) as E.
      pose proof Em as Em'. rewrite <- S2 in Em'. pose proof Vp as Vp'. rewrite <- Gi2 in Vp'.
      pose proof (row_density rc qr lk' cs wages' nonpec' cont' base code (lam * w) i (lam * s) sd lc' lw' Sq' (eq_trans Lw' Lw) Hi Es' Rw' Rs' Em' Vp' H') as E'.
      rewrite Gi2, density_scaled in E' by (try assumption; apply representable_pos; assumption).
      rewrite E, E'. cbn [wage_change]. rewrite !clip_id by assumption. reflexivity.
  - (* no observed wage *)
    cbn [option_map] in H'. unfold row_loglikes in H, H'. rewrite Mi in H, H'. cbn [result_bind] in H, H'.
    rewrite S1 in H'. fold nw in H, H'.
    assert (Es' : exists s', nth_error wages' i = Some s').
    { destruct (nth_error wages' i) eqn:X; [eauto|]. apply nth_error_None in X. lia. }
    destruct Es' as [s' Es'].
    unfold create_draws_and_log_prob_wages in H, H'. rewrite Es in H. rewrite Es' in H'. rewrite Lw', Lw in H'. rewrite Lw in H. fold n in H, H'. fold L in H. fold L' in H'.
    cbn [log_wage option_map update_mean_and_evaluate_likelihood result_bind fst snd] in H, H'.
    unfold update_cholcov, update_cholcov_with_measurement_error in H, H'. rewrite Nat.ltb_irrefl, Nat.eqb_refl in H, H'. rewrite S3 in H'.
    assert (EO : (if lk_has_meas lk then Ok L else Ok L) = Ok L) by (destruct (lk_has_meas lk); reflexivity).
    assert (EO' : (if lk_has_meas lk then Ok L' else Ok L') = Ok L') by (destruct (lk_has_meas lk); reflexivity).
    rewrite EO in H. rewrite EO' in H'. cbn [result_bind fst snd] in H, H'.
    rewrite (Fin (fun _ => 0) (fun _ => 0) L L') in H' by (try exact HL; intros; lra).
    destruct (simulate_log_probability wages nonpec cont _ _ _ _) as [lp| | | | |]; try discriminate.
    cbn [result_bind] in H, H'. injection H as <- <-. injection H' as <- <-. cbn [wage_change]. split; [reflexivity|lra].
Qed.

(** ** All observations *)
Definition scaled_row (lam : R) (r : lrow) : lrow :=
  mkLrow (lr_index r) (lr_type r) (scaled_obs lam (lr_obs r)) (lr_key r) (lr_pos r).

Lemma flat_map_map : forall A B C (g : B -> C) (f : A -> list B) l, flat_map (fun a => map g (f a)) l = map g (flat_map f l).
Proof. intros A B C g f l. induction l as [|a l IH]; [reflexivity|]. cbn [flat_map]. rewrite IH, map_app. reflexivity. Qed.

Lemma duplicate_scaled : forall lam locate locate' n_types data rows,
  (forall i o t, locate' i (scaled_obs lam o) t = locate i o t) ->
  duplicate_for_types locate n_types data = Ok rows ->
  duplicate_for_types locate' n_types (scaled_data lam data) = Ok (map (scaled_row lam) rows).
Proof.
  intros lam locate locate' n_types data rows HL. unfold duplicate_for_types.
  assert (M : forall t, map (fun r => result_bind (locate' (fst r) (snd r) t) (fun kp => Ok (mkLrow (fst r) t (snd r) (fst kp) (snd kp)))) (scaled_data lam data) =
    map (fun x => result_bind x (fun r => Ok (scaled_row lam r)))
      (map (fun r => result_bind (locate (fst r) (snd r) t) (fun kp => Ok (mkLrow (fst r) t (snd r) (fst kp) (snd kp)))) data)).
  { intros t. unfold scaled_data. rewrite !map_map. apply map_ext. intros r. cbn [fst snd]. rewrite HL.
    destruct (locate (fst r) (snd r) t) as [kp| | | | |]; reflexivity. }
  rewrite (flat_map_ext _ _ M). generalize (seq 0 (if Nat.leb 2 n_types then n_types else 1%nat)). intros ts.
  rewrite (flat_map_map _ _ _ (fun x => result_bind x (fun r => Ok (scaled_row lam r)))).
  generalize (flat_map (fun t => map (fun r => result_bind (locate (fst r) (snd r) t) (fun kp => Ok (mkLrow (fst r) t (snd r) (fst kp) (snd kp)))) data) ts).
  intros l. revert rows. induction l as [|x l IH]; intros rows H; [injection H as <-; reflexivity|].
  cbn [result_all map] in *. destruct x as [x| | | | |]; try discriminate. cbn [result_bind] in *.
  destruct (result_all l) as [xs| | | | |]; try discriminate. cbn [result_bind] in H. injection H as <-.
  rewrite (IH xs eq_refl). reflexivity.
Qed.

Lemma filter_map_comm : forall A B (f : A -> B) (p : B -> bool) (q : A -> bool) l, (forall x, p (f x) = q x) ->
  filter p (map f l) = map f (filter q l).
Proof.
  intros A B f p q l H. induction l as [|x l IH]; [reflexivity|]. cbn [map filter]. rewrite H, IH. destruct (q x); reflexivity.
Qed.

Lemma number_scaled : forall lam rows,
  number_rows (map (scaled_row lam) rows) = map (fun n => (fst n, scaled_row lam (snd n))) (number_rows rows).
Proof.
  intros lam rows. unfold number_rows. rewrite map_map. cbn [scaled_row lr_key].
  rewrite (map_ext (fun r => lr_key (scaled_row lam r)) lr_key) by reflexivity.
  set (ks := isort _ _). rewrite flat_map_concat_map, (flat_map_concat_map _ ks), concat_map, map_map. f_equal. apply map_ext. intros k.
  rewrite (filter_map_comm _ _ (scaled_row lam) (fun r => Nat.eqb (lr_key r) k) (fun r => Nat.eqb (lr_key r) k)) by reflexivity.
  unfold enumerate. rewrite enumerate_map, !map_map. reflexivity.
Qed.

Definition row_change (lam : R) (c c' : lrow * (R * R)) : Prop :=
  fst c' = scaled_row lam (fst c) /\ fst (snd c') = fst (snd c) /\
  snd (snd c') = snd (snd c) - wage_change lam (ob_wage (lr_obs (fst c))).

Lemma computed_scaled : forall rc qr lam lk lk' locate env env' n_types data rows computed computed',
  usual_cholesky rc -> qr_routine qr -> 0 < lam -> spec_scaled lam lk lk' -> env_scaled lam lk env env' -> (1 <= n_types)%nat ->
  all_evaluable lam lk lk' locate env n_types data ->
  duplicate_for_types locate n_types data = Ok rows ->
  compute_contributions rc qr lk env rows = Ok computed ->
  compute_contributions rc qr lk' env' (map (scaled_row lam) rows) = Ok computed' ->
  Forall2 (row_change lam) computed computed'.
Proof.
  intros rc qr lam lk lk' locate env env' n_types data rows computed computed' RC QR Hl SS [E1 [E2 [E3 [E4 [E5 E6]]]]] Hn AE D C C'.
  destruct (duplicate_rows _ _ _ _ Hn D) as [D1 D2].
  destruct (computed_rows _ _ _ _ _ _ C) as [_ F]. destruct (computed_rows _ _ _ _ _ _ C') as [_ F'].
  rewrite number_scaled in F'.
  assert (IN : forall m, In m (number_rows rows) -> In (snd m) rows).
  { intros m Hm. eapply Permutation_in; [apply number_rows_perm|]. apply in_map. exact Hm. }
  clear C C'. revert computed computed' F F' IN. generalize (number_rows rows) as ns. induction ns as [|m ns IH]; intros computed computed' F F' IN.
  - inversion F; subst. inversion F'; subst. constructor.
  - inversion F as [|? c ? cs Hc Fc]; subst. cbn [map] in F'. inversion F' as [|? c' ? cs' Hc' Fc']; subst. constructor.
    + cbn [fst snd] in Hc'. apply contributions_row_Ok in Hc, Hc'. destruct Hc as [R1 R2]. destruct Hc' as [R1' R2'].
      set (r := snd m) in *. assert (Hr : In r rows) by (apply IN; left; reflexivity).
      unfold row_change. rewrite R1, R1'. split; [reflexivity|].
      assert (Hd : In (lr_index r, lr_type r, lr_obs r) (flat_map (fun t => map (fun d => (fst d, t, snd d)) data) (seq 0 n_types))).
      { rewrite <- D1. apply in_map_iff. exists r. split; [reflexivity|exact Hr]. }
      apply in_flat_map in Hd. destruct Hd as [t [Ht Hd]]. apply in_map_iff in Hd. destruct Hd as [[di do] [Ed Hd]]. cbn [fst snd] in Ed.
      injection Ed as Ed1 Ed2 Ed3. subst di t do. apply in_seq in Ht.
      destruct (AE _ _ _ _ _ Hd (proj2 Ht) (D2 r Hr)) as [[Av [Wn [Lm [Lw _]]]] [RS [Sq' MO]]].
      cbn [scaled_row lr_key lr_pos lr_obs scaled_obs ob_code ob_wage] in R2'. rewrite E1, E2 in R2'.
      destruct (snd c) as [lc lw] eqn:Ec. destruct (snd c') as [lc' lw'] eqn:Ec'. cbn [fst snd].
      destruct (E3 (lr_key r) (lr_pos r)) as [L1 [L2 L3]].
      exact (row_scaled rc qr lam lk lk' _ _ _ _ _ _ _ _ _ _ lc lw lc' lw' RC QR Hl SS RS Sq' Av Wn Lm Lw L1
               (E4 (lr_key r) (lr_pos r)) (E5 (lr_key r) (lr_pos r)) (E6 (lr_key r) (lr_pos r)) L2 L3 MO R2 R2').
    + apply IH; try assumption. intros x Hx. apply IN. right. exact Hx.
Qed.

(** ** Sums over the observations of an individual *)
Lemma filter_perm : forall A (p : A -> bool) l l', Permutation l l' -> Permutation (filter p l) (filter p l').
Proof.
  intros A p l l' H. induction H; cbn [filter].
  - constructor.
  - destruct (p x); [apply perm_skip|]; exact IHPermutation.
  - destruct (p x), (p y); try apply Permutation_refl. apply perm_swap.
  - eapply perm_trans; eassumption.
Qed.

Lemma change_sum : forall lam (p : lrow -> bool) computed computed', (forall r, p (scaled_row lam r) = p r) ->
  Forall2 (row_change lam) computed computed' ->
  rsum (map cvalue (filter (fun c => p (fst c)) computed')) =
  rsum (map cvalue (filter (fun c => p (fst c)) computed)) -
  rsum (map (fun r => wage_change lam (ob_wage (lr_obs r))) (filter p (map fst computed))).
Proof.
  intros lam p computed computed' Hp F. induction F as [|c c' cs cs' [R1 [R2 R3]] F IH]; [unfold rsum; simpl; lra|].
  cbn [filter map]. rewrite R1, Hp. destruct (p (fst c)); [|exact IH]. cbn [map].
  change (rsum (?a :: ?b)) with (a + rsum b). rewrite IH. unfold cvalue. rewrite R2, R3. lra.
Qed.

Lemma rsum_wages : forall lam (l : list (index * obs)),
  rsum (map (fun r => wage_change lam (ob_wage (snd r))) l) =
  INR (length (filter (fun r => match ob_wage (snd r) with Some _ => true | None => false end) l)) * ln lam.
Proof.
  intros lam l. induction l as [|r l IH]; [unfold rsum; simpl; lra|]. cbn [map filter].
  change (rsum (?a :: ?b)) with (a + rsum b). rewrite IH. destruct (ob_wage (snd r)) as [w|]; cbn [wage_change]; [|lra].
  cbn [length]. rewrite S_INR. lra.
Qed.

Lemma filter_filter : forall A (p q : A -> bool) l, filter p (filter q l) = filter (fun x => q x && p x) l.
Proof.
  intros A p q l. induction l as [|x l IH]; [reflexivity|]. cbn [filter]. destruct (q x); cbn [filter andb]; [|exact IH].
  rewrite IH. reflexivity.
Qed.

Definition selects (id t : nat) (x : index * nat * obs) : bool :=
  Nat.eqb (fst (fst (fst x))) id && Nat.eqb (snd (fst x)) t.

Lemma type_block : forall (data : frame obs) id t a,
  filter (selects id t) (map (fun d => (fst d, a, snd d)) data) =
  if Nat.eqb a t then map (fun d => (fst d, t, snd d)) (filter (fun d => Nat.eqb (fst (fst d)) id) data) else [].
Proof.
  intros data id t a. induction data as [|d data IH]; [destruct (Nat.eqb a t); reflexivity|].
  cbn [map filter]. rewrite IH. unfold selects. cbn [fst snd].
  destruct (Nat.eqb_spec a t) as [E|N]; [|rewrite andb_false_r; reflexivity].
  rewrite E, andb_true_r. destruct d as [[i p] o]. cbn [fst snd]. destruct (Nat.eqb i id); reflexivity.
Qed.

Lemma filter_one_type : forall (data : frame obs) id t ts, NoDup ts -> In t ts ->
  filter (selects id t) (flat_map (fun t => map (fun d => (fst d, t, snd d)) data) ts) =
  map (fun d => (fst d, t, snd d)) (filter (fun d => Nat.eqb (fst (fst d)) id) data).
Proof.
  intros data id t ts ND.
  assert (A : forall us, ~ In t us -> filter (selects id t) (flat_map (fun t => map (fun d => (fst d, t, snd d)) data) us) = []).
  { induction us as [|a us IH]; intros N; [reflexivity|]. cbn [flat_map]. rewrite filter_app, type_block.
    destruct (Nat.eqb_spec a t) as [E|_]; [exfalso; apply N; left; exact E|]. apply IH. intros X. apply N. right. exact X. }
  induction ND as [|a ts Na ND IH]; intros Ht; [destruct Ht|]. cbn [flat_map]. rewrite filter_app, type_block.
  destruct (Nat.eqb_spec a t) as [E|N]; [subst a; rewrite (A ts Na); apply app_nil_r|].
  destruct Ht as [Ht|Ht]; [contradiction|]. apply IH. exact Ht.
Qed.

(** The change of the sum for one individual and one type. *)
Lemma individual_change : forall lam locate n_types data rows computed computed' id t, (1 <= n_types)%nat -> (t < n_types)%nat ->
  duplicate_for_types locate n_types data = Ok rows -> Permutation (map fst computed) rows ->
  Forall2 (row_change lam) computed computed' ->
  rsum (map cvalue (filter (of_ind id t) computed')) =
  rsum (map cvalue (filter (of_ind id t) computed)) - INR (observed_wages data id) * ln lam.
Proof.
  intros lam locate n_types data rows computed computed' id t Hn Ht D P F.
  destruct (duplicate_rows _ _ _ _ Hn D) as [D1 _].
  set (q := fun r : lrow => Nat.eqb (fst (lr_index r)) id && Nat.eqb (lr_type r) t).
  etransitivity; [exact (change_sum lam q computed computed' (fun r => eq_refl) F)|].
  change (of_ind id t) with (fun c : crow => q (fst c)). unfold crow. f_equal.
  rewrite (rsum_perm _ _ (Permutation_map _ (filter_perm _ q _ _ P))).
  set (g := fun r : lrow => (lr_index r, lr_type r, lr_obs r)) in *.
  assert (E : map (fun r => wage_change lam (ob_wage (lr_obs r))) (filter q rows) =
              map (fun x => wage_change lam (ob_wage (snd x))) (filter (selects id t) (map g rows))).
  { rewrite (filter_map_comm _ _ g (selects id t) q) by reflexivity. rewrite map_map. reflexivity. }
  rewrite E. unfold g in *. rewrite D1, filter_one_type; [|apply seq_NoDup|apply in_seq; lia].
  rewrite map_map. cbn [snd]. rewrite (rsum_wages lam), filter_filter. reflexivity.
Qed.

Lemma clip_inside : forall x, - 10 ^ 200 < clip (- max_float) max_float x < 10 ^ 200 -> clip (- max_float) max_float x = x.
Proof.
  intros x. unfold clip, max_float. unfold Rmax, Rmin.
  destruct (Rle_dec (- 10 ^ 200) x) as [A|A].
  - destruct (Rle_dec (10 ^ 200) x) as [B|B]; intros H; lra.
  - destruct (Rle_dec (10 ^ 200) (- 10 ^ 200)) as [B|B]; intros H; lra.
Qed.

(** ** Contributions *)
Lemma type_change : forall params x rows rows' k id c c',
  (forall t, (t < length params)%nat -> per_individual_and_type rows' id t = per_individual_and_type rows id t - k) ->
  type_contribution params x rows id = Ok c -> type_contribution params x rows' id = Ok c' ->
  - 10 ^ 200 < c < 10 ^ 200 -> - 10 ^ 200 < c' < 10 ^ 200 -> c' = c - k.
Proof.
  intros params x rows rows' k id c c' HP H H' I I'. unfold type_contribution in H, H'.
  destruct (log_type_probabilities (type_x_betas params (x id))) as [lps| | | | |] eqn:EL; try discriminate. cbn [result_bind] in H, H'.
  assert (Ll : length lps = length params).
  { unfold log_type_probabilities in EL. destruct (logsumexp _) as [s| | | | |]; try discriminate. cbn [result_bind] in EL.
    injection EL as <-. unfold type_x_betas. rewrite !map_length, length_enumerate. reflexivity. }
  set (l := map (fun tl => per_individual_and_type rows id (fst tl) + snd tl) (enumerate lps)) in *.
  assert (E : map (fun tl => per_individual_and_type rows' id (fst tl) + snd tl) (enumerate lps) = map (fun y => y + - k) l).
  { unfold l. rewrite map_map. apply map_ext_in. intros [t lp] Hin. cbn [fst snd]. rewrite HP; [lra|].
    apply (in_map fst) in Hin. unfold enumerate in Hin. rewrite map_fst_enumerate_from in Hin. apply in_seq in Hin. cbn [fst] in Hin. lia. }
  rewrite E in H'. destruct (logsumexp l) as [y| | | | |] eqn:Ey; try discriminate. cbn [result_bind] in H. injection H as <-.
  rewrite (logsumexp_shift l y (- k) Ey) in H'. cbn [result_bind] in H'. injection H' as <-.
  rewrite (clip_inside _ I), (clip_inside _ I'). lra.
Qed.

Lemma Forall2_same_length : forall A B (P : A -> B -> Prop) l m, Forall2 P l m -> length l = length m.
Proof. intros A B P l m H. induction H; simpl; congruence. Qed.

Lemma log_like_scaled : forall rc qr lam lk lk' locate locate' env env' n_types params x order_rows order_rows' order_types data v cs v' cs',
  usual_cholesky rc -> qr_routine qr -> 0 < lam -> spec_scaled lam lk lk' -> env_scaled lam lk env env' ->
  (forall i o t, locate' i (scaled_obs lam o) t = locate i o t) ->
  (1 <= n_types)%nat -> length params = n_types -> NoDup (map fst data) ->
  (forall l, Permutation (order_rows l) l) -> (forall l, Permutation (order_rows' l) l) ->
  all_evaluable lam lk lk' locate env n_types data ->
  log_like rc qr lk locate env n_types params x order_rows order_types data = Ok (v, cs) ->
  log_like rc qr lk' locate' env' n_types params x order_rows' order_types (scaled_data lam data) = Ok (v', cs') ->
  inside cs -> inside cs' ->
  v = mean cs /\ v' = mean cs' /\ length cs = length (evaluated_ids order_types n_types data) /\
  Forall2 (fun id cc => snd cc = fst cc - INR (observed_wages data id) * ln lam) (evaluated_ids order_types n_types data) (combine cs cs') /\
  length cs' = length cs.
Proof.
  intros rc qr lam lk lk' locate locate' env env' n_types params x order_rows order_rows' order_types data v cs v' cs'
    RC QR Hl SS ES HLo Hn Lp ND Po Po' AE H H' I I'.
  unfold log_like in H, H'.
  destruct (duplicate_for_types locate n_types data) as [rows| | | | |] eqn:D; try discriminate. cbn [result_bind] in H.
  rewrite (duplicate_scaled lam locate locate' n_types data rows HLo D) in H'. cbn [result_bind] in H'.
  destruct (compute_contributions rc qr lk env rows) as [computed| | | | |] eqn:C; try discriminate. cbn [result_bind] in H.
  destruct (compute_contributions rc qr lk' env' (map (scaled_row lam) rows)) as [computed'| | | | |] eqn:C'; try discriminate. cbn [result_bind] in H'.
  pose proof (computed_scaled rc qr lam lk lk' locate env env' n_types data rows computed computed' RC QR Hl SS ES Hn AE D C C') as F.
  assert (P : Permutation (map fst computed) rows).
  { destruct (computed_rows _ _ _ _ _ _ C) as [C1 _]. rewrite C1. apply number_rows_perm. }
  assert (Fi : map (fun c => (lr_index (fst c), lr_type (fst c))) computed' = map (fun c => (lr_index (fst c), lr_type (fst c))) computed).
  { clear - F. induction F as [|c c' cs cs' [R1 _] F IH]; [reflexivity|]. cbn [map]. rewrite IH, R1. reflexivity. }
  destruct (covers_exists _ _ _ _ _ _ _ _ _ Hn D C) as [numbered [En Cov]].
  pose proof (covers_unique _ _ _ _ _ _ _ _ ND Cov) as U. rewrite En in U. clear En Cov numbered.
  assert (U' : unique_rows computed') by (unfold unique_rows; rewrite Fi; exact U).
  assert (S : forall l, unique_rows l -> forall order : list (lrow * (R * R)) -> list (lrow * (R * R)), (forall l, Permutation (order l) l) -> forall id t,
     per_individual_and_type (order l) id t = rsum (map cvalue (filter (of_ind id t) l))).
  { intros l Ul order Pl id t. rewrite per_type_sum by (eapply unique_rows_perm; [apply Permutation_sym, Pl|exact Ul]).
    apply rsum_perm, Permutation_map, filter_perm, Pl. }
  assert (K : forall id t, (t < n_types)%nat ->
     per_individual_and_type (order_rows' computed') id t = per_individual_and_type (order_rows computed) id t - INR (observed_wages data id) * ln lam).
  { intros id t Ht. rewrite (S computed' U' order_rows' Po'), (S computed U order_rows Po).
    exact (individual_change lam locate n_types data rows computed computed' id t Hn Ht D P F). }
  assert (T : type_rows (scaled_data lam data) n_types = type_rows data n_types).
  { unfold type_rows. apply flat_map_ext. intros t. unfold scaled_data.
    rewrite (filter_map_comm _ _ _ (fun r : index * obs => Nat.eqb (snd (fst r)) 0) (fun r : index * obs => Nat.eqb (snd (fst r)) 0)) by reflexivity.
    rewrite map_map. reflexivity. }
  rewrite T in H'. clear T.
  unfold contributions in H, H'.
  change (evaluated_ids order_types n_types data) with (if Nat.leb 2 n_types then order_types (type_rows data n_types)
    else isort Nat.leb (drop_duplicates Nat.eq_dec (map (fun r => fst (fst r)) data))). destruct (Nat.leb_spec 2 n_types) as [H2|H2].
  - set (ids := order_types (type_rows data n_types)) in *.
    destruct (result_all (map (type_contribution params x (order_rows computed)) ids)) as [z| | | | |] eqn:Z; try discriminate.
    cbn [result_bind] in H. injection H as <- <-.
    destruct (result_all (map (type_contribution params x (order_rows' computed')) ids)) as [z'| | | | |] eqn:Z'; try discriminate.
    cbn [result_bind] in H'. injection H' as <- <-.
    apply result_all_map_Ok in Z, Z'. split; [reflexivity|]. split; [reflexivity|].
    pose proof (Forall2_same_length _ _ _ _ _ Z) as Lz. pose proof (Forall2_same_length _ _ _ _ _ Z') as Lz'.
    split; [auto|]. split; [|congruence].
    clear Lz Lz'. unfold inside in I, I'. clearbody ids.
    revert z' Z' I I'. induction Z as [|id c ids z Hc Z IH]; intros z' Z' I I'; [constructor|].
    inversion Z' as [|? c' ? z1 Hc' Z1]; subst. inversion I as [|? ? I1 I2]; subst. inversion I' as [|? ? I1' I2']; subst.
    cbn [combine]. constructor; [|apply IH; assumption]. cbn [fst snd].
    eapply type_change; [|exact Hc|exact Hc'|exact I1|exact I1']. intros t Ht. apply K. lia.
  - clear Lp. assert (n_types = 1)%nat by lia. subst n_types. cbn [result_bind] in H, H'. injection H as <- <-. injection H' as <- <-.
    split; [reflexivity|]. split; [reflexivity|].
    set (ids0 := isort Nat.leb (drop_duplicates Nat.eq_dec (map (fun r => fst (fst r)) data))).
    assert (T0 : forall r, In r rows -> lr_type r = 0%nat /\ exists p, In (fst (lr_index r), p, lr_obs r) data).
    { intros r Hr. destruct (duplicate_rows _ _ _ _ Hn D) as [D1 _].
      assert (X : In (lr_index r, lr_type r, lr_obs r) (flat_map (fun t => map (fun d => (fst d, t, snd d)) data) (seq 0 1))).
      { rewrite <- D1. apply in_map_iff. exists r. auto. }
      cbn [seq flat_map] in X. rewrite app_nil_r in X. apply in_map_iff in X. destruct X as [d [Ed Hd]]. injection Ed as E1 E2 E3.
      split; [auto|]. exists (snd (lr_index r)). rewrite <- E1, <- E3. destruct d as [[a b] o]. exact Hd. }
    assert (Ids : forall l : list (lrow * (R * R)), Permutation (map (fun c => (lr_index (fst c), lr_type (fst c))) l) (map (fun r => (lr_index r, lr_type r)) rows) ->
       isort Nat.leb (drop_duplicates Nat.eq_dec (map (fun r => fst (lr_index (fst r))) l)) = ids0).
    { intros l Pl. apply isort_perm_eq.
      - intros a b. destruct (Nat.le_ge_cases a b); [left|right]; apply Nat.leb_le; assumption.
      - intros a b c A B. apply Nat.leb_le in A, B. apply Nat.leb_le. lia.
      - intros a b A B. apply Nat.leb_le in A, B. lia.
      - apply NoDup_Permutation; try apply NoDup_drop_duplicates. intros id. rewrite !In_drop_duplicates.
        apply (Permutation_map (fun y => fst (fst y))) in Pl. rewrite !map_map in Pl. cbn [fst] in Pl.
        assert (Q : In id (map (fun r => fst (lr_index (fst r))) l) <-> In id (map (fun r => fst (lr_index r)) rows)).
        { split; apply Permutation_in; [exact Pl|apply Permutation_sym; exact Pl]. }
        rewrite Q. destruct (duplicate_rows _ _ _ _ Hn D) as [D1 _]. cbn [seq flat_map] in D1. rewrite app_nil_r in D1.
        apply (f_equal (map (fun y => fst (fst (fst y))))) in D1. rewrite !map_map in D1. cbn [fst] in D1. rewrite D1. reflexivity. }
    assert (Pc : Permutation (map (fun c => (lr_index (fst c), lr_type (fst c))) computed) (map (fun r => (lr_index r, lr_type r)) rows)).
    { apply (Permutation_map (fun r => (lr_index r, lr_type r))) in P. rewrite map_map in P. exact P. }
    rewrite (Ids (order_rows computed)) in * by (eapply perm_trans; [apply Permutation_map, Po|exact Pc]).
    rewrite (Ids (order_rows' computed')) in * by (eapply perm_trans; [apply Permutation_map, Po'|rewrite Fi; exact Pc]).
    clearbody ids0. rewrite !map_length. split; [reflexivity|]. split; [|reflexivity].
    assert (PI : forall l order, Forall (fun c : lrow * (R * R) => lr_type (fst c) = 0%nat) l -> (forall l, Permutation (order l) l) -> forall id,
       per_individual (order l) id = rsum (map cvalue (filter (of_ind id 0) l))).
    { intros l order Fl Pl id. change (per_individual (order l) id) with
        (rsum (map cvalue (filter (fun r => Nat.eqb (fst (lr_index (fst r))) id) (order l)))).
      rewrite (rsum_perm _ _ (Permutation_map _ (filter_perm _ _ _ _ (Pl l)))). f_equal. f_equal. apply filter_ext_in.
      intros c Hc. unfold of_ind. rewrite Forall_forall in Fl. rewrite (Fl c Hc). rewrite andb_true_r. reflexivity. }
    assert (T1 : Forall (fun c : lrow * (R * R) => lr_type (fst c) = 0%nat) computed).
    { apply Forall_forall. intros c Hc. apply T0. eapply Permutation_in; [exact P|]. apply in_map. exact Hc. }
    assert (T1' : Forall (fun c : lrow * (R * R) => lr_type (fst c) = 0%nat) computed').
    { clear - F T1. induction F as [|c c' cs cs' [R1 _] F IH]; [constructor|]. inversion T1; subst. constructor; [rewrite R1; assumption|apply IH; assumption]. }
    unfold inside in I, I'. clear Ids. induction ids0 as [|id ids IH]; [constructor|].
    cbn [map] in *. inversion I as [|? ? I1 I2]; subst. inversion I' as [|? ? I1' I2']; subst. cbn [combine]. constructor; [|apply IH; assumption].
    cbn [fst snd]. rewrite (clip_inside _ I1), (clip_inside _ I1'). rewrite (PI computed' order_rows' T1' Po'), (PI computed order_rows T1 Po).
    exact (individual_change lam locate 1 data rows computed computed' id 0 Hn ltac:(lia) D P F).
Qed.

Lemma mean_change : forall lam (count : nat -> nat) ids cs cs', length cs = length ids -> length cs' = length cs ->
  Forall2 (fun id cc => snd cc = fst cc - INR (count id) * ln lam) ids (combine cs cs') ->
  mean cs' = mean cs - mean (map (fun id => INR (count id)) ids) * ln lam.
Proof.
  intros lam count ids cs cs' L L' F. unfold mean. rewrite map_length, L', L. unfold Rdiv.
  assert (E : rsum cs' = rsum cs - rsum (map (fun id => INR (count id)) ids) * ln lam); [|rewrite E; lra].
  revert cs cs' L L' F. induction ids as [|id ids IH]; intros [|c cs] [|c' cs'] L L' F; try discriminate; [unfold rsum; simpl; lra|].
  cbn [combine] in F. inversion F as [|? ? ? ? A B]; subst. cbn [fst snd] in A. cbn [map].
  change (rsum (?a :: ?b)) with (a + rsum b). rewrite (IH cs cs'); [rewrite A; lra|simpl in *; lia|simpl in *; lia|exact B].
Qed.

Lemma contribution_scaled : forall lam data ids cs cs' k id c c',
  Forall2 (fun id cc => snd cc = fst cc - INR (observed_wages data id) * ln lam) ids (combine cs cs') ->
  nth_error ids k = Some id -> nth_error cs k = Some c -> nth_error cs' k = Some c' ->
  c' = c - INR (observed_wages data id) * ln lam.
Proof.
  intros lam data ids. induction ids as [|i ids IH]; intros cs cs' k id c c' F Hi Hc Hc'; [destruct k; discriminate|].
  destruct cs as [|a cs]; [inversion F|]. destruct cs' as [|a' cs']; [inversion F|]. cbn [combine] in F.
  inversion F as [|? ? ? ? A B]; subst. cbn [fst snd] in A.
  destruct k as [|k]; cbn [nth_error] in *; [|eapply IH; eassumption].
  injection Hi as <-. injection Hc as <-. injection Hc' as <-. exact A.
Qed.

(** ** Number of wages *)
Definition has_wage (r : index * obs) : bool := match ob_wage (snd r) with Some _ => true | None => false end.

Lemma sum_over_individuals : forall (data : frame obs) ids, NoDup ids -> (forall r, In r data -> In (fst (fst r)) ids) ->
  rsum (map (fun id => INR (observed_wages data id)) ids) = INR (length (filter has_wage data)).
Proof.
  intros data ids ND. induction data as [|r data IH]; intros H.
  - simpl. clear. induction ids as [|i ids IH]; [reflexivity|]. cbn [map]. change (rsum (?a :: ?b)) with (a + rsum b). rewrite IH. simpl. lra.
  - assert (H' : forall r, In r data -> In (fst (fst r)) ids) by (intros q Hq; apply H; right; exact Hq).
    specialize (IH H'). specialize (H r (or_introl eq_refl)). destruct r as [[j p] o]. cbn [fst] in H. cbn [filter].
    match goal with |- context [has_wage ?y] => destruct (has_wage y) eqn:W end.
    + cbn [length]. rewrite S_INR, <- IH. clear IH H'. unfold has_wage in W. cbn [snd] in W.
      assert (A : forall id, INR (observed_wages ((j, p, o) :: data) id) = INR (observed_wages data id) + (if Nat.eqb j id then 1 else 0)).
      { intros id. unfold observed_wages. cbn [filter fst snd]. rewrite W, andb_true_r. destruct (Nat.eqb j id); [|lra].
        cbn [length]. rewrite S_INR. reflexivity. }
      assert (B : forall l, ~ In j l -> rsum (map (fun id => INR (observed_wages ((j, p, o) :: data) id)) l) = rsum (map (fun id => INR (observed_wages data id)) l)).
      { induction l as [|i l IHl]; intros N; [reflexivity|]. cbn [map]. change (rsum (?a :: ?b)) with (a + rsum b).
        rewrite IHl by (intros X; apply N; right; exact X). rewrite A. destruct (Nat.eqb_spec j i) as [E|_]; [exfalso; apply N; left; auto|lra]. }
      induction ND as [|i ids Ni ND IH]; [destruct H|]. cbn [map]. change (rsum (?a :: ?b)) with (a + rsum b). rewrite A.
      destruct (Nat.eqb_spec j i) as [E|N].
      * rewrite B by (rewrite E; exact Ni). lra.
      * destruct H as [H|H]; [exfalso; apply N; auto|]. rewrite IH by exact H. lra.
    + rewrite <- IH. f_equal. apply map_ext. intros id. f_equal. unfold observed_wages. cbn [filter fst snd].
      unfold has_wage in W. cbn [snd] in W. rewrite W, andb_false_r. reflexivity.
Qed.

Lemma average_wages : forall order_types n_types data, (1 <= n_types)%nat -> NoDup (map fst data) ->
  (forall l, Permutation (order_types l) l) -> data <> [] ->
  ((2 <= n_types)%nat -> forall r, In r data -> exists ob, In ((fst (fst r), 0%nat), ob) data) ->
  mean (map (fun id => INR (observed_wages data id)) (evaluated_ids order_types n_types data)) =
  INR (number_of_wages data) / INR (number_of_individuals data).
Proof.
  intros order_types n_types data Hn ND Po Hd H0. unfold number_of_wages, number_of_individuals. change (fun r : index * obs => match ob_wage (snd r) with Some _ => true | None => false end) with has_wage.
  set (D := drop_duplicates Nat.eq_dec (map (fun r => fst (fst r)) data)).
  assert (ND' : NoDup D) by apply NoDup_drop_duplicates.
  assert (AD : forall r, In r data -> In (fst (fst r)) D) by (intros r Hr; apply In_drop_duplicates; apply in_map_iff; exists r; auto).
  assert (M : mean (map (fun id => INR (observed_wages data id)) D) = INR (length (filter has_wage data)) / INR (length D)).
  { unfold mean. rewrite map_length, (sum_over_individuals data D ND' AD). reflexivity. }
  unfold evaluated_ids. destruct (Nat.leb_spec 2 n_types) as [H2|H2].
  - rewrite (mean_perm _ _ (Permutation_map _ (Po _))). unfold type_rows. fold (individuals data).
    assert (PI : Permutation (individuals data) D).
    { apply NoDup_Permutation; [|exact ND'|].
      - unfold individuals. clear - ND. induction data as [|[[i p] o] data IH]; [constructor|]. cbn [map fst] in ND. inversion ND as [|? ? N1 N2]; subst.
        cbn [filter]. destruct (Nat.eqb (snd (fst (i, p, o))) 0) eqn:E; [|apply IH; exact N2]. cbn [fst snd] in E. apply Nat.eqb_eq in E. subst p.
        cbn [map fst]. constructor; [|apply IH; exact N2]. intros X. apply N1. apply in_map_iff in X. destruct X as [[[j q] o'] [E' X]].
        apply filter_In in X. destruct X as [X1 X2]. cbn [fst snd] in *. apply Nat.eqb_eq in X2. subst. apply in_map_iff. exists ((i, 0%nat), o'). auto.
      - intros id. unfold D, individuals. rewrite In_drop_duplicates. split; intros X; apply in_map_iff in X; destruct X as [r [E Hr]].
        + apply filter_In in Hr. apply in_map_iff. exists r. tauto.
        + destruct (H0 H2 r Hr) as [ob Hob]. apply in_map_iff. exists ((id, 0%nat), ob). split; [reflexivity|]. apply filter_In. subst id. split; [exact Hob|reflexivity]. }
    rewrite mean_repeat; [|lia|].
    + rewrite (mean_perm _ _ (Permutation_map _ PI)). exact M.
    + intros X. rewrite X in PI. apply Permutation_nil in PI. destruct data as [|r data]; [contradiction|].
      specialize (AD r (or_introl eq_refl)). rewrite PI in AD. destruct AD.
  - rewrite (mean_perm _ _ (Permutation_map _ (Permutation_isort _ _))). exact M.
Qed.

(** ** A routine *)
Lemma cholesky_nonnegative : forall n A i, 0 <= cholesky n A i i.
Proof.
  induction n as [|n IH]; intros A i; cbn [cholesky]; [lra|]. destruct i as [|i]; [apply sqrt_pos|apply IH].
Qed.

Lemma cholesky_usual : usual_cholesky cholesky.
Proof. split; [exact cholesky_is_routine|]. intros. apply cholesky_nonnegative. Qed.

(** ** The statements *)
Lemma units_contributions : forall rc qr lam lk lk' locate locate' env env' n_types params x order_rows order_rows' order_types data v cs v' cs',
  usual_cholesky rc -> qr_routine qr -> 0 < lam -> spec_scaled lam lk lk' -> env_scaled lam lk env env' ->
  (forall i o t, locate' i (scaled_obs lam o) t = locate i o t) ->
  (1 <= n_types)%nat -> length params = n_types -> NoDup (map fst data) ->
  (forall l, Permutation (order_rows l) l) -> (forall l, Permutation (order_rows' l) l) ->
  all_evaluable lam lk lk' locate env n_types data ->
  log_like rc qr lk locate env n_types params x order_rows order_types data = Ok (v, cs) ->
  log_like rc qr lk' locate' env' n_types params x order_rows' order_types (scaled_data lam data) = Ok (v', cs') ->
  inside cs -> inside cs' ->
  length cs = length (evaluated_ids order_types n_types data) /\ length cs' = length cs /\
  forall k id c c', nth_error (evaluated_ids order_types n_types data) k = Some id ->
    nth_error cs k = Some c -> nth_error cs' k = Some c' -> c' = c - INR (observed_wages data id) * ln lam.
Proof.
  intros rc qr lam lk lk' locate locate' env env' n_types params x order_rows order_rows' order_types data v cs v' cs'
    RC QR Hl SS ES HLo Hn Lp ND Po Po' AE H H' I I'.
  destruct (log_like_scaled _ _ _ _ _ _ _ _ _ _ _ _ _ _ _ _ _ _ _ _ RC QR Hl SS ES HLo Hn Lp ND Po Po' AE H H' I I') as [_ [_ [L [F L']]]].
  split; [exact L|]. split; [exact L'|]. intros k id c c'. apply contribution_scaled. exact F.
Qed.

Lemma units_value : forall rc qr lam lk lk' locate locate' env env' n_types params x order_rows order_rows' order_types data v cs v' cs',
  usual_cholesky rc -> qr_routine qr -> 0 < lam -> spec_scaled lam lk lk' -> env_scaled lam lk env env' ->
  (forall i o t, locate' i (scaled_obs lam o) t = locate i o t) ->
  (1 <= n_types)%nat -> length params = n_types -> NoDup (map fst data) ->
  (forall l, Permutation (order_rows l) l) -> (forall l, Permutation (order_rows' l) l) ->
  all_evaluable lam lk lk' locate env n_types data ->
  log_like rc qr lk locate env n_types params x order_rows order_types data = Ok (v, cs) ->
  log_like rc qr lk' locate' env' n_types params x order_rows' order_types (scaled_data lam data) = Ok (v', cs') ->
  inside cs -> inside cs' ->
  v' = v - mean (map (fun id => INR (observed_wages data id)) (evaluated_ids order_types n_types data)) * ln lam.
Proof.
  intros rc qr lam lk lk' locate locate' env env' n_types params x order_rows order_rows' order_types data v cs v' cs'
    RC QR Hl SS ES HLo Hn Lp ND Po Po' AE H H' I I'.
  destruct (log_like_scaled _ _ _ _ _ _ _ _ _ _ _ _ _ _ _ _ _ _ _ _ RC QR Hl SS ES HLo Hn Lp ND Po Po' AE H H' I I') as [-> [-> [L [F L']]]].
  apply mean_change; assumption.
Qed.

Lemma units_average : forall rc qr lam lk lk' locate locate' env env' n_types params x order_rows order_rows' order_types data v cs v' cs',
  usual_cholesky rc -> qr_routine qr -> 0 < lam -> spec_scaled lam lk lk' -> env_scaled lam lk env env' ->
  (forall i o t, locate' i (scaled_obs lam o) t = locate i o t) ->
  (1 <= n_types)%nat -> length params = n_types -> NoDup (map fst data) -> data <> [] ->
  ((2 <= n_types)%nat -> forall id p ob, In ((id, p), ob) data -> exists first, In ((id, 0%nat), first) data) ->
  (forall l, Permutation (order_types l) l) ->
  (forall l, Permutation (order_rows l) l) -> (forall l, Permutation (order_rows' l) l) ->
  all_evaluable lam lk lk' locate env n_types data ->
  log_like rc qr lk locate env n_types params x order_rows order_types data = Ok (v, cs) ->
  log_like rc qr lk' locate' env' n_types params x order_rows' order_types (scaled_data lam data) = Ok (v', cs') ->
  inside cs -> inside cs' ->
  v' = v - INR (number_of_wages data) / INR (number_of_individuals data) * ln lam.
Proof.
  intros rc qr lam lk lk' locate locate' env env' n_types params x order_rows order_rows' order_types data v cs v' cs'
    RC QR Hl SS ES HLo Hn Lp ND Hd H0 Pt Po Po' AE H H' I I'.
  rewrite <- (average_wages order_types n_types data Hn ND Pt Hd).
  - exact (units_value _ _ _ _ _ _ _ _ _ _ _ _ _ _ _ _ _ _ _ _ RC QR Hl SS ES HLo Hn Lp ND Po Po' AE H H' I I').
  - intros H2 [[id p] ob] Hr. cbn [fst]. eapply H0; eassumption.
Qed.

Lemma units_ranking : forall rc qr lam n_types order_types data
    lk1 lk1' locate1 locate1' env1 env1' params1 x1 order1 order1' v1 cs1 v1' cs1'
    lk2 lk2' locate2 locate2' env2 env2' params2 x2 order2 order2' v2 cs2 v2' cs2',
  usual_cholesky rc -> qr_routine qr -> 0 < lam -> (1 <= n_types)%nat -> NoDup (map fst data) ->
  scaled_problem rc qr lam n_types order_types data lk1 lk1' locate1 locate1' env1 env1' params1 x1 order1 order1' v1 cs1 v1' cs1' ->
  scaled_problem rc qr lam n_types order_types data lk2 lk2' locate2 locate2' env2 env2' params2 x2 order2 order2' v2 cs2 v2' cs2' ->
  (v1 < v2 <-> v1' < v2').
Proof.
  intros rc qr lam n_types order_types data
    lk1 lk1' locate1 locate1' env1 env1' params1 x1 order1 order1' v1 cs1 v1' cs1'
    lk2 lk2' locate2 locate2' env2 env2' params2 x2 order2 order2' v2 cs2 v2' cs2' RC QR Hl Hn ND
    [A1 [A2 [A3 [A4 [A5 [A6 [A7 [A8 [A9 [A10 A11]]]]]]]]]] [B1 [B2 [B3 [B4 [B5 [B6 [B7 [B8 [B9 [B10 B11]]]]]]]]]].
  rewrite (units_value _ _ _ _ _ _ _ _ _ _ _ _ _ _ _ _ _ _ _ _ RC QR Hl A1 A2 A3 Hn A4 ND A5 A6 A7 A8 A9 A10 A11).
  rewrite (units_value _ _ _ _ _ _ _ _ _ _ _ _ _ _ _ _ _ _ _ _ RC QR Hl B1 B2 B3 Hn B4 ND B5 B6 B7 B8 B9 B10 B11).
  split; intros; lra.
Qed.
