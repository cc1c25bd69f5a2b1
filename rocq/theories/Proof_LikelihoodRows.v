(** Proofs about single rows of the likelihood. *)
From Coq Require Import List Arith Bool Reals Lra Lia.
From Verif Require Import Base Proof_Base Model_CoreStateSpace Model_StateSpace Proof_StateSpace
  Model_Parallel Model_Solve Spec_Solve Proof_Solve
  Model_ConditionalDraws Spec_ConditionalDraws Proof_Matrix Proof_ConditionalDraws
  Model_Likelihood Spec_Likelihood Proof_Likelihood.
Import ListNotations.
Open Scope R_scope.

Lemma max_float_pos : 0 < max_float.
Proof. unfold max_float. apply pow_lt. lra. Qed.

Lemma clip_id : forall lo hi x, lo <= x <= hi -> clip lo hi x = x.
Proof. intros lo hi x [H1 H2]. unfold clip. rewrite Rmax_right by exact H1. apply Rmin_right. exact H2. Qed.

Lemma representable_clip : forall w, representable w -> clip (1 / max_float) max_float w = w.
Proof. intros w H. apply clip_id. exact H. Qed.
Lemma representable_pos : forall w, representable w -> 0 < w.
Proof.
  intros w [H _]. pose proof max_float_pos as P. unfold max_float in P.
  assert (0 < 1 / 10 ^ 200) by (apply Rdiv_lt_0_compat; lra). lra.
Qed.

Lemma sumn_rsum : forall n f, sumn n f = rsum (map f (seq 0 n)).
Proof.
  induction n as [|n IH]; intros f; [reflexivity|]. cbn [sumn]. rewrite seq_S, map_app, rsum_app', IH. simpl. unfold rsum. simpl. lra.
Qed.

(** The covariance of the restricted factor. *)
Lemma subset_entry : forall L cs i j c d, square (length cs) L ->
  nth_error (positions cs) i = Some c -> nth_error (positions cs) j = Some d ->
  of_rows (subset_cholesky L cs) i j = mat L c d.
Proof.
  intros L cs i j c d [HL HR] Hi Hj. unfold of_rows, subset_cholesky, mat.
  assert (Hc : (c < length cs)%nat).
  { apply nth_error_In, In_positions in Hi. apply nth_error_Some. rewrite Hi. discriminate. }
  rewrite (compress_positions _ cs L [] (eq_sym HL)), map_map.
  rewrite (nth_error_nth (map (fun x => compress cs (nth x L [])) (positions cs)) i []
             (map_nth_error _ _ _ Hi)).
  rewrite (compress_positions _ cs (nth c L []) 0).
  - rewrite (nth_error_nth _ j 0 (map_nth_error (fun x => nth x (nth c L []) 0) _ _ Hj)). reflexivity.
  - symmetry. apply HR. apply nth_In. rewrite HL. exact Hc.
Qed.

Lemma restricted_gram : forall L cs i j c d, square (length cs) L ->
  nth_error (positions cs) i = Some c -> nth_error (positions cs) j = Some d ->
  gram (count_true cs) (of_rows (subset_cholesky L cs)) i j = restricted_cov L cs c d.
Proof.
  intros L cs i j c d HL Hi Hj. unfold gram, restricted_cov. rewrite sumn_rsum, <- length_positions.
  assert (E : map (fun k => mat L c k * mat L d k) (positions cs) =
              map (fun k => of_rows (subset_cholesky L cs) i k * of_rows (subset_cholesky L cs) j k)
                  (seq 0 (length (positions cs)))).
  { assert (G : forall (f : nat -> R) (g : nat -> R) (l : list nat),
       (forall k x, nth_error l k = Some x -> f x = g k) -> map f l = map g (seq 0 (length l))).
    { clear. intros f g l. revert g. induction l as [|x l IH]; intros g H; [reflexivity|].
      cbn [length seq map]. f_equal; [apply (H 0%nat); reflexivity|].
      rewrite <- seq_shift, map_map. apply IH. intros k y Hk. apply (H (S k)). exact Hk. }
    apply G. intros k x Hk. rewrite (subset_entry L cs i k c x HL Hi Hk), (subset_entry L cs j k d x HL Hj Hk). reflexivity. }
  rewrite E. reflexivity.
Qed.

(** The density of an observed wage uses the standard deviation at the position of the
    choice among the available choices. *)
Lemma row_density : forall rc qr lk cs wages nonpec cont base code w i s sd lc lw,
  square (length cs) (lk_chol lk) -> length wages = count_true cs ->
  nth_error (positions cs) i = Some code -> nth_error wages i = Some s ->
  representable w -> representable s -> nth_error (lk_meas lk) i = Some sd ->
  0 < restricted_cov (lk_chol lk) cs code code + sd ^ 2 ->
  row_loglikes rc qr lk cs wages nonpec cont base code (Some w) = Ok (lc, lw) ->
  lw = clip (- 10 ^ 200) (10 ^ 200)
         (ln (lognormal_density (ln s) (restricted_cov (lk_chol lk) cs code code + sd ^ 2) w)).
Proof.
  intros rc qr lk cs wages nonpec cont base code w i s sd lc lw Sq Lw Hi Hs Rw Rs Hsd Pv H.
  unfold row_loglikes in H. rewrite (map_choice_position cs i code Hi) in H. cbn [result_bind] in H.
  unfold create_draws_and_log_prob_wages in H. rewrite Hs in H. cbn [log_wage option_map] in H.
  rewrite (representable_clip w Rw), (representable_clip s Rs), Lw in H.
  set (cov := gram (count_true cs) (of_rows (subset_cholesky (lk_chol lk) cs))) in *.
  assert (Ec : cov i i = restricted_cov (lk_chol lk) cs code code) by (apply restricted_gram; assumption).
  rewrite <- Ec in Pv |- *.
  destruct (density_spec cov i (ln w) (ln s) (lk_meas lk) sd Hsd Pv) as [mean [ll [E D]]].
  rewrite E in H. cbn [result_bind fst snd] in H.
  destruct (if lk_has_meas lk then _ else _) as [U| | | | |] in H; try discriminate. cbn [result_bind fst snd] in H.
  destruct (simulate_log_probability _ _ _ _ _ _ _) as [lp| | | | |] in H; try discriminate. cbn [result_bind] in H.
  injection H as _ <-. unfold max_float. f_equal. rewrite exp_ln in D by (apply representable_pos; exact Rw).
  rewrite <- D, ln_exp. reflexivity.
Qed.

Lemma row_density_prefix : forall rc qr lk cs wages nonpec cont base code w s sd lc lw,
  square (length cs) (lk_chol lk) -> length wages = count_true cs ->
  (forall c, (c <= code)%nat -> available cs c) -> nth_error wages code = Some s ->
  representable w -> representable s -> nth_error (lk_meas lk) code = Some sd ->
  0 < restricted_cov (lk_chol lk) cs code code + sd ^ 2 ->
  row_loglikes rc qr lk cs wages nonpec cont base code (Some w) = Ok (lc, lw) ->
  lw = clip (- 10 ^ 200) (10 ^ 200)
         (ln (lognormal_density (ln s) (restricted_cov (lk_chol lk) cs code code + sd ^ 2) w)).
Proof.
  intros. eapply row_density; eauto. apply positions_prefix. assumption.
Qed.

(** ** Draws of an observed wage without measurement error *)
Lemma fold_zero : forall (b : nat -> R) (U : nat -> R) l a, (forall j, In j l -> U j = 0) ->
  fold_left (fun cd j => cd + b j * U j) l a = a.
Proof.
  induction l as [|j l IH]; intros a H; [reflexivity|]. cbn [fold_left]. rewrite IH.
  - rewrite (H j (or_introl eq_refl)). lra.
  - intros k Hk. apply H. right. exact Hk.
Qed.

Lemma nth_map_seq : forall (f : nat -> R) n c, (c < n)%nat -> nth c (map f (seq 0 n)) 0 = f c.
Proof.
  intros f n c H. rewrite (nth_indep _ 0 (f 0%nat)) by (rewrite map_length, seq_length; exact H).
  rewrite map_nth, seq_nth by exact H. reflexivity.
Qed.

Lemma observed_draws : forall rc qr wages base c chol n_wages meas w s,
  cholesky_routine rc -> (c < n_wages)%nat -> (n_wages <= length wages)%nat ->
  nth_error wages c = Some s -> representable w -> representable s -> nth_error meas c = Some 0 ->
  gram (length wages) (of_rows chol) c c <> 0 -> ln w - ln s <= 460 ->
  exists draws ll,
    create_draws_and_log_prob_wages rc qr (log_wage (Some w)) wages base c chol n_wages meas false = Ok (draws, ll) /\
    length draws = length base /\
    forall d, In d draws -> length d = length wages /\ s * nth c d 0 = w.
Proof.
  intros rc qr wages base c chol n_wages meas w s RC Hc Hn Hs Rw Rs Hm NZ Sh.
  unfold create_draws_and_log_prob_wages. rewrite Hs. cbn [log_wage option_map].
  rewrite (representable_clip w Rw), (representable_clip s Rs).
  destruct (mean_at_observed (gram (length wages) (of_rows chol)) c (ln w) (ln s) meas Hm NZ) as [mn [ll [E Em]]].
  rewrite E. cbn [result_bind fst snd].
  destruct (cholcov_spec rc (length wages) n_wages (of_rows chol) c RC Hc Hn NZ) as [U [EU [_ [Z _]]]].
  rewrite EU. cbn [result_bind]. eexists. eexists. split; [reflexivity|]. split; [apply map_length|].
  intros d Hd. apply in_map_iff in Hd. destruct Hd as [b [<- Hb]]. unfold conditional_draw. split.
  { rewrite map_length, seq_length. reflexivity. }
  rewrite nth_map_seq by lia. rewrite (proj2 (Nat.ltb_lt c n_wages) Hc).
  rewrite (fold_zero (fun j => nth j b 0) (U c)) by (intros j _; apply (proj1 (Z j))).
  rewrite Em. destruct (Rlt_dec max_log_float (ln w - ln s)) as [L|L]; [unfold max_log_float in L; lra|].
  pose proof (representable_pos w Rw). pose proof (representable_pos s Rs).
  unfold Rminus. rewrite exp_plus, exp_Ropp, !exp_ln by assumption. field. lra.
Qed.

(** ** A wage observed for a choice without wage *)
Lemma wage_without_wage_choice : forall rc qr wages base c chol n_wages meas has w s sd,
  nth_error wages c = Some s -> nth_error meas c = Some sd -> (n_wages <= c)%nat ->
  create_draws_and_log_prob_wages rc qr (log_wage (Some w)) wages base c chol n_wages meas has =
  (if Nat.eqb c n_wages then
     result_bind (update_mean_and_evaluate_likelihood (log_wage (Some w)) (ln (clip (1 / max_float) max_float s))
                    (gram (length wages) (of_rows chol)) c meas)
       (fun ml => Ok (map (conditional_draw (length wages) n_wages (fst ml) (of_rows chol)) base, snd ml))
   else IndexError).
Proof.
  intros rc qr wages base c chol n_wages meas has w s sd Hs Hm Hn.
  unfold create_draws_and_log_prob_wages. rewrite Hs. cbn [log_wage option_map update_mean_and_evaluate_likelihood].
  rewrite Hm. cbn [result_bind fst snd]. unfold update_cholcov, update_cholcov_with_measurement_error.
  destruct (Nat.ltb_spec c n_wages); [lia|].
  destruct has, (Nat.eqb c n_wages); reflexivity.
Qed.

(** ** When a row can be evaluated *)
Lemma row_succeeds : forall rc qr lk cs wages nonpec cont base code wage i,
  nth_error (positions cs) i = Some code -> length wages = count_true cs ->
  length nonpec = length wages -> length cont = length wages -> base <> [] -> lk_tau lk <> 0 ->
  (i < length (lk_meas lk))%nat ->
  (wage = None \/ (i < length (select_valid_choices (seq 0 (lk_nwages lk)) cs))%nat) ->
  exists ll, row_loglikes rc qr lk cs wages nonpec cont base code wage = Ok ll.
Proof.
  intros rc qr lk cs wages nonpec cont base code wage i Hi Lw Ln Lc Hb Ht Hm Hw.
  unfold row_loglikes. rewrite (map_choice_position cs i code Hi). cbn [result_bind].
  set (nw := length (select_valid_choices (seq 0 (lk_nwages lk)) cs)) in *.
  assert (Hin : (i < length wages)%nat).
  { rewrite Lw, <- length_positions. apply nth_error_Some. rewrite Hi. discriminate. }
  destruct (nth_error wages i) as [s|] eqn:Es; [|apply nth_error_None in Es; lia].
  destruct (nth_error (lk_meas lk) i) as [sd|] eqn:Em; [|apply nth_error_None in Em; lia].
  assert (G : exists mn U ll, create_draws_and_log_prob_wages rc qr (log_wage wage) wages base i
      (subset_cholesky (lk_chol lk) cs) nw (lk_meas lk) (lk_has_meas lk) =
      Ok (map (conditional_draw (length wages) nw mn U) base, ll)).
  { unfold create_draws_and_log_prob_wages. rewrite Es.
    unfold update_cholcov, update_cholcov_with_measurement_error.
    destruct wage as [w|]; cbn [log_wage option_map update_mean_and_evaluate_likelihood].
    - destruct Hw as [Hw|Hw]; [discriminate|]. rewrite Em. cbn [result_bind fst snd].
      rewrite (proj2 (Nat.ltb_lt i nw) Hw). destruct (lk_has_meas lk); cbn [result_bind]; eauto.
    - cbn [result_bind fst snd]. rewrite Nat.ltb_irrefl, Nat.eqb_refl. destruct (lk_has_meas lk); cbn [result_bind]; eauto. }
  destruct G as [mn [U [ll G]]]. rewrite G. cbn [result_bind fst snd].
  destruct (simulate_spec wages nonpec cont (map (conditional_draw (length wages) nw mn U) base) (lk_beta_delta lk) i (lk_tau lk))
    as [lp [E _]]; auto.
  - split; [exact Ln|]. split; [exact Lc|]. intros e He. apply in_map_iff in He. destruct He as [b [<- _]].
    unfold conditional_draw. rewrite map_length, seq_length. reflexivity.
  - destruct base; [contradiction|discriminate].
  - rewrite E. cbn [result_bind]. eauto.
Qed.

Lemma ln_density : forall m v lw, 0 < v ->
  ln (lognormal_density m v (exp lw)) = - ln (2 * PI) / 2 - lw - ln v / 2 - (lw - m) ^ 2 / (2 * v).
Proof.
  intros m v lw P. unfold lognormal_density. rewrite ln_exp.
  assert (S : 0 < sqrt v) by (apply sqrt_lt_R0; exact P).
  assert (PI0 : 0 < 2 * PI) by (pose proof PI_RGT_0; lra).
  assert (S2 : 0 < sqrt (2 * PI)) by (apply sqrt_lt_R0; exact PI0).
  pose proof (exp_pos lw) as Pe. set (P2 := 2 * PI) in *. clearbody P2.
  assert (0 < exp lw * sqrt v * sqrt P2) by (repeat apply Rmult_lt_0_compat; assumption).
  rewrite ln_mult by (try apply exp_pos; apply Rdiv_lt_0_compat; lra).
  rewrite ln_exp, ln_div, ln_1 by lra. rewrite !ln_mult, ln_exp, !ln_sqrt by (try apply Rmult_lt_0_compat; assumption). lra.
Qed.

Lemma one_representable : representable 1.
Proof.
  unfold representable. assert (G : forall n, 1 <= 10 ^ n).
  { induction n as [|n IH]; [simpl; lra|]. cbn [pow]. lra. }
  specialize (G 200%nat). split; [|exact G].
  apply (Rmult_le_reg_r (10 ^ 200)); [lra|]. unfold Rdiv. rewrite Rmult_1_l, Rinv_l, Rmult_1_l by lra. exact G.
Qed.

Lemma small_within : forall x, - 10 <= x <= 10 -> clip (- 10 ^ 200) (10 ^ 200) x = x.
Proof.
  intros x H. apply clip_id. assert (G : forall n, 1 <= 10 ^ n).
  { induction n as [|n IH]; [simpl; lra|]. cbn [pow]. lra. }
  assert (E : 10 ^ 200 = 10 * 10 ^ 199) by reflexivity. specialize (G 199%nat). rewrite E. lra.
Qed.

(** Only the second choice is available: the standard deviation of the first is used. *)
Lemma wrong_measurement_error :
  exists lk cs wages nonpec cont base code w s sd,
    square (length cs) (lk_chol lk) /\ length wages = count_true cs /\ available cs code /\
    nth_error (positions cs) 0 = Some code /\ nth_error wages 0 = Some s /\ representable w /\ representable s /\
    nth_error (lk_meas lk) code = Some sd /\ (code < lk_nwages lk)%nat /\
    0 < restricted_cov (lk_chol lk) cs code code + sd ^ 2 /\
    forall rc qr, exists lc lw, row_loglikes rc qr lk cs wages nonpec cont base code (Some w) = Ok (lc, lw) /\
      lw <> clip (- 10 ^ 200) (10 ^ 200)
             (ln (lognormal_density (ln s) (restricted_cov (lk_chol lk) cs code code + sd ^ 2) w)).
Proof.
  exists (mkLikeSpec [[1; 0]; [0; 1]] 2 [1; 2] true 0.95 1), [false; true], [1], [0], [0], [[0]], 1%nat, 1, 1, 2.
  assert (Sq : square (length [false; true]) [[1; 0]; [0; 1]]).
  { split; [reflexivity|]. intros r [<-|[<-|[]]]; reflexivity. }
  assert (Rc : restricted_cov [[1; 0]; [0; 1]] [false; true] 1 1 = 1).
  { unfold restricted_cov, mat. cbn. lra. }
  split; [exact Sq|]. split; [reflexivity|]. split; [reflexivity|]. split; [reflexivity|]. split; [reflexivity|].
  split; [apply one_representable|]. split; [apply one_representable|]. split; [reflexivity|]. split; [simpl; lia|].
  split; [cbn [lk_chol]; rewrite Rc; simpl; lra|].
  intros rc qr.
  destruct (row_succeeds rc qr (mkLikeSpec [[1; 0]; [0; 1]] 2 [1; 2] true 0.95 1) [false; true] [1] [0] [0] [[0]] 1 (Some 1) 0)
    as [[lc lw] E]; try reflexivity; try discriminate; try (simpl; lia).
  { exact R1_neq_R0. }
  exists lc, lw. split; [exact E|].
  assert (V1 : 0 < restricted_cov (lk_chol (mkLikeSpec [[1; 0]; [0; 1]] 2 [1; 2] true 0.95 1)) [false; true] 1 1 + 1 ^ 2)
    by (cbn [lk_chol]; rewrite Rc; simpl; lra).
  pose proof (row_density rc qr (mkLikeSpec [[1; 0]; [0; 1]] 2 [1; 2] true 0.95 1) [false; true] [1] [0] [0] [[0]] 1 1 0 1 1 lc lw
     Sq eq_refl eq_refl eq_refl one_representable one_representable eq_refl V1 E) as Q.
  cbn [lk_chol] in *. rewrite Rc in *.
  assert (D : forall v, 0 < v -> ln (lognormal_density (ln 1) v 1) = - ln (2 * PI) / 2 - ln v / 2).
  { intros v Hv. pose proof (ln_density (ln 1) v 0 Hv) as X. rewrite exp_0 in X. rewrite X, ln_1.
    replace ((0 - 0) ^ 2) with 0 by lra. unfold Rdiv. lra. }
  assert (B : forall v, 1 <= v -> v < 6 -> 0 <= ln v <= 6).
  { intros v H1 H2. split.
    - rewrite <- ln_1. destruct H1 as [H1|H1]; [left; apply ln_increasing; lra|right; rewrite H1; reflexivity].
    - left. apply Rlt_trans with v; [|lra]. rewrite <- (ln_exp v) at 2. apply ln_increasing; [lra|].
      pose proof (exp_ineq1 v ltac:(lra)). lra. }
  assert (P2 : 0 <= ln (2 * PI) <= 8).
  { pose proof PI_RGT_0. pose proof PI_4. pose proof PI2_1 as P21. split.
    - rewrite <- ln_1. left. apply ln_increasing; [lra|]. lra.
    - left. apply Rlt_le_trans with (2 * PI); [|lra]. rewrite <- (ln_exp (2 * PI)) at 2. apply ln_increasing; [lra|].
      pose proof (exp_ineq1 (2 * PI) ltac:(lra)). lra. }
  rewrite D in Q by (simpl; lra). rewrite D by (simpl; lra).
  assert (A2 : 1 + 1 ^ 2 = 2) by (simpl; lra). assert (A5 : 1 + 2 ^ 2 = 5) by (simpl; lra). rewrite A2 in Q. rewrite A5.
  pose proof (B 2 ltac:(lra) ltac:(lra)). pose proof (B 5 ltac:(lra) ltac:(lra)).
  rewrite small_within in Q by lra. rewrite small_within by lra.
  assert (ln 2 < ln 5) by (apply ln_increasing; lra). lra.
Qed.
