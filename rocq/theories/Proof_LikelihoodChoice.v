(** Proofs about the contribution of the observed choice. *)
From Coq Require Import List Arith Bool Reals Lra Lia.
From Verif Require Import Base Proof_Base Model_CoreStateSpace Model_StateSpace Proof_StateSpace
  Model_Parallel Model_Solve Spec_Solve Proof_Solve
  Model_ConditionalDraws Spec_ConditionalDraws Proof_Matrix Proof_ConditionalDraws
  Model_Likelihood Spec_Likelihood Proof_Likelihood Proof_LikelihoodRows.
Import ListNotations.
Open Scope R_scope.

Lemma fold_left_sumn : forall (f : nat -> R) n a, fold_left (fun cd j => cd + f j) (seq 0 n) a = a + sumn n f.
Proof.
  intros f n a. induction n as [|n IH]; [simpl; lra|].
  rewrite seq_S, fold_left_app, IH. simpl. lra.
Qed.

Lemma sumn_truncate : forall (f : nat -> R) n m, (m <= n)%nat ->
  (forall j, (m <= j)%nat -> (j < n)%nat -> f j = 0) -> sumn n f = sumn m f.
Proof.
  induction n as [|n IH]; intros m Hm Z.
  - assert (m = 0)%nat by lia. subst. reflexivity.
  - destruct (Nat.eq_dec m (S n)) as [->|N]; [reflexivity|]. cbn [sumn].
    rewrite (Z n) by lia. rewrite (IH m) by (try lia; intros; apply Z; lia). lra.
Qed.

Lemma conditional_draw_lower : forall n nw mean U b, Spec_ConditionalDraws.lower_triangular n U ->
  conditional_draw n nw mean U b = shocks_from n nw mean U b.
Proof.
  intros n nw mean U b Lt. unfold conditional_draw, shocks_from. apply map_ext_in. intros i Hi.
  apply in_seq in Hi. rewrite fold_left_sumn.
  assert (E : sumn (S i) (fun j => nth j b 0 * U i j) = sumn n (fun k => U i k * nth k b 0)).
  { rewrite (sumn_truncate (fun k => U i k * nth k b 0) n (S i)); [apply sumn_ext; intros; lra|lia|].
    intros j H1 H2. rewrite Lt by lia. lra. }
  rewrite E. cbv zeta. destruct (Nat.ltb i nw); [|reflexivity]. f_equal.
  unfold max_log_float. destruct (Rlt_dec 460 _) as [H|H].
  - rewrite Rmin_left by lra. reflexivity.
  - rewrite Rmin_right by lra. reflexivity.
Qed.

Lemma simulate_value : forall wages nonpecs conts draws delta c tau lp,
  same_lengths wages nonpecs conts draws -> (c < length wages)%nat ->
  simulate_log_probability wages nonpecs conts draws delta c tau = Ok lp ->
  lp = ln (smoothed_probability wages nonpecs conts delta draws tau c).
Proof.
  intros wages nonpecs conts draws delta c tau lp SL Hc H.
  assert (Ht : tau <> 0).
  { intros ->. unfold simulate_log_probability in H. destruct (Req_EM_T 0 0); [discriminate|congruence]. }
  assert (Hd : draws <> []).
  { intros ->. unfold simulate_log_probability in H. destruct (Req_EM_T tau 0); discriminate. }
  destruct (simulate_spec wages nonpecs conts draws delta c tau SL Hc Hd Ht) as [lp' [E [X _]]].
  rewrite E in H. injection H as <-. rewrite <- X, ln_exp. reflexivity.
Qed.

Lemma positions_nth : forall cs a, (a < count_true cs)%nat ->
  nth_error (positions cs) a = Some (nth a (positions cs) 0%nat).
Proof. intros cs a H. apply nth_error_nth'. rewrite length_positions. exact H. Qed.

Lemma Forall_positions_sorted : forall cs a b, (a < b)%nat -> (b < count_true cs)%nat ->
  (nth a (positions cs) 0 < nth b (positions cs) 0)%nat.
Proof.
  intros cs a b Hab Hb. pose proof (positions_sorted cs) as S.
  rewrite <- length_positions in Hb. revert a b Hab Hb S.
  generalize (positions cs) as l. induction l as [|x l IH]; intros a b Hab Hb S; [simpl in Hb; lia|].
  destruct b as [|b]; [lia|]. inversion S as [|? ? S' F]; subst. destruct a as [|a]; cbn [nth].
  - rewrite Forall_forall in F. apply F. apply nth_In. simpl in Hb. lia.
  - apply IH; [lia|simpl in Hb; lia|exact S'].
Qed.

Lemma subset_lower : forall L cs, square (length cs) L -> Spec_Solve.lower_triangular L ->
  Spec_ConditionalDraws.lower_triangular (count_true cs) (of_rows (subset_cholesky L cs)).
Proof.
  intros L cs Sq Lt a b Ha Hb H.
  rewrite (subset_entry L cs a b _ _ Sq (positions_nth cs a Ha) (positions_nth cs b Hb)).
  apply Lt. apply Forall_positions_sorted; assumption.
Qed.

Lemma restricted_matrix_gram : forall L cs a b, square (length cs) L ->
  (a < count_true cs)%nat -> (b < count_true cs)%nat ->
  gram (count_true cs) (of_rows (subset_cholesky L cs)) a b = restricted_matrix L cs a b.
Proof.
  intros L cs a b Sq Ha Hb. unfold restricted_matrix.
  apply restricted_gram; [exact Sq| |]; apply positions_nth; assumption.
Qed.

Lemma length_wages_available : forall nw cs,
  length (select_valid_choices (seq 0 nw) cs) = count_true (firstn nw cs).
Proof.
  intros nw cs. unfold select_valid_choices, enumerate. rewrite map_length.
  assert (G : forall (l : list nat) pre cs,
    length (filter (fun p => nth (fst p) (pre ++ cs) false) (enumerate_from (length pre) l))
    = count_true (firstn (length l) cs)).
  { clear. induction l as [|a l IH]; intros pre cs; [reflexivity|].
    cbn [enumerate_from filter fst length firstn]. destruct cs as [|b cs].
    - rewrite nth_overflow by (rewrite app_nil_r; lia).
      specialize (IH (pre ++ [false]) []). rewrite app_length in IH. cbn [length] in IH.
      rewrite Nat.add_1_r in IH. rewrite firstn_nil in IH. etransitivity; [|exact IH].
      f_equal. apply filter_ext. intros [k y]. cbn [fst]. rewrite !app_nil_r.
      destruct (Nat.lt_ge_cases k (length pre)) as [H|H].
      + rewrite app_nth1 by exact H. reflexivity.
      + rewrite (nth_overflow pre) by exact H. rewrite app_nth2 by exact H.
        destruct (k - length pre)%nat as [|[|m]]; reflexivity.
    - rewrite app_nth2, Nat.sub_diag by lia. cbn [nth].
      specialize (IH (pre ++ [b]) cs). rewrite app_length in IH. cbn [length] in IH.
      rewrite Nat.add_1_r, <- app_assoc in IH. cbn [app] in IH.
      destruct b; cbn [length]; rewrite IH; reflexivity. }
  etransitivity; [exact (G (seq 0 nw) [] cs)|]. rewrite seq_length. reflexivity.
Qed.

(** What is used for the contribution of the choice. *)
Lemma row_choice : forall rc qr lk cs wages nonpec cont base code wage i s sd lc lw,
  cholesky_routine rc -> qr_routine qr ->
  square (length cs) (lk_chol lk) -> Spec_Solve.lower_triangular (lk_chol lk) ->
  length wages = count_true cs -> length nonpec = count_true cs -> length cont = count_true cs ->
  nth_error (positions cs) i = Some code ->
  nth_error wages i = Some s -> nth_error (lk_meas lk) i = Some sd ->
  (forall w, wage = Some w -> representable w /\ representable s /\
     (i < count_true (firstn (lk_nwages lk) cs))%nat /\ restricted_cov (lk_chol lk) cs code code <> 0 /\
     if lk_has_meas lk
     then sd <> 0 /\ forall c, available cs c -> mat (lk_chol lk) c c <> 0
     else sd = 0) ->
  row_loglikes rc qr lk cs wages nonpec cont base code wage = Ok (lc, lw) ->
  exists mean U,
    conditional_distribution (lk_chol lk) cs i s sd wage mean U /\
    lc = clip (- 10 ^ 200) (10 ^ 200)
           (ln (smoothed_probability wages nonpec cont (lk_beta_delta lk)
                  (map (shocks_from (count_true cs) (count_true (firstn (lk_nwages lk) cs)) mean U) base)
                  (lk_tau lk) i)).
Proof.
  intros rc qr lk cs wages nonpec cont base code wage i s sd lc lw RC QR Sq Lt Lw Ln Lc Hi Hs Hsd HW H.
  assert (Hin : (i < count_true cs)%nat) by (rewrite <- length_positions; apply nth_error_Some; rewrite Hi; discriminate).
  unfold row_loglikes in H. rewrite (map_choice_position cs i code Hi) in H. cbn [result_bind] in H.
  rewrite length_wages_available in H.
  set (nw := count_true (firstn (lk_nwages lk) cs)) in *. set (n := count_true cs) in *.
  assert (Nw : (nw <= n)%nat).
  { unfold nw, n. clear. revert cs. generalize (lk_nwages lk). induction n as [|m IH]; intros cs; [cbn; lia|].
    destruct cs as [|c cs]; [cbn; lia|]. cbn [firstn]. unfold count_true in *. cbn [filter]. specialize (IH cs).
    destruct c; cbn [length]; lia. }
  unfold create_draws_and_log_prob_wages in H. rewrite Hs, Lw in H.
  pose proof (subset_lower (lk_chol lk) cs Sq Lt) as LS. fold n in LS.
  assert (G : forall a b, (a < n)%nat -> (b < n)%nat ->
             gram n (of_rows (subset_cholesky (lk_chol lk) cs)) a b = restricted_matrix (lk_chol lk) cs a b).
  { intros a b Ha Hb. apply restricted_matrix_gram; assumption. }
  assert (Fin : forall mean U ll,
     Spec_ConditionalDraws.lower_triangular n U ->
     result_bind (simulate_log_probability wages nonpec cont
        (fst (map (conditional_draw n nw mean U) base, ll)) (lk_beta_delta lk) i (lk_tau lk))
       (fun lc0 => Ok (clip (- max_float) max_float lc0, clip (- max_float) max_float (snd (map (conditional_draw n nw mean U) base, ll)))) = Ok (lc, lw) ->
     lc = clip (- 10 ^ 200) (10 ^ 200)
           (ln (smoothed_probability wages nonpec cont (lk_beta_delta lk)
                  (map (shocks_from n nw mean U) base) (lk_tau lk) i))).
  { intros mean U ll LU E. cbn [fst snd] in E.
    rewrite (map_ext_in (conditional_draw n nw mean U) (shocks_from n nw mean U)) in E
      by (intros b _; apply conditional_draw_lower; exact LU).
    destruct (simulate_log_probability _ _ _ _ _ _ _) as [lp| | | | |] eqn:Es in E; try discriminate. cbn [result_bind] in E.
    injection E as <- _. unfold max_float. f_equal. apply simulate_value; [|rewrite Lw; exact Hin|exact Es].
    split; [lia|]. split; [lia|]. intros e He. apply in_map_iff in He. destruct He as [b [<- _]].
    unfold shocks_from. rewrite map_length, seq_length. symmetry. exact Lw. }
  destruct wage as [w|]; cbn [log_wage option_map] in H.
  - destruct (HW w eq_refl) as [Rw [Rs [Hnw [NZ HM]]]].
    rewrite (representable_clip w Rw), (representable_clip s Rs) in H.
    set (L := of_rows (subset_cholesky (lk_chol lk) cs)) in *.
    assert (Gi : gram n L i i = restricted_cov (lk_chol lk) cs code code) by (apply restricted_gram; assumption).
    assert (Gp : 0 < gram n L i i).
    { assert (0 <= gram n L i i); [|rewrite Gi in *; lra].
      unfold gram. apply sumn_nonneg. intros k _. apply Rle_0_sqr. }
    assert (Gs : gram n L i i + sd ^ 2 <> 0) by (pose proof (pow2_ge_0 sd); lra).
    destruct (mean_spec n L i (ln w) (ln s) (lk_meas lk) sd Hsd Gs) as [mn [ll [E Em]]].
    rewrite E in H. cbn [result_bind fst snd] in H.
    assert (PC : forall a ba, (a < n)%nat ->
       restricted_matrix (lk_chol lk) cs a i - ba * (restricted_matrix (lk_chol lk) cs i i + sd ^ 2) = 0 ->
       prediction_coefficient (gram n L) i (sd ^ 2) a ba).
    { intros a ba Ha P. unfold prediction_coefficient. rewrite !G by assumption. exact P. }
    assert (K : exists U, (if lk_has_meas lk then update_cholcov_with_measurement_error qr n nw L (lk_meas lk) i
                           else update_cholcov rc n nw L i) = Ok U /\ Spec_ConditionalDraws.lower_triangular n U /\
       forall a b ba bb, (a < n)%nat -> (b < n)%nat ->
         prediction_coefficient (gram n L) i (sd ^ 2) a ba -> prediction_coefficient (gram n L) i (sd ^ 2) b bb ->
         sumn n (fun k => U a k * U b k) = error_covariance (gram n L) i (sd ^ 2) a b ba bb).
    { destruct (lk_has_meas lk) eqn:Eh.
      - destruct HM as [Hsd0 Hd].
        destruct (kalman_regular qr n nw L (lk_meas lk) sd i QR Hnw Nw Hsd Hsd0 LS) as [U [EU [LU [_ SU]]]].
        + intros k Hk. unfold L.
          rewrite (subset_entry (lk_chol lk) cs k k _ _ Sq (positions_nth cs k Hk) (positions_nth cs k Hk)).
          apply Hd. apply In_positions. apply nth_In. rewrite length_positions. exact Hk.
        + exists U. split; [exact EU|]. split; [exact LU|exact SU].
      - subst sd. destruct (cholcov_spec rc n nw L i RC Hnw Nw) as [U [EU [LU [_ SU]]]]; [lra|].
        exists U. split; [exact EU|]. split; [exact LU|]. intros a b ba bb Ha Hb Pa Pb.
        assert (Z : 0 ^ 2 = 0) by lra. rewrite Z in *. apply SU; assumption. }
    destruct K as [U [EU [LU SU]]]. rewrite EU in H. cbn [result_bind] in H.
    exists mn, U. split; [|exact (Fin mn U ll LU H)].
    intros a b ba bb Ha Hb Pa Pb. fold n in Ha, Hb.
    pose proof (PC a ba Ha Pa) as Qa. pose proof (PC b bb Hb Pb) as Qb. split.
    + apply Em. exact Qa.
    + fold n. rewrite (SU a b ba bb Ha Hb Qa Qb). unfold error_covariance. rewrite !G by assumption. reflexivity.
  - cbn [update_mean_and_evaluate_likelihood result_bind fst snd] in H.
    set (L := of_rows (subset_cholesky (lk_chol lk) cs)) in *.
    destruct (cholcov_unobserved rc qr n nw L (lk_meas lk)) as [E1 E2]. rewrite E1, E2 in H.
    assert (Eif : (if lk_has_meas lk then Ok L else Ok L) = Ok L) by (destruct (lk_has_meas lk); reflexivity).
    rewrite Eif in H. cbn [result_bind] in H.
    exists (fun _ => 0), L. split; [|exact (Fin (fun _ => 0) L 0 LS H)].
    split; [reflexivity|]. intros a b Ha Hb. apply subset_entry; [exact Sq| |]; apply positions_nth; assumption.
Qed.
