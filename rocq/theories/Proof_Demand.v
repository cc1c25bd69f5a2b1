(** Proofs about changes of the rewards of one choice. *)
From Coq Require Import List Arith Bool Lia Reals Lra.
From Verif Require Import Base Model_CoreStateSpace Model_StateSpace Model_Solve Model_Parallel Model_ConditionalDraws
  Model_Likelihood Model_Simulate.
From Verif Require Import Spec_CoreStateSpace Spec_Solve Spec_Likelihood Spec_Simulate Spec_Demand
  Proof_Base Proof_Likelihood Proof_LikelihoodRows Proof_Simulate Proof_Smoothing.
Import ListNotations.
Open Scope R_scope.

Lemma rsum_map_le_nth : forall z z' f g, length z' = length z ->
  (forall k, (k < length z)%nat -> f (nth k z 0) <= g (nth k z' 0)) -> rsum (map f z) <= rsum (map g z').
Proof.
  induction z as [|a z IH]; intros [|a' z'] f g L H; try discriminate; [unfold rsum; simpl; lra|].
  cbn [map]. change (f a + rsum (map f z) <= g a' + rsum (map g z')).
  apply Rplus_le_compat; [apply (H 0%nat); simpl; lia|].
  apply IH; [simpl in L; lia|]. intros k Hk. apply (H (S k)). simpl. lia.
Qed.

Lemma exp_le : forall x y, x <= y -> exp x <= exp y.
Proof. intros x y [H|H]; [left; apply exp_increasing, H|rewrite H; lra]. Qed.

Lemma logit_ratio : forall z c, z <> [] -> logit z c = / rsum (map (fun y => exp (y - nth c z 0)) z).
Proof.
  intros z c H. unfold logit.
  assert (E : rsum (map (fun y => exp (y - nth c z 0)) z) = rsum (map exp z) * / exp (nth c z 0)).
  { generalize (nth c z 0). clear. intros v. induction z as [|a z IH]; [unfold rsum; simpl; lra|].
    cbn [map]. change (exp (a - v) + rsum (map (fun y => exp (y - v)) z) = (exp a + rsum (map exp z)) * / exp v).
    rewrite IH. unfold Rminus. rewrite exp_plus, exp_Ropp. lra. }
  pose proof (rsum_exp_pos z H). pose proof (exp_pos (nth c z 0)). rewrite E. field. split; lra.
Qed.

Lemma logit_raised : forall z z' j x c, raised j x z z' -> 0 <= x -> (c < length z)%nat ->
  (c = j -> logit z c <= logit z' c) /\ (c <> j -> logit z' c <= logit z c).
Proof.
  intros z z' j x c [L [Hj [Rj Ro]]] X Hc.
  assert (N : z <> []) by (intros ->; simpl in Hc; lia).
  assert (N' : z' <> []) by (intros ->; simpl in L; destruct z; [contradiction|discriminate]).
  rewrite !logit_ratio by assumption.
  assert (P : forall l v, l <> [] -> 0 < rsum (map (fun y => exp (y - v)) l)).
  { clear. intros [|a l] v H; [contradiction|]. cbn [map].
    change (0 < exp (a - v) + rsum (map (fun y => exp (y - v)) l)).
    assert (0 <= rsum (map (fun y => exp (y - v)) l)); [|pose proof (exp_pos (a - v)); lra].
    clear. induction l as [|b l IH]; [unfold rsum; simpl; lra|]. cbn [map].
    change (0 <= exp (b - v) + rsum (map (fun y => exp (y - v)) l)). pose proof (exp_pos (b - v)). lra. }
  split; intros E; apply Rinv_le_contravar; try (apply P; assumption).
  - subst c. apply rsum_map_le_nth; [congruence|]. intros k Hk. apply exp_le. rewrite Rj.
    destruct (Nat.eq_dec k j) as [->|NE]; [rewrite Rj; lra|rewrite (Ro k NE); lra].
  - apply rsum_map_le_nth; [exact L|]. intros k Hk. apply exp_le. rewrite (Ro c E).
    destruct (Nat.eq_dec k j) as [->|NE]; [rewrite Rj; lra|rewrite (Ro k NE); lra].
Qed.

Lemma nth_choice_values : forall w n c d e k, (k < length w)%nat ->
  nth k (choice_values w n c d e) 0 = nth k w 0 * nth k e 0 + nth k n 0 + d * nth k c 0.
Proof.
  intros w n c d e k H. unfold choice_values.
  rewrite (nth_indep _ 0 ((fun j => nth j w 0 * nth j e 0 + nth j n 0 + d * nth j c 0) 0%nat))
    by (rewrite map_length, seq_length; exact H).
  rewrite (map_nth (fun j => nth j w 0 * nth j e 0 + nth j n 0 + d * nth j c 0)).
  rewrite seq_nth by exact H. reflexivity.
Qed.

Lemma scaled_raised : forall w n n' c d e tau j x, raised j x n n' -> length n = length w -> tau <> 0 ->
  raised j (x / tau) (map (fun v => v / tau) (choice_values w n c d e))
                     (map (fun v => v / tau) (choice_values w n' c d e)).
Proof.
  intros w n n' c d e tau j x [L [Hj [Rj Ro]]] Ln T. unfold raised. rewrite !map_length, !choice_values_length.
  assert (Q : forall n0 k, (k < length w)%nat -> nth k (map (fun v => v / tau) (choice_values w n0 c d e)) 0 =
                nth k (choice_values w n0 c d e) 0 / tau).
  { intros n0 k Hk. rewrite (nth_indep _ 0 (0 / tau)) by (rewrite map_length, choice_values_length; exact Hk).
    apply (map_nth (fun v => v / tau)). }
  split; [reflexivity|]. split; [lia|]. split.
  - rewrite !Q by lia. rewrite !nth_choice_values by lia. rewrite Rj. field. exact T.
  - intros k NE. destruct (Nat.lt_ge_cases k (length w)) as [Hk|Hk].
    + rewrite !Q by exact Hk. rewrite !nth_choice_values by exact Hk. rewrite (Ro k NE). reflexivity.
    + rewrite !nth_overflow by (rewrite map_length, choice_values_length; exact Hk). reflexivity.
Qed.

Lemma mean_le_map : forall {A} (f g : A -> R) l, (forall a, In a l -> f a <= g a) -> mean (map f l) <= mean (map g l).
Proof.
  intros A f g l H. unfold mean. rewrite !map_length.
  destruct l as [|a l]; [unfold rsum; simpl; lra|].
  apply Rmult_le_compat_r; [left; apply Rinv_0_lt_compat, lt_0_INR; simpl; lia|].
  revert H. generalize (a :: l). clear. intros l H. induction l as [|b l IH]; [unfold rsum; simpl; lra|].
  cbn [map]. change (f b + rsum (map f l) <= g b + rsum (map g l)).
  apply Rplus_le_compat; [apply H; left; reflexivity|apply IH; intros; apply H; right; assumption].
Qed.

(** ** Probabilities *)
Lemma probability_raised : forall wages nonpecs nonpecs' conts draws delta c tau j x lp lp',
  same_lengths wages nonpecs conts draws -> raised j x nonpecs nonpecs' -> 0 <= x -> (c < length wages)%nat ->
  0 < tau ->
  simulate_log_probability wages nonpecs conts draws delta c tau = Ok lp ->
  simulate_log_probability wages nonpecs' conts draws delta c tau = Ok lp' ->
  (c = j -> lp <= lp') /\ (c <> j -> lp' <= lp).
Proof.
  intros wages n n' conts draws delta c tau j x lp lp' SL RA X Hc T E E'.
  assert (N : draws <> []).
  { intros ->. unfold simulate_log_probability in E. destruct (Req_EM_T tau 0); discriminate. }
  assert (SL' : same_lengths wages n' conts draws).
  { destruct SL as [A [B C]]. split; [|split; assumption]. destruct RA as [L _]. congruence. }
  destruct (simulate_spec wages n conts draws delta c tau SL Hc N ltac:(lra)) as [y [E1 [P1 _]]].
  destruct (simulate_spec wages n' conts draws delta c tau SL' Hc N ltac:(lra)) as [y' [E2 [P2 _]]].
  rewrite E in E1. injection E1 as <-. rewrite E' in E2. injection E2 as <-.
  assert (Ln : length n = length wages) by (destruct SL as [A _]; congruence).
  assert (Xt : 0 <= x / tau) by (apply Rmult_le_pos; [exact X|left; apply Rinv_0_lt_compat, T]).
  assert (Q : forall e, (c = j -> logit (map (fun v => v / tau) (choice_values wages n conts delta e)) c <=
                                  logit (map (fun v => v / tau) (choice_values wages n' conts delta e)) c) /\
                        (c <> j -> logit (map (fun v => v / tau) (choice_values wages n' conts delta e)) c <=
                                  logit (map (fun v => v / tau) (choice_values wages n conts delta e)) c)).
  { intros e. apply (logit_raised _ _ j (x / tau)); [apply scaled_raised; [exact RA|exact Ln|lra]|exact Xt|].
    rewrite map_length, choice_values_length. exact Hc. }
  assert (I : forall u v, exp u <= exp v -> u <= v).
  { intros u v H. destruct (Rle_lt_dec u v) as [|G]; [assumption|]. apply exp_increasing in G. lra. }
  split; intros D; apply I; rewrite P1, P2; unfold smoothed_probability; apply mean_le_map; intros e _; apply (Q e); exact D.
Qed.

Lemma clip_le : forall lo hi x y, x <= y -> clip lo hi x <= clip lo hi y.
Proof.
  intros lo hi x y H. unfold clip. apply Rmin_glb; [apply Rmin_l|].
  apply (Rle_trans _ (Rmax lo x)); [apply Rmin_r|]. apply Rmax_lub; [apply Rmax_l|].
  apply (Rle_trans _ y); [exact H|apply Rmax_r].
Qed.

(** ** Contributions to the likelihood *)
Lemma contribution_raised : forall rc qr lk cs wages nonpecs nonpecs' conts base code code' wage i j x lc lw lc' lw',
  nth_error (positions cs) i = Some code -> nth_error (positions cs) j = Some code' ->
  length wages = count_true cs -> length nonpecs = length wages -> length conts = length wages ->
  raised j x nonpecs nonpecs' -> 0 <= x -> 0 < lk_tau lk ->
  row_loglikes rc qr lk cs wages nonpecs conts base code wage = Ok (lc, lw) ->
  row_loglikes rc qr lk cs wages nonpecs' conts base code wage = Ok (lc', lw') ->
  lw' = lw /\ (code = code' -> lc <= lc') /\ (code <> code' -> lc' <= lc).
Proof.
  intros rc qr lk cs wages n n' conts base code code' wage i j x lc lw lc' lw' Hi Hj Lw Ln Lc RA X T H H'.
  unfold row_loglikes in H, H'. rewrite (map_choice_position cs i code Hi) in H, H'. cbn [result_bind] in H, H'.
  destruct (create_draws_and_log_prob_wages _ _ _ _ _ _ _ _ _ _) as [[draws ll]| | | | |] eqn:Ed; try discriminate.
  cbn [result_bind fst snd] in H, H'.
  destruct (simulate_log_probability wages n _ _ _ _ _) as [lp| | | | |] eqn:E in H; try discriminate.
  destruct (simulate_log_probability wages n' _ _ _ _ _) as [lp'| | | | |] eqn:E' in H'; try discriminate.
  cbn [result_bind] in H, H'. injection H as <- <-. injection H' as <- <-.
  assert (Hil : (i < length wages)%nat).
  { rewrite Lw, <- length_positions. apply nth_error_Some. congruence. }
  assert (SL : same_lengths wages n conts draws).
  { split; [congruence|]. split; [congruence|]. intros e He.
    unfold create_draws_and_log_prob_wages in Ed. destruct (nth_error wages i); [|discriminate].
    destruct (update_mean_and_evaluate_likelihood _ _ _ _ _) as [ml| | | | |]; try discriminate. cbn [result_bind] in Ed.
    destruct (if lk_has_meas lk then _ else _) as [U| | | | |] in Ed; try discriminate. cbn [result_bind] in Ed.
    injection Ed as <- _. apply in_map_iff in He. destruct He as [b [<- _]]. unfold conditional_draw.
    rewrite map_length, seq_length. reflexivity. }
  destruct (probability_raised wages n n' conts draws _ i _ j x lp lp' SL RA X Hil T E E') as [A B].
  split; [reflexivity|]. 
  assert (ND : NoDup (positions cs)) by apply NoDup_positions.
  split; intros D; apply clip_le.
  - apply A. subst code'. apply (proj1 (NoDup_nth_error (positions cs)) ND); [apply nth_error_Some; congruence|congruence].
  - apply B. intros ->. congruence.
Qed.

(** ** Simulated choices *)
Lemma nth_error_raised : forall j x l l' i v', raised j x l l' -> 0 <= x -> nth_error l' i = Some v' ->
  exists v, nth_error l i = Some v /\ v <= v' /\ (i <> j -> v = v') /\ (i = j -> v' = v + x).
Proof.
  intros j x l l' i v' [L [Hj [Rj Ro]]] X H.
  assert (Hi : (i < length l)%nat) by (rewrite <- L; apply nth_error_Some; congruence).
  exists (nth i l 0). split; [apply nth_error_nth'; exact Hi|].
  assert (E : v' = nth i l' 0) by (symmetry; apply nth_error_nth; exact H).
  destruct (Nat.eq_dec i j) as [->|NE].
  - rewrite E, Rj. split; [lra|]. split; [intros; contradiction|reflexivity].
  - rewrite E, (Ro i NE). split; [lra|]. split; [reflexivity|contradiction].
Qed.

Lemma nth_error_raised' : forall j x l l' i v, raised j x l l' -> 0 <= x -> nth_error l i = Some v ->
  exists v', nth_error l' i = Some v' /\ v <= v' /\ (i <> j -> v = v') /\ (i = j -> v' = v + x).
Proof.
  intros j x l l' i v RA X H.
  assert (Hi : (i < length l')%nat) by (destruct RA as [-> _]; apply nth_error_Some; congruence).
  destruct (nth_error l' i) as [v'|] eqn:E; [|apply nth_error_None in E; lia].
  exists v'. split; [reflexivity|]. destruct (nth_error_raised j x l l' i v' RA X E) as [w [Ew Q]].
  rewrite H in Ew. injection Ew as <-. exact Q.
Qed.

Lemma argmax_raised : forall j x l l' p p', raised j x l l' -> 0 <= x -> argmax l = Some p -> argmax l' = Some p' ->
  p' = j \/ p' = p.
Proof.
  intros j x l l' p p' RA X A A'. destruct (Nat.eq_dec p' j) as [->|NE]; [left; reflexivity|right].
  apply (first_max_unique l); [|apply argmax_spec; exact A].
  apply argmax_spec in A'. destruct A' as [v' [B1 [B2 B3]]].
  destruct (nth_error_raised j x l l' p' v' RA X B1) as [v [V1 [_ [V2 _]]]]. rewrite (V2 NE) in V1.
  exists v'. split; [exact V1|]. split.
  - intros i w Hw. destruct (nth_error_raised' j x l l' i w RA X Hw) as [w' [W1 [W2 _]]].
    pose proof (B2 i w' W1). lra.
  - intros i w Hi Hw. destruct (nth_error_raised' j x l l' i w RA X Hw) as [w' [W1 [W2 _]]].
    pose proof (B3 i w' Hi W1). lra.
Qed.

Lemma values_raised : forall w n n' c d delta j x, raised j x n n' -> length n = length w ->
  raised j x (value_functions w n c d delta) (value_functions w n' c d delta).
Proof.
  intros w n n' c d delta j x [L [Hj [Rj Ro]]] Ln.
  assert (Lv : forall n0, length (value_functions w n0 c d delta) = length w).
  { intros n0. unfold value_functions. rewrite map_length, seq_length. reflexivity. }
  assert (Q : forall n0 k, (k < length w)%nat -> nth k (value_functions w n0 c d delta) 0 =
             nth k w 0 * nth k d 0 + nth k n0 0 + delta * nth k c 0).
  { intros n0 k Hk. unfold value_functions. rewrite nth_map_seq by exact Hk. reflexivity. }
  unfold raised. rewrite !Lv. split; [reflexivity|]. split; [lia|]. split.
  - rewrite !Q by lia. rewrite Rj. lra.
  - intros k NE. destruct (Nat.lt_ge_cases k (length w)) as [Hk|Hk].
    + rewrite !Q by exact Hk. rewrite (Ro k NE). reflexivity.
    + rewrite !nth_overflow by (rewrite Lv; exact Hk). reflexivity.
Qed.

Lemma row_position : forall si nk cx W N C i r o w n,
  NoDup (si_choices si) -> length (cx_choice_set cx) = length (si_choices si) -> in_place (cx_choice_set cx) ->
  nth_error W (r_index r) = Some w -> nth_error N (r_index r) = Some n ->
  length w = count_true (cx_choice_set cx) ->
  simulate_row si nk cx W N C i r = Ok o ->
  exists c p,
    let n_wages := count_true (firstn (p_nwages (si_params si)) (cx_choice_set cx)) in
    let draws := transform_draw (subset_cholesky (p_chol (si_params si)) (cx_choice_set cx)) n_wages
                   (compress (cx_choice_set cx) (r_shocks r)) in
    nth_error C (r_index r) = Some c /\
    argmax (value_functions w n c draws (si_beta si * p_delta (si_params si))) = Some p /\
    nth_error (positions (cx_choice_set cx)) p = Some (o_choice o) /\
    o_wage o = nth p (observed_wages w draws (compress (cx_choice_set cx) (r_meas r)) n_wages) None.
Proof.
  intros si nk cx W N C i r o w n ND Lc IP Hw Hn Lw H. unfold simulate_row in H. rewrite Hw, Hn in H.
  destruct (nth_error C (r_index r)) as [c|]; [|discriminate].
  cbv zeta in H |- *.
  match type of H with context[transform_draw ?a ?b ?e] => set (draws := transform_draw a b e) in * end.
  set (vals := value_functions w n c draws (si_beta si * p_delta (si_params si))) in *.
  assert (Lv : length vals = count_true (cx_choice_set cx)).
  { unfold vals, value_functions. rewrite map_length, seq_length. exact Lw. }
  rewrite (record_choice_eq (si_choices si) (cx_choice_set cx) vals ND Lc) in H.
  destruct (argmax vals) as [p|] eqn:A; [|discriminate]. cbn [option_map] in H. injection H as <-.
  exists c, p. split; [reflexivity|]. split; [exact A|]. cbn [o_choice o_wage]. split; [|reflexivity].
  apply argmax_spec in A. destruct A as [v [Hv _]].
  assert (L : (p < length (positions (cx_choice_set cx)))%nat).
  { rewrite length_positions, <- Lv. apply nth_error_Some. congruence. }
  destruct (nth_error (positions (cx_choice_set cx)) p) as [d|] eqn:Hd; [|apply nth_error_None in Hd; lia].
  rewrite (recode_in_place _ _ d Hd) by (rewrite length_positions; apply IP; exact Hd). reflexivity.
Qed.

Lemma choice_raised : forall si nk cx W N N' C i r o o' w n n' j x code,
  NoDup (si_choices si) -> length (cx_choice_set cx) = length (si_choices si) -> in_place (cx_choice_set cx) ->
  nth_error W (r_index r) = Some w -> length w = count_true (cx_choice_set cx) ->
  nth_error N (r_index r) = Some n -> nth_error N' (r_index r) = Some n' -> length n = length w ->
  nth_error (positions (cx_choice_set cx)) j = Some code -> raised j x n n' -> 0 <= x ->
  simulate_row si nk cx W N C i r = Ok o -> simulate_row si nk cx W N' C i r = Ok o' ->
  (o_choice o = code -> o_choice o' = code) /\
  (o_choice o' = code \/ o_choice o' = o_choice o) /\
  (o_choice o' = o_choice o -> o_wage o' = o_wage o).
Proof.
  intros si nk cx W N N' C i r o o' w n n' j x code ND Lc IP Hw Lw Hn Hn' Ln Hj RA X H H'.
  destruct (row_position _ _ _ _ _ _ _ _ _ _ _ ND Lc IP Hw Hn Lw H) as [c [p [Hc [A [P Wg]]]]].
  destruct (row_position _ _ _ _ _ _ _ _ _ _ _ ND Lc IP Hw Hn' Lw H') as [c' [p' [Hc' [A' [P' Wg']]]]].
  rewrite Hc in Hc'. injection Hc' as <-.
  cbv zeta in *.
  destruct (argmax_raised _ _ _ _ _ _ (values_raised _ _ _ _ _ _ _ _ RA Ln) X A A') as [E0|E0]; subst p'.
  - rewrite Hj in P'. injection P' as E. split; [intros _; congruence|]. split; [left; congruence|].
    intros D. assert (Ep : j = p).
    { apply (proj1 (NoDup_nth_error (positions (cx_choice_set cx))) (NoDup_positions _)); [apply nth_error_Some; congruence|congruence]. }
    subst p. congruence.
  - rewrite P in P'. injection P' as E. split; [intros; congruence|]. split; [right; congruence|]. intros _. congruence.
Qed.

(** A large increase. *)
Lemma bounded_list : forall (l : list R), exists B, forall v, In v l -> v <= B.
Proof.
  induction l as [|a l [B H]]; [exists 0; intros v []|]. exists (Rmax a B). intros v [<-|I].
  - apply Rmax_l.
  - apply (Rle_trans _ B); [apply H, I|apply Rmax_r].
Qed.

Lemma choice_bought : forall si nk cx W N C i r o w n j code,
  NoDup (si_choices si) -> length (cx_choice_set cx) = length (si_choices si) -> in_place (cx_choice_set cx) ->
  nth_error W (r_index r) = Some w -> length w = count_true (cx_choice_set cx) ->
  nth_error N (r_index r) = Some n -> length n = length w ->
  nth_error (positions (cx_choice_set cx)) j = Some code ->
  simulate_row si nk cx W N C i r = Ok o ->
  exists X, 0 <= X /\ forall x N' n' o', X < x -> nth_error N' (r_index r) = Some n' -> raised j x n n' ->
    simulate_row si nk cx W N' C i r = Ok o' -> o_choice o' = code.
Proof.
  intros si nk cx W N C i r o w n j code ND Lc IP Hw Lw Hn Ln Hj H.
  destruct (row_position _ _ _ _ _ _ _ _ _ _ _ ND Lc IP Hw Hn Lw H) as [c [p [Hc [A [P Wg]]]]].
  cbv zeta in A.
  match type of A with argmax ?v = _ => set (vals := v) in * end.
  destruct (bounded_list vals) as [B HB].
  exists (Rmax 0 (B - nth j vals 0)). split; [apply Rmax_l|].
  intros x N' n' o' Hx Hn' RA H'.
  pose proof (Rmax_l 0 (B - nth j vals 0)). pose proof (Rmax_r 0 (B - nth j vals 0)).
  destruct (row_position _ _ _ _ _ _ _ _ _ _ _ ND Lc IP Hw Hn' Lw H') as [c' [p' [Hc' [A' [P' _]]]]].
  rewrite Hc in Hc'. injection Hc' as <-.
  cbv zeta in A'.
  match type of A' with argmax ?v = _ => set (vals' := v) in * end.
  assert (RV' : raised j x vals vals') by (apply values_raised; assumption).
  destruct (Nat.eq_dec p' j) as [->|NE]; [congruence|exfalso].
  apply argmax_spec in A'. destruct A' as [v' [B1 [B2 _]]].
  destruct (nth_error_raised j x vals vals' p' v' RV' ltac:(lra) B1) as [v [V1 [_ [V2 _]]]].
  pose proof (HB v (nth_error_In _ _ V1)) as Bv. rewrite (V2 NE) in Bv.
  assert (Hjl : (j < length vals)%nat).
  { destruct RV' as [_ [Q _]]. exact Q. }
  destruct (nth_error_raised' j x vals vals' j (nth j vals 0) RV' ltac:(lra) (nth_error_nth' _ _ Hjl)) as [u [U1 [_ [_ U2]]]].
  pose proof (B2 j u U1). rewrite (U2 eq_refl) in *. lra.
Qed.
