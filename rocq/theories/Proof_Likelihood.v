(** Proofs about choice probabilities, choice codes and rows of the likelihood. *)
From Coq Require Import List Arith Bool Reals Lra Lia Sorting.Permutation Sorting.Sorted.
From Verif Require Import Base Proof_Base Model_CoreStateSpace Model_StateSpace Proof_StateSpace
  Model_Parallel Model_Solve Spec_Solve Proof_Solve
  Model_ConditionalDraws Spec_ConditionalDraws Proof_Matrix Proof_ConditionalDraws
  Model_Likelihood Spec_Likelihood.
Import ListNotations.
Open Scope R_scope.

(** ** logsumexp *)
Lemma rsum_exp_nonneg : forall l, 0 <= rsum (map exp l).
Proof. induction l as [|x l IH]; simpl; [lra|]. pose proof (exp_pos x). unfold rsum in *. lra. Qed.
Lemma rsum_exp_pos : forall l, l <> [] -> 0 < rsum (map exp l).
Proof.
  intros [|x l] H; [contradiction|]. simpl. pose proof (exp_pos x). pose proof (rsum_exp_nonneg l).
  unfold rsum in *. lra.
Qed.

Lemma search_max_from : forall l m,
  exists M, fold_left (fun m xi => match m with
       | None => Some xi | Some m' => if Rlt_dec m' xi then Some xi else Some m' end) l (Some m) = Some M /\
    m <= M /\ (forall x, In x l -> x <= M) /\ (M = m \/ In M l).
Proof.
  induction l as [|y l IH]; intros m; cbn [fold_left].
  - exists m. repeat split; auto; try lra. intros x [].
  - destruct (Rlt_dec m y) as [L|L].
    + destruct (IH y) as [M [E [H1 [H2 H3]]]]. exists M. repeat split; auto; try lra.
      * intros x [->|Hx]; auto.
      * right. destruct H3 as [->|H3]; simpl; auto.
    + destruct (IH m) as [M [E [H1 [H2 H3]]]]. exists M. repeat split; auto; try lra.
      * intros x [->|Hx]; auto. lra.
      * destruct H3 as [->|H3]; simpl; auto.
Qed.

Lemma maximum_spec : forall x l, (forall y, In y (x :: l) -> y <= maximum (x :: l)) /\ In (maximum (x :: l)) (x :: l).
Proof.
  intros x l. cbn [maximum]. induction l as [|a l [IH1 IH2]]; cbn [fold_right].
  - split; [|left; reflexivity]. intros y [->|[]]. lra.
  - split.
    + intros y [->|[->|Hy]].
      * eapply Rle_trans; [apply (IH1 y); left; reflexivity|apply Rmax_r].
      * apply Rmax_l.
      * eapply Rle_trans; [apply (IH1 y); right; exact Hy|apply Rmax_r].
    + destruct (Rle_dec a (fold_right Rmax x l)) as [r|r].
      * rewrite Rmax_right by exact r. destruct IH2 as [E|E]; [left; exact E|right; right; exact E].
      * rewrite Rmax_left by lra. right. left. reflexivity.
Qed.

Lemma search_max_maximum : forall l, l <> [] -> search_max l = Some (maximum l).
Proof.
  intros [|x l] H; [contradiction|]. unfold search_max. cbn [fold_left].
  destruct (search_max_from l x) as [M [E [H1 [H2 H3]]]]. rewrite E. f_equal.
  destruct (maximum_spec x l) as [S1 S2]. apply Rle_antisym.
  - apply S1. destruct H3 as [->|H3]; simpl; auto.
  - destruct S2 as [<-|S2]; [exact H1|apply H2; exact S2].
Qed.

Lemma fold_left_sum : forall A (f : A -> R) l a, fold_left (fun s x => s + f x) l a = a + rsum (map f l).
Proof. induction l as [|x l IH]; intros a; simpl; [lra|]. rewrite IH. unfold rsum. simpl. lra. Qed.

Lemma rsum_map_ext : forall A (f g : A -> R) l, (forall x, In x l -> f x = g x) -> rsum (map f l) = rsum (map g l).
Proof. intros A f g l H. f_equal. apply map_ext_in. exact H. Qed.
Lemma rsum_map_scal : forall A (f : A -> R) c l, rsum (map (fun x => c * f x) l) = c * rsum (map f l).
Proof. intros A f c l. unfold rsum. induction l as [|x l IH]; simpl; [lra|]. rewrite IH. lra. Qed.

Lemma logsumexp_with_spec : forall f x, (forall y, y <= 0 -> f y = exp y) -> x <> [] ->
  logsumexp_with f x = Ok (ln (rsum (map exp x))).
Proof.
  intros f x Hf Hx. unfold logsumexp_with. rewrite (search_max_maximum x Hx). f_equal.
  rewrite (fold_left_sum R (fun xi => f (xi - maximum x))).
  rewrite (rsum_map_ext _ _ (fun xi => exp (- maximum x) * exp xi)).
  - rewrite rsum_map_scal, Rplus_0_l, ln_mult, ln_exp; [lra|apply exp_pos|apply rsum_exp_pos; exact Hx].
  - intros y Hy. rewrite Hf.
    + rewrite <- exp_plus. f_equal. lra.
    + destruct x as [|x0 l]; [contradiction|]. pose proof (proj1 (maximum_spec x0 l) y Hy). lra.
Qed.

Lemma logsumexp_spec : forall x, x <> [] -> logsumexp x = Ok (ln (rsum (map exp x))).
Proof. intros x H. apply logsumexp_with_spec; auto. Qed.

Lemma logsumexp_bounds : forall x s, logsumexp x = Ok s ->
  maximum x <= s <= maximum x + ln (INR (length x)).
Proof.
  intros x s H. destruct x as [|x0 l]; [discriminate|].
  rewrite logsumexp_spec in H by discriminate. injection H as <-.
  destruct (maximum_spec x0 l) as [M1 M2]. set (m := maximum (x0 :: l)) in *. set (L := x0 :: l) in *.
  assert (Up : rsum (map exp L) <= INR (length L) * exp m).
  { assert (G : forall k, (forall y, In y k -> y <= m) -> rsum (map exp k) <= INR (length k) * exp m).
    { induction k as [|y k IH]; intros Hk; [simpl; lra|]. cbn [map length]. rewrite S_INR.
      change (rsum (exp y :: map exp k)) with (exp y + rsum (map exp k)).
      assert (E : exp y <= exp m).
      { destruct (Hk y (or_introl eq_refl)) as [Q|Q]; [left; apply exp_increasing; exact Q|right; rewrite Q; reflexivity]. }
      specialize (IH (fun z Hz => Hk z (or_intror Hz))). lra. }
    apply G. exact M1. }
  assert (Lo : exp m <= rsum (map exp L)).
  { assert (G : forall k, In m k -> exp m <= rsum (map exp k)).
    { induction k as [|y k IH]; intros Hk; [contradiction|]. cbn [map].
      change (rsum (exp y :: map exp k)) with (exp y + rsum (map exp k)).
      pose proof (exp_pos y). pose proof (rsum_exp_nonneg k). destruct Hk as [->|Hk]; [lra|]. specialize (IH Hk). lra. }
    apply G. exact M2. }
  assert (Pos : 0 < rsum (map exp L)) by (pose proof (exp_pos m); lra).
  assert (PL : 0 < INR (length L)) by (apply lt_0_INR; unfold L; simpl; lia).
  assert (lnle : forall a b, 0 < a -> a <= b -> ln a <= ln b).
  { intros a b Ha [Q|Q]; [left; apply ln_increasing; assumption|right; rewrite Q; reflexivity]. }
  split.
  - rewrite <- (ln_exp m) at 1. apply lnle; [apply exp_pos|exact Lo].
  - assert (E : m + ln (INR (length L)) = ln (INR (length L) * exp m)).
    { rewrite ln_mult, ln_exp by (try apply exp_pos; exact PL). lra. }
    rewrite E. apply lnle; assumption.
Qed.

Lemma logsumexp_shift : forall x s c, logsumexp x = Ok s -> logsumexp (map (fun y => y + c) x) = Ok (s + c).
Proof.
  intros x s c H. destruct x as [|x0 l]; [discriminate|]. rewrite logsumexp_spec in H by discriminate. injection H as <-.
  rewrite logsumexp_spec by discriminate. f_equal. rewrite map_map.
  rewrite (rsum_map_ext _ _ (fun y => exp c * exp y)) by (intros; rewrite <- exp_plus; f_equal; lra).
  rewrite (rsum_map_scal _ exp), ln_mult, ln_exp; [simpl; unfold rsum; lra|apply exp_pos|apply rsum_exp_pos; discriminate].
Qed.

(** ** Choice probabilities *)
Definition scaled (wages nonpecs conts : list R) (delta tau : R) (e : list R) : list R :=
  map (fun v => v / tau) (choice_values wages nonpecs conts delta e).

Lemma logit_pos : forall z c, z <> [] -> 0 < logit z c.
Proof. intros z c H. unfold logit. apply Rdiv_lt_0_compat; [apply exp_pos|apply rsum_exp_pos; exact H]. Qed.

Lemma rsum_logit : forall z, z <> [] -> rsum (map (logit z) (seq 0 (length z))) = 1.
Proof.
  intros z H. unfold logit.
  assert (E : map (fun c => exp (nth c z 0) / rsum (map exp z)) (seq 0 (length z)) =
              map (fun x => / rsum (map exp z) * exp x) z).
  { transitivity (map (fun x => / rsum (map exp z) * exp x) (map (fun c => nth c z 0) (seq 0 (length z)))).
    - rewrite map_map. apply map_ext. intros c. unfold Rdiv. lra.
    - f_equal. clear H. induction z as [|x z IH]; [reflexivity|]. cbn [length seq map nth]. f_equal.
      rewrite <- seq_shift, map_map. exact IH. }
  rewrite E, rsum_map_scal. apply Rinv_l. pose proof (rsum_exp_pos z H). lra.
Qed.

Lemma logit_le1 : forall z c, (c < length z)%nat -> logit z c <= 1.
Proof.
  intros z c H. assert (Hz : z <> []) by (intros ->; simpl in H; lia).
  rewrite <- (rsum_logit z Hz).
  assert (G : forall l, In c l -> (forall i, In i l -> 0 <= logit z i) -> logit z c <= rsum (map (logit z) l)).
  { induction l as [|a l IH]; intros Hc Hp; [contradiction|]. cbn [map].
    change (rsum (logit z a :: map (logit z) l)) with (logit z a + rsum (map (logit z) l)).
    assert (P : 0 <= rsum (map (logit z) l)).
    { clear -Hp. assert (Q : forall i, In i l -> 0 <= logit z i) by (intros; apply Hp; right; assumption). clear Hp.
      induction l as [|b l IH]; simpl; [lra|]. pose proof (Q b (or_introl eq_refl)).
      pose proof (IH (fun i Hi => Q i (or_intror Hi))). unfold rsum in *. lra. }
    pose proof (Hp a (or_introl eq_refl)). destruct Hc as [->|Hc]; [lra|].
    specialize (IH Hc (fun i Hi => Hp i (or_intror Hi))). lra. }
  apply G; [apply in_seq; lia|]. intros i _. left. apply logit_pos. exact Hz.
Qed.

Lemma draw_spec : forall wages nonpecs conts delta tau c e, length e = length wages -> (c < length wages)%nat ->
  log_probability_of_draw wages nonpecs conts delta c tau e =
  Ok (ln (logit (scaled wages nonpecs conts delta tau e) c)).
Proof.
  intros wages nonpecs conts delta tau c e Le Hc. unfold log_probability_of_draw.
  assert (E : map (fun j => fst (aggregate_keane_wolpin_utility (nth j wages 0) (nth j nonpecs 0)
                (nth j conts 0) (nth j e 0) delta) / tau) (seq 0 (length e)) = scaled wages nonpecs conts delta tau e).
  { unfold scaled, choice_values. rewrite map_map, Le. reflexivity. }
  rewrite E. set (z := scaled wages nonpecs conts delta tau e).
  assert (Lz : length z = length wages) by (unfold z, scaled, choice_values; rewrite !map_length, seq_length; reflexivity).
  assert (Hz : z <> []) by (intros X; rewrite X in Lz; simpl in Lz; lia).
  destruct (nth_error z c) as [v|] eqn:Ev; [|apply nth_error_None in Ev; lia].
  rewrite (logsumexp_spec z Hz). simpl. f_equal. unfold logit.
  rewrite (nth_error_nth z c 0 Ev), ln_div, ln_exp; [reflexivity|apply exp_pos|apply rsum_exp_pos; exact Hz].
Qed.

Lemma result_all_map_value : forall A B (f : A -> result B) (g : A -> B) l,
  (forall a, In a l -> f a = Ok (g a)) -> result_all (map f l) = Ok (map g l).
Proof.
  intros A B f g l H. apply result_all_map_Ok. induction l as [|a l IH]; constructor.
  - apply H. left. reflexivity.
  - apply IH. intros b Hb. apply H. right. exact Hb.
Qed.

Lemma mean_positive : forall l, l <> [] -> (forall x, In x l -> 0 < x) -> 0 < mean l.
Proof.
  intros l Hl H. unfold mean. apply Rdiv_lt_0_compat; [|apply lt_0_INR; destruct l; [contradiction|simpl; lia]].
  destruct l as [|x l]; [contradiction|]. clear Hl.
  assert (P : 0 <= rsum l).
  { assert (Q : forall y, In y l -> 0 < y) by (intros; apply H; right; assumption). clear H.
    induction l as [|b l IH]; simpl; [lra|]. pose proof (Q b (or_introl eq_refl)).
    pose proof (IH (fun i Hi => Q i (or_intror Hi))). unfold rsum in *. lra. }
  pose proof (H x (or_introl eq_refl)). change (rsum (x :: l)) with (x + rsum l). lra.
Qed.

Lemma mean_le1 : forall l, l <> [] -> (forall x, In x l -> x <= 1) -> mean l <= 1.
Proof.
  intros l Hl H. unfold mean.
  assert (P : 0 < INR (length l)) by (apply lt_0_INR; destruct l; [contradiction|simpl; lia]).
  apply (Rmult_le_reg_r (INR (length l))); [exact P|]. unfold Rdiv. rewrite Rmult_assoc, Rinv_l, Rmult_1_r, Rmult_1_l by lra.
  clear Hl P. induction l as [|x l IH]; [simpl; lra|]. cbn [length]. rewrite S_INR.
  change (rsum (x :: l)) with (x + rsum l). pose proof (H x (or_introl eq_refl)).
  pose proof (IH (fun y Hy => H y (or_intror Hy))). lra.
Qed.

Lemma choice_values_length : forall w n c d e, length (choice_values w n c d e) = length w.
Proof. intros. unfold choice_values. rewrite map_length, seq_length. reflexivity. Qed.

Lemma simulate_spec : forall wages nonpecs conts draws delta c tau,
  same_lengths wages nonpecs conts draws -> (c < length wages)%nat -> draws <> [] -> tau <> 0 ->
  exists lp, simulate_log_probability wages nonpecs conts draws delta c tau = Ok lp /\
    exp lp = smoothed_probability wages nonpecs conts delta draws tau c /\
    0 < exp lp <= 1.
Proof.
  intros wages nonpecs conts draws delta c tau [_ [_ Le]] Hc Hd Ht. unfold simulate_log_probability.
  destruct (Req_EM_T tau 0) as [E|_]; [contradiction|].
  rewrite (result_all_map_value _ _ _ (fun e => ln (logit (scaled wages nonpecs conts delta tau e) c)))
    by (intros e He; apply draw_spec; auto).
  cbn [result_bind].
  set (ps := map (fun e => logit (scaled wages nonpecs conts delta tau e) c) draws).
  assert (NE : forall e, scaled wages nonpecs conts delta tau e <> []).
  { intros e X. apply (f_equal (@length R)) in X. unfold scaled in X.
    rewrite map_length, choice_values_length in X. simpl in X. lia. }
  rewrite logsumexp_spec by (destruct draws; [contradiction|discriminate]). cbn [result_bind].
  eexists. split; [reflexivity|].
  assert (Eps : rsum (map exp (map (fun e => ln (logit (scaled wages nonpecs conts delta tau e) c)) draws)) = rsum ps).
  { rewrite map_map. unfold ps. apply rsum_map_ext. intros e _. apply exp_ln. apply logit_pos. apply NE. }
  rewrite Eps.
  assert (Nn : 0 < INR (length draws)) by (apply lt_0_INR; destruct draws; [contradiction|simpl; lia]).
  assert (Hps : ps <> []) by (unfold ps; destruct draws; [contradiction|discriminate]).
  assert (Lps : length ps = length draws) by (unfold ps; apply map_length).
  assert (Mp : 0 < mean ps).
  { apply mean_positive; [exact Hps|]. unfold ps. intros x Hx. apply in_map_iff in Hx.
    destruct Hx as [e [<- _]]. apply logit_pos. apply NE. }
  assert (M1 : mean ps <= 1).
  { apply mean_le1; [exact Hps|]. unfold ps. intros x Hx. apply in_map_iff in Hx. destruct Hx as [e [<- He]].
    apply logit_le1. unfold scaled. rewrite map_length, choice_values_length. exact Hc. }
  assert (Sp : 0 < rsum ps).
  { unfold mean in Mp. rewrite Lps in Mp. apply (Rmult_lt_compat_r (INR (length draws))) in Mp; [|exact Nn].
    unfold Rdiv in Mp. rewrite Rmult_assoc, Rinv_l in Mp by lra. lra. }
  rewrite <- ln_div by assumption. rewrite exp_ln by (apply Rdiv_lt_0_compat; assumption).
  assert (Em : rsum ps / INR (length draws) = mean ps) by (unfold mean; rewrite Lps; reflexivity).
  rewrite Em. split; [reflexivity|lra].
Qed.

Lemma rsum_app' : forall a b, rsum (a ++ b) = rsum a + rsum b.
Proof. induction a as [|x a IH]; intros b; simpl; [lra|]. unfold rsum in *. rewrite IH. lra. Qed.

Lemma rsum_plus : forall A (f g : A -> R) l, rsum (map (fun x => f x + g x) l) = rsum (map f l) + rsum (map g l).
Proof. intros A f g l. unfold rsum. induction l as [|x l IH]; simpl; [lra|]. rewrite IH. lra. Qed.

Lemma rsum_const0 : forall A (l : list A), rsum (map (fun _ => 0) l) = 0.
Proof. intros A l. unfold rsum. induction l as [|x l IH]; simpl; [reflexivity|]. rewrite IH. lra. Qed.

Lemma rsum_swap : forall A B (f : A -> B -> R) l m,
  rsum (map (fun a => rsum (map (f a) m)) l) = rsum (map (fun b => rsum (map (fun a => f a b) l)) m).
Proof.
  intros A B f l m. induction l as [|a l IH].
  - simpl. rewrite rsum_const0. reflexivity.
  - cbn [map]. change (rsum (rsum (map (f a) m) :: ?x)) with (rsum (map (f a) m) + rsum x).
    rewrite IH, <- rsum_plus. apply rsum_map_ext. intros b _. reflexivity.
Qed.

Lemma smoothed_sum : forall wages nonpecs conts draws delta tau, wages <> [] -> draws <> [] ->
  rsum (map (smoothed_probability wages nonpecs conts delta draws tau) (seq 0 (length wages))) = 1.
Proof.
  intros wages nonpecs conts draws delta tau Hw Hd. unfold smoothed_probability, mean.
  assert (Nn : 0 < INR (length draws)) by (apply lt_0_INR; destruct draws; [contradiction|simpl; lia]).
  rewrite (rsum_map_ext _ _ (fun c => / INR (length draws) *
     rsum (map (fun e => logit (scaled wages nonpecs conts delta tau e) c) draws)))
    by (intros c _; rewrite map_length; unfold Rdiv; rewrite Rmult_comm; reflexivity).
  rewrite rsum_map_scal, rsum_swap.
  rewrite (rsum_map_ext _ _ (fun _ => 1)).
  - assert (E : forall l : list (list R), rsum (map (fun _ => 1) l) = INR (length l)).
    { induction l as [|a l IH]; [reflexivity|]. cbn [length]. rewrite S_INR, <- IH.
      change (rsum (map (fun _ : list R => 1) (a :: l))) with (1 + rsum (map (fun _ : list R => 1) l)). lra. }
    rewrite E. apply Rinv_l. lra.
  - intros e _. assert (L : length (scaled wages nonpecs conts delta tau e) = length wages)
      by (unfold scaled; rewrite map_length; apply choice_values_length).
    rewrite <- L. apply rsum_logit. intros X. rewrite X in L. destruct wages; [contradiction|discriminate].
Qed.

(** ** Choice codes *)
Lemma searchsorted_found : forall l i x, StronglySorted lt l -> nth_error l i = Some x -> searchsorted l x = i.
Proof.
  induction l as [|y l IH]; intros i x Hs Hi; [destruct i; discriminate|].
  inversion Hs as [|? ? Hs' Hf]; subst. cbn [searchsorted]. destruct i as [|i]; cbn [nth_error] in Hi.
  - injection Hi as ->. rewrite Nat.ltb_irrefl. reflexivity.
  - assert (y < x)%nat by (rewrite Forall_forall in Hf; apply Hf; eapply nth_error_In; eauto).
    rewrite (proj2 (Nat.ltb_lt y x) H). f_equal. apply IH; assumption.
Qed.

Lemma searchsorted_next : forall l x x', StronglySorted lt l -> (x <= x')%nat ->
  (forall y, In y l -> (y < x')%nat -> (y < x)%nat) -> searchsorted l x = searchsorted l x'.
Proof.
  induction l as [|y l IH]; intros x x' Hs Hle H; [reflexivity|].
  inversion Hs as [|? ? Hs' Hf]; subst. cbn [searchsorted].
  destruct (Nat.ltb_spec y x), (Nat.ltb_spec y x'); try lia.
  - f_equal. apply IH; auto. intros z Hz. apply H. right. exact Hz.
  - exfalso. specialize (H y (or_introl eq_refl)). lia.
Qed.

Lemma searchsorted_end : forall l x, (forall y, In y l -> (y < x)%nat) -> searchsorted l x = length l.
Proof.
  induction l as [|y l IH]; intros x H; [reflexivity|]. cbn [searchsorted length].
  rewrite (proj2 (Nat.ltb_lt y x)) by (apply H; left; reflexivity). f_equal. apply IH. intros z Hz. apply H. right. exact Hz.
Qed.

Lemma nth_error_seq_0 : forall n i, (i < n)%nat -> nth_error (seq 0 n) i = Some i.
Proof.
  intros n i H. rewrite (nth_error_nth' (seq 0 n) 0%nat) by (rewrite seq_length; exact H).
  rewrite seq_nth by exact H. reflexivity.
Qed.

Lemma map_choice_position : forall cs i code, nth_error (positions cs) i = Some code ->
  map_choice_code code cs = Ok i.
Proof.
  intros cs i code H. unfold map_choice_code.
  rewrite (searchsorted_found _ i code (positions_sorted cs) H).
  rewrite nth_error_seq_0 by (apply nth_error_Some; rewrite H; discriminate). reflexivity.
Qed.

Lemma map_choice_available : forall cs code, available cs code ->
  exists i, map_choice_code code cs = Ok i /\ nth_error (positions cs) i = Some code.
Proof.
  intros cs code H. apply In_positions in H. apply In_nth_error in H. destruct H as [i Hi].
  exists i. split; [apply map_choice_position; exact Hi|exact Hi].
Qed.

Lemma map_choice_next : forall cs code next, available cs next -> (code < next)%nat ->
  (forall c, (code <= c)%nat -> (c < next)%nat -> ~ available cs c) ->
  map_choice_code code cs = map_choice_code next cs.
Proof.
  intros cs code next Ha Hlt Hn. unfold map_choice_code.
  rewrite (searchsorted_next _ code next (positions_sorted cs)); [reflexivity|lia|].
  intros y Hy L. apply In_positions in Hy. destruct (Nat.lt_ge_cases y code) as [X|X]; [exact X|].
  exfalso. apply (Hn y X L). exact Hy.
Qed.

Lemma map_choice_none : forall cs code, (forall c, (code <= c)%nat -> ~ available cs c) ->
  map_choice_code code cs = IndexError.
Proof.
  intros cs code H. unfold map_choice_code.
  rewrite searchsorted_end.
  - rewrite (proj2 (nth_error_None _ _)) by (rewrite seq_length; lia). reflexivity.
  - intros y Hy. apply In_positions in Hy. destruct (Nat.lt_ge_cases y code) as [X|X]; [exact X|].
    exfalso. apply (H y X). exact Hy.
Qed.

Lemma positions_prefix : forall cs code, (forall c, (c <= code)%nat -> available cs c) ->
  nth_error (positions cs) code = Some code.
Proof.
  intros cs code H.
  assert (G : forall code cs n, (forall c, (c <= code)%nat -> nth_error cs c = Some true) ->
     nth_error (map fst (filter snd (enumerate_from n cs))) code = Some (n + code)%nat).
  { clear. induction code as [|code IH]; intros cs n H.
    - destruct cs as [|b cs]; [specialize (H 0%nat (Nat.le_refl _)); discriminate|].
      pose proof (H 0%nat (Nat.le_refl _)) as H0. injection H0 as ->. simpl. f_equal. lia.
    - destruct cs as [|b cs]; [specialize (H 0%nat (Nat.le_0_l _)); discriminate|].
      pose proof (H 0%nat (Nat.le_0_l _)) as H0. injection H0 as ->. cbn [enumerate_from filter snd map fst nth_error].
      rewrite (IH cs (S n)); [f_equal; lia|]. intros c Hc. apply (H (S c)). lia. }
  exact (G code cs 0%nat H).
Qed.
