(** Properties of the recursive value function. *)
From Coq Require Import List Arith Bool Reals Lra Lia.
From Verif Require Import Base Proof_Base Proof_CoreStateSpace Model_Solve Spec_Solve Proof_Solve.
Import ListNotations.
Open Scope R_scope.

Lemma rsum_nonneg : forall l, (forall x, In x l -> 0 <= x) -> 0 <= rsum l.
Proof.
  induction l as [|x l IH]; intros H; simpl; [lra|].
  assert (0 <= x) by (apply H; left; reflexivity).
  assert (0 <= rsum l) by (apply IH; intros; apply H; right; auto). lra.
Qed.

Lemma mean_nil : mean [] = 0.
Proof. unfold mean. simpl. unfold Rdiv. apply Rmult_0_l. Qed.

Lemma INR_length_pos : forall A (l : list A), l <> [] -> 0 < INR (length l).
Proof. intros A [|x l] H; [congruence|]. apply lt_0_INR. simpl. lia. Qed.

Lemma mean_le : forall l l', list_le l l' -> mean l <= mean l'.
Proof.
  intros l l' H. assert (E : length l = length l') by (eapply Forall2_length_eq; eauto).
  destruct l as [|x l]; [destruct l'; [rewrite mean_nil; lra|discriminate]|].
  unfold mean. rewrite <- E. apply Rmult_le_compat_r.
  - left. apply Rinv_0_lt_compat. apply INR_length_pos. discriminate.
  - clear E. induction H; simpl; [lra|]. simpl in *. lra.
Qed.

Lemma mean_nonneg : forall l, (forall x, In x l -> 0 <= x) -> 0 <= mean l.
Proof.
  intros l H. destruct l as [|x l]; [rewrite mean_nil; lra|]. unfold mean, Rdiv.
  apply Rmult_le_pos; [apply rsum_nonneg; exact H|]. left. apply Rinv_0_lt_compat.
  apply INR_length_pos. discriminate.
Qed.

Lemma list_le_map : forall A (f g : A -> R) l, (forall x, In x l -> f x <= g x) ->
  list_le (map f l) (map g l).
Proof.
  induction l as [|x l IH]; intros H; simpl; constructor.
  - apply H. left; reflexivity.
  - apply IH. intros; apply H; right; auto.
Qed.

Lemma mean_ext : forall A (f g : A -> R) l, (forall x, In x l -> f x = g x) ->
  mean (map f l) = mean (map g l).
Proof. intros. f_equal. apply map_ext_in. assumption. Qed.

Lemma max0_nonneg : forall l, 0 <= max0 l.
Proof.
  induction l as [|x l IH]; simpl; [lra|]. eapply Rle_trans; [exact IH|apply Rmax_r].
Qed.

Lemma max0_ub : forall l x, In x l -> x <= max0 l.
Proof.
  induction l as [|y l IH]; intros x []; simpl.
  - subst. apply Rmax_l.
  - eapply Rle_trans; [apply IH; assumption|apply Rmax_r].
Qed.

Lemma max0_lub : forall l b, 0 <= b -> (forall x, In x l -> x <= b) -> max0 l <= b.
Proof.
  induction l as [|y l IH]; intros b Hb H; simpl; [exact Hb|].
  apply Rmax_lub; [apply H; left; reflexivity|apply IH; auto]. intros; apply H; right; auto.
Qed.

Lemma max0_le : forall l l', list_le l l' -> max0 l <= max0 l'.
Proof.
  intros l l' H. induction H; simpl; [lra|].
  apply Rmax_lub; [eapply Rle_trans; [exact H|apply Rmax_l]|].
  eapply Rle_trans; [exact IHForall2|apply Rmax_r].
Qed.

Lemma max0_attained : forall l, max0 l = 0 \/ In (max0 l) l.
Proof.
  induction l as [|y l IH]; simpl; [left; reflexivity|].
  destruct (Rle_dec y (max0 l)) as [Hle|Hgt].
  - rewrite Rmax_right by exact Hle. destruct IH as [->|IH]; [left; reflexivity|right; right; exact IH].
  - rewrite Rmax_left by lra. right; left; reflexivity.
Qed.

Lemma best_max0 : forall vals c, best vals c ->
  match c with None => 0 | Some j => nth j vals 0 end = max0 vals.
Proof.
  intros vals [j|] H.
  - destruct H as [w [H1 [H2 H3]]]. rewrite (nth_error_nth _ _ _ H1).
    apply Rle_antisym; [apply max0_ub; eapply nth_error_In; eauto|apply max0_lub; assumption].
  - simpl in H. apply Rle_antisym; [apply max0_nonneg|]. apply max0_lub; [lra|exact H].
Qed.

Lemma value_S : forall S (pb : problem S) delta m s,
  value pb delta (Datatypes.S m) s =
  mean (map (fun u => max0 (alternatives pb delta m s u)) (pb_flows pb s)).
Proof. reflexivity. Qed.

Lemma value_nonneg : forall S (pb : problem S) delta n s, 0 <= value pb delta n s.
Proof.
  intros S pb delta [|n] s; [simpl; lra|]. rewrite value_S. apply mean_nonneg.
  intros x H. apply in_map_iff in H. destruct H as [u [<- _]]. apply max0_nonneg.
Qed.

(** Monotonicity. *)
Lemma value_mono : forall S (pb pb' : problem S) delta delta',
  (forall s, pb_moves pb s = pb_moves pb' s) ->
  (forall s, Forall2 list_le (pb_flows pb s) (pb_flows pb' s)) ->
  0 <= delta <= delta' -> forall n s, value pb delta n s <= value pb' delta' n s.
Proof.
  intros S pb pb' delta delta' HM HF HD. induction n as [|m IH]; intros s; [simpl; lra|].
  rewrite !value_S. apply mean_le. specialize (HF s).
  induction HF as [|u u' l l' Hu _ IHl]; simpl; constructor; [|exact IHl].
  apply max0_le. unfold alternatives. rewrite <- HM. generalize (pb_moves pb s). clear - Hu IH HD.
  induction Hu as [|x y u u' Hxy _ IHu]; intros [|s' ms]; simpl; constructor.
  - apply Rplus_le_compat; [exact Hxy|].
    apply Rmult_le_compat; [lra|apply value_nonneg|lra|apply IH].
  - apply IHu.
Qed.

(** Lipschitz bound. *)
Lemma value_lipschitz_upper : forall S (pb pb' : problem S) delta eps,
  flows_within eps pb pb' -> 0 <= delta -> 0 <= eps ->
  forall n s, value pb delta n s <= value pb' delta n s + eps * geometric delta n.
Proof.
  intros S pb pb' delta eps [HM HF] HD He. induction n as [|m IH]; intros s; [simpl; lra|].
  rewrite !value_S. simpl geometric. set (g := geometric delta m) in *.
  assert (Hg : 0 <= g).
  { unfold g. clear - HD. induction m; simpl; [lra|].
    assert (0 <= delta * geometric delta m) by (apply Rmult_le_pos; assumption). lra. }
  assert (Hb : 0 <= eps * (1 + delta * g)).
  { apply Rmult_le_pos; [exact He|]. assert (0 <= delta * g) by (apply Rmult_le_pos; assumption). lra. }
  set (b := eps * (1 + delta * g)) in *.
  assert (G : forall l l', Forall2 (fun x y => x <= y + b) l l' -> mean l <= mean l' + b).
  { intros l l' H. assert (E : length l = length l') by (eapply Forall2_length_eq; eauto).
    destruct l as [|x l]; [destruct l'; [rewrite mean_nil; lra|discriminate]|].
    unfold mean. rewrite <- E. assert (Hp : 0 < INR (length (x :: l))) by (apply INR_length_pos; discriminate).
    apply (Rmult_le_reg_r (INR (length (x :: l)))); [exact Hp|].
    rewrite Rmult_plus_distr_r. unfold Rdiv. rewrite !Rmult_assoc, Rinv_l, !Rmult_1_r by lra.
    clear - H. revert H. generalize (x :: l). intros l0 H.
    induction H as [|a c l1 l2 H _ IH].
    - change (INR (length (@nil R))) with 0. simpl. lra.
    - change (length (a :: l1)) with (Datatypes.S (length l1)). rewrite S_INR. simpl rsum. lra. }
  apply G. specialize (HF s).
  induction HF as [|u u' l l' Hu _ IHl]; simpl; constructor; [|exact IHl].
  apply max0_lub.
  - assert (H := max0_nonneg (alternatives pb' delta m s u')). lra.
  - intros x Hx.
    assert (X : Forall2 (fun x y => x <= y + b) (alternatives pb delta m s u)
                        (alternatives pb' delta m s u')).
    { unfold alternatives. rewrite <- HM. generalize (pb_moves pb s). clear - Hu IH HD b.
      induction Hu as [|y y' u u' Hxy _ IHu]; intros [|s' ms]; simpl; constructor.
      - specialize (IH s'). unfold b. assert (Hyy := Rle_abs (y - y')).
        assert (delta * value pb delta m s' <= delta * (value pb' delta m s' + eps * g))
          by (apply Rmult_le_compat_l; assumption). lra.
      - apply IHu. }
    assert (Y : exists y, In y (alternatives pb' delta m s u') /\ x <= y + b).
    { clear - X Hx. induction X as [|a c l l' Hac _ IHX]; [destruct Hx|].
      destruct Hx as [<-|Hx]; [exists c; split; [left; reflexivity|exact Hac]|].
      destruct (IHX Hx) as [y [Hy1 Hy2]]. exists y. split; [right; exact Hy1|exact Hy2]. }
    destruct Y as [y [Hy1 Hy2]]. assert (H := max0_ub _ _ Hy1). lra.
Qed.

Lemma flows_within_sym : forall S eps (pb pb' : problem S), flows_within eps pb pb' -> flows_within eps pb' pb.
Proof.
  intros S eps pb pb' [H1 H2]. split; [intros; symmetry; apply H1|]. intros s. specialize (H2 s).
  induction H2 as [|u u' l l' Hu _ IH]; constructor; [|exact IH].
  clear - Hu. induction Hu; constructor; [rewrite Rabs_minus_sym|]; assumption.
Qed.

Lemma value_lipschitz : forall S (pb pb' : problem S) delta eps,
  flows_within eps pb pb' -> 0 <= delta -> 0 <= eps ->
  forall n s, Rabs (value pb delta n s - value pb' delta n s) <= eps * geometric delta n.
Proof.
  intros. assert (H2 := value_lipschitz_upper _ _ _ _ _ H H0 H1 n s).
  assert (H3 := value_lipschitz_upper _ _ _ _ _ (flows_within_sym _ _ _ _ H) H0 H1 n s).
  apply Rabs_le. lra.
Qed.

Lemma mean_enumerate : forall A (f : A -> R) l,
  mean (map (fun iu => f (snd iu)) (enumerate l)) = mean (map f l).
Proof. intros. rewrite <- (map_map snd f), map_snd_enumerate. reflexivity. Qed.

(** No rule does better. *)
Lemma payoff_le_value : forall S (pb : problem S) delta pi, 0 <= delta ->
  forall n h s, payoff pb delta pi n h s <= value pb delta n s.
Proof.
  intros S pb delta pi HD. induction n as [|m IH]; intros h s; [simpl; lra|].
  rewrite value_S. rewrite <- (mean_enumerate _ (fun u => max0 (alternatives pb delta m s u))).
  cbn [payoff]. apply mean_le, list_le_map. intros [i u] _. cbn [fst snd].
  destruct (pi h s i) as [j|]; [|apply max0_nonneg].
  destruct (nth_error (combine u (pb_moves pb s)) j) as [[f s']|] eqn:E; [|apply max0_nonneg].
  apply Rle_trans with (f + delta * value pb delta m s').
  - apply Rplus_le_compat_l, Rmult_le_compat_l; [exact HD|apply IH].
  - apply max0_ub. unfold alternatives. apply in_map_iff. exists (f, s'). split; [reflexivity|].
    eapply nth_error_In; eauto.
Qed.

(** The greedy rule attains the value. *)
Lemma payoff_greedy : forall S (pb : problem S) delta N pi, greedy pb delta N pi ->
  forall n h s, N = (length h + n)%nat -> payoff pb delta pi n h s = value pb delta n s.
Proof.
  intros S pb delta N pi G. induction n as [|m IH]; intros h s E; [reflexivity|].
  rewrite value_S. rewrite <- (mean_enumerate _ (fun u => max0 (alternatives pb delta m s u))).
  cbn [payoff]. apply mean_ext. intros [i u] Hin. cbn [fst snd].
  apply In_enumerate in Hin. specialize (G h s i u m Hin ltac:(lia)).
  rewrite <- (best_max0 _ _ G). destruct (pi h s i) as [j|]; [|reflexivity].
  destruct G as [w [Hw _]]. unfold alternatives in Hw |- *. rewrite (nth_error_nth _ _ _ Hw).
  rewrite nth_error_map in Hw.
  destruct (nth_error (combine u (pb_moves pb s)) j) as [[f s']|]; [|discriminate].
  injection Hw as <-. cbn [fst snd]. rewrite IH; [reflexivity|]. rewrite app_length. simpl. lia.
Qed.

(** There is always a best decision. *)
Fixpoint argbest (vals : list R) : option nat * R :=
  match vals with
  | [] => (None, 0)
  | v :: r => let b := argbest r in
              if Rle_dec (snd b) v then (Some 0%nat, v) else (option_map Datatypes.S (fst b), snd b)
  end.

Lemma argbest_spec : forall vals, best vals (fst (argbest vals)) /\
  0 <= snd (argbest vals) /\ (forall v, In v vals -> v <= snd (argbest vals)) /\
  match fst (argbest vals) with None => snd (argbest vals) = 0 | Some j => nth_error vals j = Some (snd (argbest vals)) end.
Proof.
  induction vals as [|v r IH]; simpl.
  - split; [intros ? []|]. split; [lra|]. split; [intros ? []|reflexivity].
  - destruct IH as [B [P [U A]]]. destruct (argbest r) as [c b]. simpl in *.
    destruct (Rle_dec b v) as [H|H]; simpl.
    + split; [exists v; split; [reflexivity|split; [lra|]]|].
      * intros x [<-|Hx]; [lra|]. specialize (U x Hx). lra.
      * split; [lra|]. split; [|reflexivity]. intros x [<-|Hx]; [lra|]. specialize (U x Hx). lra.
    + split; [|split; [exact P|split]].
      * destruct c as [j|]; simpl.
        -- exists b. split; [exact A|]. split; [exact P|]. intros x [<-|Hx]; [lra|auto].
        -- intros x [<-|Hx]; [lra|]. specialize (U x Hx). lra.
      * intros x [<-|Hx]; [lra|auto].
      * destruct c as [j|]; simpl; exact A.
Qed.

Definition greedy_rule {S} (pb : problem S) (delta : R) (n : nat) : rule S :=
  fun h s i => match nth_error (pb_flows pb s) i with
               | None => None
               | Some u => fst (argbest (alternatives pb delta (n - length h - 1) s u))
               end.

Lemma greedy_rule_greedy : forall S (pb : problem S) delta n, greedy pb delta n (greedy_rule pb delta n).
Proof.
  intros S pb delta n h s i u m Hu E. unfold greedy_rule. rewrite Hu.
  replace (n - length h - 1)%nat with m by lia. apply argbest_spec.
Qed.

(** If some alternative is never negative, the best rule never opts out. *)
Lemma best_never_opts_out : forall vals, (exists v, In v vals /\ 0 <= v) ->
  exists j, best vals (Some j).
Proof.
  intros vals [v [Hv Hp]]. destruct (argbest_spec vals) as [B [P [U A]]].
  destruct (fst (argbest vals)) as [j|] eqn:E.
  - exists j. exact B.
  - rewrite A in *. destruct (In_nth_error _ _ Hv) as [j Hj]. exists j. exists v.
    split; [exact Hj|]. split; [exact Hp|]. intros x Hx. specialize (U x Hx). lra.
Qed.

(** EMAX and the plain average of the maximum. *)
Definition lmax (x : R) (l : list R) : R := fold_right Rmax x l.

Lemma max0_lmax : forall x l, (exists v, In v (x :: l) /\ 0 <= v) -> max0 (x :: l) = lmax x l.
Proof.
  intros x l. revert x. unfold max0, lmax.
  assert (G : forall l x, fold_right Rmax 0 (x :: l) = Rmax 0 (fold_right Rmax x l)).
  { clear. induction l as [|y l IH]; intros x; simpl in *; [apply Rmax_comm|].
    rewrite Rmax_assoc, (Rmax_comm x y), <- Rmax_assoc, IH, !Rmax_assoc, (Rmax_comm y 0). reflexivity. }
  intros x [v [Hv Hp]]. rewrite G. apply Rmax_right.
  apply Rle_trans with v; [exact Hp|]. clear - Hv.
  assert (L : forall l x, x <= fold_right Rmax x l).
  { clear. induction l as [|y l IH]; intros x; simpl; [lra|].
    eapply Rle_trans; [apply IH|apply Rmax_r]. }
  destruct Hv as [->|Hv]; [apply L|]. induction l as [|y l IH]; [destruct Hv|]. simpl.
  destruct Hv as [->|Hv]; [apply Rmax_l|]. eapply Rle_trans; [apply IH; exact Hv|apply Rmax_r].
Qed.

Lemma max0_gt_lmax : forall x l, (forall v, In v (x :: l) -> v < 0) -> lmax x l < max0 (x :: l).
Proof.
  intros x l H. apply Rlt_le_trans with 0; [|apply max0_nonneg]. unfold lmax.
  induction l as [|y l IH]; simpl; [apply H; left; reflexivity|].
  apply Rmax_lub_lt; [apply H; right; left; reflexivity|]. apply IH.
  intros v [->|Hv]; apply H; [left|right; right]; auto.
Qed.

Lemma max0_ge_lmax : forall x l, lmax x l <= max0 (x :: l).
Proof.
  intros x l. unfold lmax. induction l as [|y l IH]; simpl; [apply Rmax_l|].
  apply Rmax_lub; [|].
  - eapply Rle_trans; [apply Rmax_l|apply Rmax_r].
  - simpl in IH. eapply Rle_trans; [exact IH|]. apply Rmax_lub; [apply Rmax_l|].
    eapply Rle_trans; [apply Rmax_r|apply Rmax_r].
Qed.

Lemma mean_lt : forall l l', list_le l l' -> Exists (fun p => fst p < snd p) (combine l l') -> mean l < mean l'.
Proof.
  intros l l' H E. assert (L : length l = length l') by (eapply Forall2_length_eq; eauto).
  destruct l as [|x l]; [destruct l'; inversion E|].
  unfold mean. rewrite <- L. apply Rmult_lt_compat_r.
  - apply Rinv_0_lt_compat. apply INR_length_pos. discriminate.
  - clear L. revert H E. generalize (x :: l). clear. intros l H. induction H as [|a b l l' Hab Hl IH]; intros E.
    + inversion E.
    + simpl in *. inversion E; subst.
      * simpl in H0. assert (rsum l <= rsum l') by (clear - Hl; induction Hl; simpl; lra). lra.
      * specialize (IH H0). lra.
Qed.
