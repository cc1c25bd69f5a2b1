(** Proofs about the approximate solution. *)
From Coq Require Import List Arith Bool Reals Lra Lia.
From Verif Require Import Base Proof_Base Model_CoreStateSpace Model_StateSpace Proof_StateSpace Model_Solve
  Spec_Solve Proof_Solve Model_ConditionalDraws Proof_Matrix Proof_ConditionalDraws Model_Interpolate Spec_Interpolate.
Import ListNotations.
Open Scope R_scope.

(** ** Distribution of points *)
Lemma list_sum_set_nth : forall l pos x y, nth_error l pos = Some x ->
  (list_sum (set_nth pos y l) + x = list_sum l + y)%nat.
Proof.
  induction l as [|a l IH]; intros [|pos] x y H; try discriminate.
  - injection H as ->. cbn [set_nth list_sum fold_right]. lia.
  - cbn [nth_error] in H. specialize (IH pos x y H). unfold list_sum in *. cbn [set_nth fold_right]. lia.
Qed.

Lemma length_set_nth : forall A (l : list A) pos y, length (set_nth pos y l) = length l.
Proof. induction l as [|a l IH]; intros [|pos] y; simpl; auto. Qed.

Lemma Forall2_set_nth2 : forall (P : nat -> nat -> nat -> Prop) ns ps rs pos p r p' r',
  Forall2 (fun n pr => P n (fst pr) (snd pr)) ns (combine ps rs) ->
  length ps = length rs ->
  nth_error ps pos = Some p -> nth_error rs pos = Some r -> (forall n, P n p r -> P n p' r') ->
  Forall2 (fun n pr => P n (fst pr) (snd pr)) ns (combine (set_nth pos p' ps) (set_nth pos r' rs)).
Proof.
  intros P ns ps. revert ns. induction ps as [|x ps IH]; intros ns [|y rs] [|pos] p r p' r' F L Hp Hr HP;
    try discriminate.
  - injection Hp as ->. injection Hr as ->. cbn [combine set_nth] in *.
    inversion F; subst. constructor; [apply HP; assumption|assumption].
  - cbn [combine set_nth] in *. inversion F; subst. constructor; [assumption|].
    eapply IH; eauto.
Qed.

Lemma rsum_INR : forall l, rsum (map INR l) = INR (list_sum l).
Proof.
  induction l as [|x l IH]; [reflexivity|]. change (rsum (map INR (x :: l))) with (INR x + rsum (map INR l)).
  rewrite IH. change (list_sum (x :: l)) with (x + list_sum l)%nat. rewrite plus_INR. reflexivity.
Qed.

Lemma shares_sum : forall l, list_sum l <> 0%nat ->
  rsum (map (fun n => INR n / INR (list_sum l)) l) = 1.
Proof.
  intros l H. assert (G : forall c k, rsum (map (fun n => INR n / c) k) = rsum (map INR k) / c).
  { intros c k. induction k as [|x k IH]; [unfold rsum, Rdiv; simpl; lra|].
    change (rsum (map (fun n => INR n / c) (x :: k))) with (INR x / c + rsum (map (fun n => INR n / c) k)).
    change (rsum (map INR (x :: k))) with (INR x + rsum (map INR k)). rewrite IH. unfold Rdiv. lra. }
  rewrite G, rsum_INR. unfold Rdiv. apply Rinv_r. apply not_0_INR. exact H.
Qed.

Lemma shares_nonneg : forall l x, list_sum l <> 0%nat ->
  In x (map (fun n => INR n / INR (list_sum l)) l) -> 0 <= x.
Proof.
  intros l x H Hx. apply in_map_iff in Hx. destruct Hx as [n [<- _]]. unfold Rdiv.
  apply Rmult_le_pos; [apply pos_INR|]. left. apply Rinv_0_lt_compat. apply lt_0_INR. lia.
Qed.

Definition split_inv (n p r : nat) : Prop := (p + r = n)%nat /\ (Nat.min 2 n <= p)%nat.

Lemma distribute_ok : forall choose, draws_position choose -> forall m i ns ps rs lst,
  length ps = length rs ->
  Forall2 (fun n pr => split_inv n (fst pr) (snd pr)) ns (combine ps rs) ->
  (m <= list_sum rs)%nat ->
  exists ps' rs' lst', distribute_points choose m i (ps, rs, lst) = Ok (ps', rs', lst') /\
    length ps' = length rs' /\ Forall2 (fun n pr => split_inv n (fst pr) (snd pr)) ns (combine ps' rs') /\
    list_sum ps' = (list_sum ps + m)%nat /\
    (lst' = lst /\ m = 0%nat \/ exists pos, lst' = Some pos /\ (pos < length ps)%nat).
Proof.
  intros choose DP. induction m as [|m IH]; intros i ns ps rs lst L F Hm.
  - exists ps, rs, lst. split; [reflexivity|]. split; [exact L|]. split; [exact F|]. split; [lia|]. left. auto.
  - cbn [distribute_points].
    assert (NZ : list_sum rs <> 0%nat) by lia. rewrite (proj2 (Nat.eqb_neq _ _) NZ).
    destruct (DP i (map (fun n => INR n / INR (list_sum rs)) rs)
                (fun x H => shares_nonneg rs x NZ H) (shares_sum rs NZ)) as [q [Hq Pq]].
    set (pos := choose i _) in *.
    rewrite nth_error_map in Hq. destruct (nth_error rs pos) as [r|] eqn:Er; [|discriminate].
    cbn [option_map] in Hq. injection Hq as <-.
    assert (Rr : (0 < r)%nat).
    { destruct r as [|r]; [|lia]. exfalso. unfold Rdiv in Pq. rewrite Rmult_0_l in Pq. lra. }
    assert (Hp : (pos < length ps)%nat) by (rewrite L; apply nth_error_Some; rewrite Er; discriminate).
    destruct (nth_error ps pos) as [p|] eqn:Ep; [|apply nth_error_None in Ep; lia].
    destruct (IH (S i) ns (set_nth pos (S p) ps) (set_nth pos (r - 1)%nat rs) (Some pos)) as [ps' [rs' [lst' [E [L' [F' [S' O']]]]]]].
    + rewrite !length_set_nth. exact L.
    + apply (Forall2_set_nth2 split_inv ns ps rs pos p r (S p) (r - 1)%nat F L Ep Er).
      intros n [A B]. unfold split_inv. lia.
    + pose proof (list_sum_set_nth rs pos r (r - 1)%nat Er). lia.
    + exists ps', rs', lst'. split; [exact E|]. split; [exact L'|]. split; [exact F'|]. split.
      * pose proof (list_sum_set_nth ps pos p (S p) Ep). lia.
      * right. destruct O' as [[-> _]|[pos' [-> Hpos']]].
        -- exists pos. split; [reflexivity|exact Hp].
        -- exists pos'. rewrite length_set_nth in Hpos'. split; [reflexivity|exact Hpos'].
Qed.

Lemma initial_sums : forall ns, (forall n, In n ns -> (1 <= n)%nat) ->
  (list_sum (map (fun n => if Nat.ltb 2 n then 2 else n) ns) + single_states ns = 2 * length ns)%nat /\
  (list_sum (map (fun n => n - 2) ns) + 2 * length ns = list_sum ns + single_states ns)%nat.
Proof.
  induction ns as [|n ns IH]; intros H; [split; reflexivity|].
  assert (Hn : (1 <= n)%nat) by (apply H; left; reflexivity).
  destruct IH as [A B]; [intros; apply H; right; assumption|].
  unfold single_states in *. cbn [map filter length].
  change (list_sum ((if Nat.ltb 2 n then 2%nat else n) :: map (fun n => if Nat.ltb 2 n then 2%nat else n) ns))
    with ((if Nat.ltb 2 n then 2%nat else n) + list_sum (map (fun n => if Nat.ltb 2 n then 2%nat else n) ns))%nat.
  change (list_sum ((n - 2)%nat :: map (fun n => n - 2)%nat ns)) with ((n - 2) + list_sum (map (fun n => n - 2) ns))%nat.
  change (list_sum (n :: ns)) with (n + list_sum ns)%nat.
  destruct (Nat.ltb_spec 2 n); destruct (Nat.eqb_spec n 1); cbn [length]; lia.
Qed.

Lemma initial_inv : forall ns,
  Forall2 (fun n pr => split_inv n (fst pr) (snd pr)) ns
    (combine (map (fun n => if Nat.ltb 2 n then 2%nat else n) ns) (map (fun n => n - 2)%nat ns)).
Proof.
  induction ns as [|n ns IH]; [constructor|]. cbn [map combine]. constructor; [|exact IH].
  cbn [fst snd]. unfold split_inv. destruct (Nat.ltb_spec 2 n); lia.
Qed.

Lemma split_inv_feasible : forall ns ps rs, length ps = length rs ->
  Forall2 (fun n pr => split_inv n (fst pr) (snd pr)) ns (combine ps rs) -> feasible_points ns ps.
Proof.
  intros ns ps. revert ns. induction ps as [|p ps IH]; intros ns [|r rs] L F; try discriminate; inversion F; subst.
  - constructor.
  - constructor; [|eapply IH; [|eassumption]; simpl in L; lia]. unfold split_inv in *. cbn [fst snd] in *. lia.
Qed.

Lemma split_ok : forall choose ns points, draws_position choose -> (forall n, In n ns -> (1 <= n)%nat) ->
  (2 * length ns < points)%nat -> (points < list_sum ns)%nat ->
  exists ps warn, split_interpolation_points_evenly choose ns points = Ok (ps, warn) /\
    feasible_points ns ps /\ (list_sum ps + single_states ns = points)%nat.
Proof.
  intros choose ns points DP H1 H2 H3. unfold split_interpolation_points_evenly.
  destruct (initial_sums ns H1) as [A B].
  destruct (distribute_ok choose DP (points - 2 * length ns) 0 ns _ _ None
              (eq_trans (map_length _ _) (eq_sym (map_length (fun n => (n - 2)%nat) ns))) (initial_inv ns))
    as [ps [rs [lst [E [L [F [S O]]]]]]]; [lia|].
  rewrite E. cbn [result_bind].
  destruct O as [[_ O]|[pos [-> _]]]; [lia|].
  eexists. eexists. split; [reflexivity|]. split; [exact (split_inv_feasible ns ps rs L F)|]. lia.
Qed.

Lemma split_fails : forall choose ns, ns <> [] ->
  split_interpolation_points_evenly choose ns (2 * length ns) = NameError.
Proof.
  intros choose ns H. unfold split_interpolation_points_evenly. rewrite Nat.sub_diag. cbn [distribute_points result_bind].
  destruct ns; [congruence|reflexivity].
Qed.

(** ** The indicator *)
Lemma count_in_seq : forall (l : list nat) n, NoDup l -> (forall i, In i l -> (i < n)%nat) ->
  count_true (map (fun i => if in_dec Nat.eq_dec i l then true else false) (seq 0 n)) = length l.
Proof.
  intros l n ND Hl.
  assert (G : forall k, count_true (map (fun i => if in_dec Nat.eq_dec i l then true else false) k) =
                        length (filter (fun i => if in_dec Nat.eq_dec i l then true else false) k)).
  { induction k as [|x k IH]; [reflexivity|]. cbn [map count_true filter]. destruct (in_dec Nat.eq_dec x l); cbn [length]; lia. }
  rewrite G. apply Nat.le_antisymm.
  - apply NoDup_incl_length; [apply NoDup_filter, seq_NoDup|]. intros x Hx. apply filter_In in Hx.
    destruct Hx as [_ Hx]. destruct (in_dec Nat.eq_dec x l); [assumption|discriminate].
  - apply NoDup_incl_length; [exact ND|]. intros x Hx. apply filter_In. split.
    + apply in_seq. specialize (Hl x Hx). lia.
    + destruct (in_dec Nat.eq_dec x l); [reflexivity|contradiction].
Qed.

Lemma indicator_ok : forall subset points n, draws_subset subset -> (points <= n)%nat ->
  exists mask, get_not_interpolated_indicator subset points n = Ok mask /\
    length mask = n /\ count_true mask = points.
Proof.
  intros subset points n DS H. unfold get_not_interpolated_indicator.
  destruct (Nat.ltb_spec n points); [lia|]. eexists. split; [reflexivity|]. split.
  - rewrite map_length, seq_length. reflexivity.
  - destruct (DS n points H) as [A [B C]]. rewrite count_in_seq by assumption. exact B.
Qed.

(** ** Prediction *)
Lemma search_maximum_spec : forall l, l <> [] -> search_maximum l = Ok (maximum l).
Proof.
  intros [|x r] H; [congruence|]. cbn [search_maximum]. f_equal. cbn [maximum]. clear H.
  revert x. assert (G : forall r x y, fold_right Rmax (Rmax x y) r = Rmax y (fold_right Rmax x r)).
  { clear. induction r as [|z r IH]; intros x y; cbn [fold_right]; [apply Rmax_comm|].
    rewrite IH, !Rmax_assoc, (Rmax_comm z y). reflexivity. }
  induction r as [|y r IH]; intros x; [reflexivity|]. cbn [fold_left fold_right].
  rewrite IH. rewrite <- G. f_equal. destruct (Rlt_dec x y) as [L|L].
  - rewrite Rmax_right by lra. reflexivity.
  - rewrite Rmax_left by lra. reflexivity.
Qed.

Lemma rhs_maximum : forall wages nonpecs conts shocks delta, wages <> [] ->
  exists row, compute_rhs_variables wages nonpecs conts shocks delta =
    Ok (row, deterministic_value wages nonpecs conts shocks delta).
Proof.
  intros wages nonpecs conts shocks delta H. unfold compute_rhs_variables.
  change (map _ (seq 0 (length wages))) with (choice_values wages nonpecs conts delta shocks).
  rewrite search_maximum_spec.
  - cbn [result_bind]. eexists. reflexivity.
  - unfold choice_values. destruct wages; [congruence|]. discriminate.
Qed.

Lemma fill_spec : forall mask vals old r, length old = length mask -> length vals = count_true mask ->
  (r < length mask)%nat ->
  nth r (fill mask vals old) 0 =
  if nth r mask false then nth (count_true (firstn r mask)) vals 0 else nth r old 0.
Proof.
  induction mask as [|b mask IH]; intros vals old r L1 L2 Hr; [simpl in Hr; lia|].
  destruct old as [|x old]; [discriminate|]. cbn [fill]. cbn [length] in *.
  destruct r as [|r].
  - cbn [nth firstn count_true]. destruct b; [|reflexivity]. destruct vals as [|v vals]; [simpl in L2; lia|reflexivity].
  - cbn [nth firstn count_true]. cbn [count_true] in L2. destruct b.
    + destruct vals as [|v vals]; [simpl in L2; lia|]. cbn [nth]. rewrite IH; try (simpl in L2; lia). reflexivity.
    + cbn [nth]. rewrite IH by lia. reflexivity.
Qed.

Lemma nth_compress : forall A (d : A) mask l r, length l = length mask -> nth r mask false = true ->
  nth (count_true (firstn r mask)) (compress mask l) d = nth r l d.
Proof.
  induction mask as [|b mask IH]; intros [|x l] r L H; try discriminate; [destruct r; discriminate|].
  destruct r as [|r]; cbn [nth firstn count_true compress] in *.
  - subst b. reflexivity.
  - destruct b; cbn [nth Nat.add]; apply IH; simpl in L; auto; lia.
Qed.

Lemma nth_map_combine : forall (f : R * R -> R) (a b : list R) r, length a = length b -> (r < length a)%nat ->
  nth r (map f (combine a b)) 0 = f (nth r a 0, nth r b 0).
Proof.
  intros f a. induction a as [|x a IH]; intros [|y b] r L H; try discriminate; [simpl in H; lia|].
  destruct r as [|r]; [reflexivity|]. cbn [combine map nth]. apply IH; simpl in *; lia.
Qed.

Lemma count_firstn_lt : forall mask r, nth r mask false = true -> (count_true (firstn r mask) < count_true mask)%nat.
Proof.
  induction mask as [|b mask IH]; intros [|r] H; try discriminate; cbn [nth firstn count_true] in *.
  - subst b. lia.
  - specialize (IH r H). lia.
Qed.

Lemma length_fill : forall mask vals old, length (fill mask vals old) = length old.
Proof.
  induction mask as [|b mask IH]; intros vals old; [reflexivity|].
  destruct old as [|x old]; [reflexivity|]. cbn [fill]. destruct b; [destruct vals|]; cbn [length]; rewrite IH; reflexivity.
Qed.

Lemma nth_map_lt : forall A (f : A -> R) l r d, (r < length l)%nat -> nth r (map f l) 0 = f (nth r l d).
Proof. intros A f l r d H. rewrite (nth_indep _ 0 (f d)) by (rewrite map_length; exact H). apply map_nth. Qed.

Lemma interpolate_key_spec : forall ols wages nonpecs conts draws shocks delta mask n,
  length wages = n -> length nonpecs = n -> length conts = n -> length mask = n ->
  (forall w, In w wages -> w <> []) ->
  exists arr, interpolate_key ols wages nonpecs conts draws shocks delta mask = Ok arr /\ length arr = n /\
    forall r, (r < n)%nat ->
      let det := deterministic_value (nth r wages []) (nth r nonpecs []) (nth r conts []) shocks delta in
      if nth r mask false
      then nth r arr 0 = emax (nth r wages []) (nth r nonpecs []) (nth r conts []) draws delta
      else det <= nth r arr 0.
Proof.
  intros ols wages nonpecs conts draws shocks delta mask n Lw Ln Lc Lm Hne. unfold interpolate_key.
  rewrite Ln, Lc, Lm, Lw, Nat.eqb_refl. cbn [andb].
  set (rows := combine wages (combine nonpecs conts)).
  assert (Lrows : length rows = n) by (unfold rows; rewrite !combine_length; lia).
  assert (NR : forall r, (r < n)%nat -> nth r rows ([], ([], [])) = (nth r wages [], (nth r nonpecs [], nth r conts []))).
  { intros r Hr. unfold rows. rewrite !combine_nth by (rewrite ?combine_length; lia). reflexivity. }
  assert (EX : exists rhs, result_all (map (fun t => compute_rhs_variables (fst t) (fst (snd t)) (snd (snd t)) shocks delta) rows) = Ok rhs /\
     map snd rhs = map (fun t => deterministic_value (fst t) (fst (snd t)) (snd (snd t)) shocks delta) rows /\ length rhs = n).
  { assert (Hw : forall t, In t rows -> fst t <> []).
    { intros [w t] Ht. apply in_combine_l in Ht. apply Hne. exact Ht. }
    rewrite <- Lrows. clear - Hw. induction rows as [|t rows IH].
    - exists []. repeat split.
    - destruct IH as [rhs [E [M L]]]; [intros; apply Hw; right; assumption|].
      destruct (rhs_maximum (fst t) (fst (snd t)) (snd (snd t)) shocks delta (Hw t (or_introl eq_refl))) as [row ER].
      eexists. cbn [map result_all]. rewrite ER. cbn [result_bind]. rewrite E. cbn [result_bind].
      split; [reflexivity|]. cbn [map snd length]. rewrite M, L. split; reflexivity. }
  destruct EX as [rhs [E [M L]]]. rewrite E. cbn [result_bind].
  assert (LC : forall A (l : list A), length l = n -> length (compress mask l) = count_true mask).
  { intros A l Hl. apply length_compress. lia. }
  unfold calculate_expected_value_functions. rewrite !LC by assumption. rewrite Nat.eqb_refl. cbn [andb result_bind].
  set (em := map _ (combine (compress mask wages) _)).
  assert (Lem : length em = count_true mask).
  { unfold em. rewrite map_length, !combine_length, !LC by assumption. lia. }
  eexists. split; [reflexivity|].
  set (maxima := map snd rhs) in *.
  assert (Lmax : length maxima = n) by (unfold maxima; rewrite map_length; exact L).
  assert (Nmax : forall r, (r < n)%nat -> nth r maxima 0 =
     deterministic_value (nth r wages []) (nth r nonpecs []) (nth r conts []) shocks delta).
  { intros r Hr. rewrite M.
    rewrite (nth_map_lt _ _ rows r ([], ([], []))) by lia. rewrite (NR r Hr). reflexivity. }
  unfold predict_with_linear_model.
  set (endo := map _ (combine em (compress mask maxima))).
  set (beta := ols endo _).
  set (pred := map (fun row => Rmax 0 (dotp row beta)) (map fst rhs)).
  assert (Lpred : length pred = n) by (unfold pred; rewrite !map_length; exact L).
  assert (Lendo : length endo = count_true mask).
  { unfold endo. rewrite map_length, combine_length, LC by assumption. lia. }
  set (old := map _ (combine pred maxima)).
  assert (Lold : length old = length mask) by (unfold old; rewrite map_length, combine_length; lia).
  set (vals := map _ (combine endo _)).
  assert (Lvals : length vals = count_true mask).
  { unfold vals. rewrite map_length, combine_length, LC by assumption. lia. }
  split.
  { rewrite length_fill; lia. }
  intros r Hr. rewrite fill_spec by (try assumption; lia).
  destruct (nth r mask false) eqn:Eb.
  - pose proof (count_firstn_lt mask r Eb) as Hc. set (j := count_true (firstn r mask)) in *.
    unfold vals. rewrite nth_map_combine by (rewrite ?LC by assumption; lia). cbn [fst snd].
    unfold endo. rewrite nth_map_combine by (rewrite ?LC by assumption; lia). cbn [fst snd].
    unfold em.
    rewrite (nth_map_lt _ _ _ j ([], ([], []))) by (rewrite !combine_length, !LC by assumption; lia).
    rewrite !combine_nth by (rewrite ?combine_length, !LC by assumption; lia). cbn [fst snd].
    unfold j. rewrite !nth_compress by (try assumption; lia). lra.
  - unfold old. rewrite nth_map_combine by lia. cbn [fst snd]. rewrite Nmax by exact Hr.
    assert (0 <= nth r pred 0).
    { unfold pred. rewrite map_map.
      destruct (nth_in_or_default r (map (fun x => Rmax 0 (dotp (fst x) beta)) rhs) 0) as [Hin|Hz]; [|rewrite Hz; lra].
      apply in_map_iff in Hin. destruct Hin as [x [<- _]]. apply Rmax_l. }
    lra.
Qed.

(** ** Ordinary least squares *)

(** The normal equations. *)
Lemma normal_equations : forall pinv n k y x,
  generalised_inverse k (cross_products n x) (pinv k (cross_products n x)) ->
  forall i, (i < k)%nat ->
    sumn n (fun r => x r i * (y r - sumn k (fun j => x r j * ols pinv n k y x j))) = 0.
Proof.
  intros pinv n k y x GI. unfold cross_products in GI.
  set (A := (fun i j => sumn n (fun r => x r i * x r j)) : matrix) in *.
  set (P := pinv k A) in *.
  (* AP i b *)
  set (AP := fun i b => sumn k (fun a => A i a * P a b)).
  assert (GI' : forall i j, (i < k)%nat -> (j < k)%nat -> sumn k (fun b => AP i b * A b j) = A i j).
  { intros i j Hi Hj. rewrite <- (GI i j Hi Hj). unfold AP.
    rewrite (sumn_ext k (fun b => sumn k (fun a => A i a * P a b) * A b j)
                        (fun b => sumn k (fun a => A i a * P a b * A b j)))
      by (intros; symmetry; apply (sumn_scal_r k (A i0 j))).
    rewrite sumn_swap. apply sumn_ext. intros a Ha. rewrite <- sumn_scal. apply sumn_ext. intros; lra. }
  (* M i r = x r i - sum_b AP i b x r b *)
  set (M := fun i r => x r i - sumn k (fun b => AP i b * x r b)).
  assert (MX : forall i j, (i < k)%nat -> (j < k)%nat -> sumn n (fun r => M i r * x r j) = 0).
  { intros i j Hi Hj. unfold M.
    rewrite (sumn_ext n _ (fun r => x r i * x r j - sumn k (fun b => AP i b * x r b) * x r j)) by (intros; lra).
    rewrite sumn_minus. fold (A i j).
    rewrite (sumn_ext n (fun r => sumn k (fun b => AP i b * x r b) * x r j)
                        (fun r => sumn k (fun b => AP i b * (x r b * x r j)))).
    2:{ intros r _. rewrite <- sumn_scal_r. apply sumn_ext. intros; lra. }
    rewrite sumn_swap.
    rewrite (sumn_ext k _ (fun b => AP i b * A b j)) by (intros b _; unfold A; rewrite <- sumn_scal; reflexivity).
    rewrite GI' by assumption. unfold A. lra. }
  assert (MM : forall i, (i < k)%nat -> sumn n (fun r => M i r * M i r) = 0).
  { intros i Hi. unfold M at 2.
    rewrite (sumn_ext n _ (fun r => M i r * x r i - sumn k (fun b => AP i b * (M i r * x r b)))).
    2:{ intros r _. rewrite Rmult_minus_distr_l. f_equal. rewrite <- sumn_scal. apply sumn_ext. intros; lra. }
    rewrite sumn_minus, MX by assumption. rewrite sumn_swap.
    rewrite (sumn_zero' k); [lra|]. intros b Hb. rewrite sumn_scal, MX by assumption. lra. }
  assert (M0 : forall i r, (i < k)%nat -> (r < n)%nat -> M i r = 0).
  { intros i r Hi Hr. apply (sum_sqr_zero n (M i) (MM i Hi) r Hr). }
  intros i Hi.
  (* sum_r x r i * yhat r = sum_j A i j beta_j = sum_b AP i b (X'y)_b *)
  rewrite (sumn_ext n _ (fun r => x r i * y r - x r i * sumn k (fun j => x r j * ols pinv n k y x j))) by (intros; lra).
  rewrite sumn_minus.
  assert (H2 : sumn n (fun r => x r i * sumn k (fun j => x r j * ols pinv n k y x j)) =
               sumn k (fun b => AP i b * sumn n (fun r => x r b * y r))).
  { rewrite (sumn_ext n _ (fun r => sumn k (fun j => x r i * x r j * ols pinv n k y x j))).
    2:{ intros r _. rewrite <- sumn_scal. apply sumn_ext. intros; lra. }
    rewrite sumn_swap.
    rewrite (sumn_ext k _ (fun j => A i j * ols pinv n k y x j)) by (intros j _; unfold A; apply sumn_scal_r).
    unfold ols. fold A. fold P.
    rewrite (sumn_ext k _ (fun a => sumn k (fun b => A i a * P a b * sumn n (fun r => x r b * y r)))).
    2:{ intros a _. rewrite <- sumn_scal. apply sumn_ext. intros; lra. }
    rewrite sumn_swap. apply sumn_ext. intros b _. unfold AP. apply sumn_scal_r. }
  rewrite H2.
  rewrite (sumn_ext n (fun r => x r i * y r) (fun r => sumn k (fun b => AP i b * x r b) * y r)).
  2:{ intros r Hr. specialize (M0 i r Hi Hr). unfold M in M0. replace (x r i) with (sumn k (fun b => AP i b * x r b)) by lra. reflexivity. }
  rewrite (sumn_ext n _ (fun r => sumn k (fun b => AP i b * (x r b * y r)))).
  2:{ intros r _. rewrite <- sumn_scal_r. apply sumn_ext. intros; lra. }
  rewrite sumn_swap.
  rewrite (sumn_ext k (fun j => sumn n (fun i0 => AP i j * (x i0 j * y i0))) (fun b => AP i b * sumn n (fun r => x r b * y r)))
    by (intros b _; apply sumn_scal).
  lra.
Qed.

Lemma least_squares : forall pinv n k y x b,
  generalised_inverse k (cross_products n x) (pinv k (cross_products n x)) ->
  squared_residuals n k y x (ols pinv n k y x) <= squared_residuals n k y x b.
Proof.
  intros pinv n k y x b PI. pose proof (normal_equations pinv n k y x PI) as NE.
  set (beta := ols pinv n k y x) in *. unfold squared_residuals.
  set (e := fun r => y r - sumn k (fun i => x r i * beta i)).
  set (d := fun r => sumn k (fun i => x r i * (beta i - b i))).
  assert (E : forall r, y r - sumn k (fun i => x r i * b i) = e r + d r).
  { intros r. unfold e, d. rewrite (sumn_ext k (fun i => x r i * (beta i - b i)) (fun i => x r i * beta i - x r i * b i)) by (intros; lra).
    rewrite sumn_minus. lra. }
  rewrite (sumn_ext n (fun r => (y r - sumn k (fun i => x r i * b i)) ^ 2)
                      (fun r => e r ^ 2 + (2 * (e r * d r) + d r * d r))).
  2:{ intros r _. rewrite E. lra. }
  rewrite sumn_plus, sumn_plus, sumn_scal.
  assert (Z : sumn n (fun r => e r * d r) = 0).
  { unfold d. rewrite (sumn_ext n _ (fun r => sumn k (fun i => (beta i - b i) * (x r i * e r)))).
    2:{ intros r _. rewrite <- sumn_scal. apply sumn_ext. intros; lra. }
    rewrite sumn_swap. apply sumn_zero'. intros i Hi. rewrite sumn_scal.
    specialize (NE i Hi). fold (e 0%nat) in NE. unfold e. rewrite NE. lra. }
  rewrite Z. assert (0 <= sumn n (fun r => d r * d r)) by (apply sumn_nonneg; intros; apply Rle_0_sqr).
  change (fun r => (y r - sumn k (fun i => x r i * beta i)) ^ 2) with (fun r => e r ^ 2). lra.
Qed.
