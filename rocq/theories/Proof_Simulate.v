(** Proofs about the simulated choice and wage of one individual. *)
From Coq Require Import List Arith Bool Reals Lra Lia Sorted Permutation.
From Verif Require Import Base Proof_Base Model_CoreStateSpace Model_StateSpace Spec_StateSpace
  Proof_CoreStateSpace Proof_StateSpace Model_Solve Spec_Solve Proof_Solve Proof_Shocks
  Model_Parallel Spec_Parallel Proof_Parallel Model_Simulate Spec_Simulate.
Import ListNotations.
Open Scope R_scope.

(** ** argmax *)
Lemma argmax_from_spec : forall l pre best m,
  nth_error pre best = Some m ->
  (forall i v', nth_error pre i = Some v' -> v' <= m) ->
  (forall i v', (i < best)%nat -> nth_error pre i = Some v' -> v' < m) ->
  first_max (pre ++ l) (argmax_from best m (length pre) l).
Proof.
  induction l as [|x l IH]; intros pre best m H1 H2 H3; simpl.
  - rewrite app_nil_r. exists m. auto.
  - replace (pre ++ x :: l) with ((pre ++ [x]) ++ l) by (rewrite <- app_assoc; reflexivity).
    assert (Hb : (best < length pre)%nat) by (apply nth_error_Some; congruence).
    replace (S (length pre)) with (length (pre ++ [x])) by (rewrite app_length; simpl; lia).
    destruct (Rlt_dec m x) as [Hlt|Hge].
    + apply IH.
      * rewrite nth_error_app2 by lia. rewrite Nat.sub_diag. reflexivity.
      * intros i v' Hi. destruct (lt_dec i (length pre)) as [L|L].
        -- rewrite nth_error_app1 in Hi by exact L. apply H2 in Hi. lra.
        -- rewrite nth_error_app2 in Hi by lia. destruct (i - length pre)%nat as [|q]; simpl in Hi.
           ++ injection Hi as <-. lra.
           ++ destruct q; discriminate.
      * intros i v' L Hi. rewrite nth_error_app1 in Hi by exact L. apply H2 in Hi. lra.
    + apply IH.
      * rewrite nth_error_app1 by lia. exact H1.
      * intros i v' Hi. destruct (lt_dec i (length pre)) as [L|L].
        -- rewrite nth_error_app1 in Hi by exact L. eauto.
        -- rewrite nth_error_app2 in Hi by lia. destruct (i - length pre)%nat as [|q]; simpl in Hi.
           ++ injection Hi as <-. lra.
           ++ destruct q; discriminate.
      * intros i v' L Hi. rewrite nth_error_app1 in Hi by lia. eauto.
Qed.

Lemma argmax_spec : forall l j, argmax l = Some j -> first_max l j.
Proof.
  intros [|x l] j H; [discriminate|]. simpl in H. injection H as <-.
  apply (argmax_from_spec l [x] 0%nat x).
  - reflexivity.
  - intros i v' Hi. destruct i as [|i]; simpl in Hi; [injection Hi as <-; lra|destruct i; discriminate].
  - intros i v' L. lia.
Qed.
Lemma argmax_some : forall l, l <> [] -> exists j, argmax l = Some j.
Proof. intros [|x l] H; [congruence|]. eexists. reflexivity. Qed.
Lemma first_max_unique : forall l j j', first_max l j -> first_max l j' -> j = j'.
Proof.
  intros l j j' [v [A1 [A2 A3]]] [w [B1 [B2 B3]]].
  destruct (lt_eq_lt_dec j j') as [[L|E]|L]; [|exact E|]; exfalso.
  - pose proof (B3 _ _ L A1). pose proof (A2 _ _ B1). lra.
  - pose proof (A3 _ _ L B1). pose proof (B2 _ _ A1). lra.
Qed.

Open Scope nat_scope.
(** ** Re-coding *)
Definition recode_step (c : nat) (pv : nat * nat) : nat :=
  if Nat.eqb c (fst pv) then snd pv else c.
Lemma recode_stay : forall l n c, (c < n)%nat \/ (n + length l <= c)%nat ->
  fold_left recode_step (enumerate_from n l) c = c.
Proof.
  induction l as [|v l IH]; intros n c H; simpl; [reflexivity|].
  unfold recode_step at 2. simpl. destruct (Nat.eqb_spec c n) as [->|Hne]; [simpl in H; lia|].
  apply IH. simpl in H. lia.
Qed.
Lemma recode_at : forall l n c j, nth_error l j = Some c ->
  fold_left recode_step (enumerate_from n l) (n + j) =
  fold_left recode_step (enumerate_from (n + S j) (skipn (S j) l)) c.
Proof.
  induction l as [|v l IH]; intros n c j H; [destruct j; discriminate|].
  destruct j as [|j]; simpl in *.
  - injection H as ->. unfold recode_step at 2. simpl. rewrite Nat.add_0_r, Nat.eqb_refl.
    rewrite Nat.add_1_r. reflexivity.
  - unfold recode_step at 2. simpl. destruct (Nat.eqb_spec (n + S j) n) as [E|_]; [lia|].
    replace (n + S j)%nat with (S n + j)%nat by lia. rewrite (IH (S n) c j H).
    replace (S n + S j)%nat with (n + S (S j))%nat by lia. reflexivity.
Qed.
Lemma recode_in : forall l n c,
  fold_left recode_step (enumerate_from n l) c = c \/
  In (fold_left recode_step (enumerate_from n l) c) l.
Proof.
  induction l as [|v l IH]; intros n c; [simpl; auto|]. cbn [enumerate_from fold_left].
  assert (E : recode_step c (n, v) = v \/ recode_step c (n, v) = c).
  { unfold recode_step. simpl. destruct (Nat.eqb c n); auto. }
  destruct (IH (S n) (recode_step c (n, v))) as [H|H].
  - rewrite H. destruct E as [->| ->]; simpl; auto.
  - right. simpl. auto.
Qed.
Lemma recode_ge : forall l n c,
  (forall i v, nth_error l i = Some v -> (n + i <= v)%nat) ->
  (c <= fold_left recode_step (enumerate_from n l) c)%nat.
Proof.
  induction l as [|v l IH]; intros n c H; simpl; [lia|].
  assert (Hv := H 0%nat v eq_refl). unfold recode_step at 2. simpl.
  assert (H' : forall i w, nth_error l i = Some w -> (S n + i <= w)%nat).
  { intros i w Hi. specialize (H (S i) w Hi). lia. }
  destruct (Nat.eqb_spec c n) as [->|Hne].
  - specialize (IH (S n) v H'). lia.
  - apply IH. exact H'.
Qed.

Lemma sorted_nth_lt : forall l, StronglySorted lt l -> forall i j a b, (i < j)%nat ->
  nth_error l i = Some a -> nth_error l j = Some b -> (a < b)%nat.
Proof.
  induction 1 as [|x l HS IH HF]; intros i j a b L Hi Hj; [destruct i; discriminate|].
  destruct j as [|j]; [lia|]. simpl in Hj. destruct i as [|i]; simpl in Hi.
  - injection Hi as <-. rewrite Forall_forall in HF. apply HF. eapply nth_error_In; eauto.
  - apply (IH i j); auto; lia.
Qed.
Lemma sorted_nth_ge : forall l, StronglySorted lt l -> forall i a,
  nth_error l i = Some a -> (i <= a)%nat.
Proof.
  intros l H i. induction i as [|i IH]; intros a Hi; [lia|].
  destruct (nth_error l i) as [b|] eqn:E.
  - pose proof (sorted_nth_lt l H i (S i) b a ltac:(lia) E Hi). specialize (IH b eq_refl). lia.
  - apply nth_error_None in E. assert (nth_error l (S i) <> None) by congruence.
    apply nth_error_Some in H0. lia.
Qed.

Lemma nth_error_skipn_eq : forall A (l : list A) n i, nth_error (skipn n l) i = nth_error l (n + i).
Proof.
  induction l as [|x l IH]; intros n i.
  - rewrite skipn_nil. destruct (n + i)%nat, i; reflexivity.
  - destruct n as [|n]; simpl; [reflexivity|]. apply IH.
Qed.

Lemma recode_in_place : forall P j c, nth_error P j = Some c -> c = j \/ (length P <= c)%nat ->
  recode P j = c.
Proof.
  intros P j c Hj H. unfold recode, enumerate. change (fun c0 pv => if (c0 =? fst pv)%nat then snd pv else c0) with recode_step.
  rewrite <- (Nat.add_0_l j) at 1. rewrite (recode_at P 0 c j Hj). apply recode_stay.
  rewrite skipn_length. assert (j < length P)%nat by (apply nth_error_Some; congruence). lia.
Qed.
Lemma recode_available : forall P j, (j < length P)%nat -> In (recode P j) P.
Proof.
  intros P j H. unfold recode, enumerate. change (fun c0 pv => if (c0 =? fst pv)%nat then snd pv else c0) with recode_step.
  destruct (nth_error P j) as [c|] eqn:Hj; [|apply nth_error_None in Hj; lia].
  rewrite <- (Nat.add_0_l j) at 1. rewrite (recode_at P 0 c j Hj).
  destruct (recode_in (skipn (S j) P) (0 + S j) c) as [->|Hin].
  - eapply nth_error_In; eauto.
  - apply In_nth_error in Hin. destruct Hin as [i Hi]. rewrite nth_error_skipn_eq in Hi.
    eapply nth_error_In; eauto.
Qed.
Lemma recode_wrong : forall P j c, StronglySorted lt P -> nth_error P j = Some c ->
  c <> j -> (c < length P)%nat -> (c < recode P j)%nat.
Proof.
  intros P j c HS Hj Hne Hlt. unfold recode, enumerate.
  change (fun c0 pv => if (c0 =? fst pv)%nat then snd pv else c0) with recode_step.
  rewrite <- (Nat.add_0_l j) at 1. rewrite (recode_at P 0 c j Hj).
  pose proof (sorted_nth_ge P HS j c Hj) as Hge.
  destruct (nth_error P c) as [d|] eqn:Hc; [|apply nth_error_None in Hc; lia].
  assert (Hd : (c < d)%nat) by (apply (sorted_nth_lt P HS j c c d); auto; lia).
  set (q := (c - S j)%nat).
  assert (Hq : nth_error (skipn (S j) P) q = Some d).
  { rewrite nth_error_skipn_eq. replace (S j + q)%nat with c by (unfold q; lia). exact Hc. }
  replace c with (0 + S j + q)%nat at 2 by (unfold q; lia).
  rewrite (recode_at _ (0 + S j) d q Hq).
  eapply Nat.lt_le_trans; [exact Hd|]. apply recode_ge.
  intros i v Hi. rewrite !nth_error_skipn_eq in Hi. apply (sorted_nth_ge P HS) in Hi. lia.
Qed.

Open Scope R_scope.
(** ** Positions of the available choices *)
Lemma choice_positions_eq : forall choices cs, NoDup choices -> length cs = length choices ->
  choice_positions choices (select_valid_choices choices cs) = positions cs.
Proof.
  intros choices cs HN HL. unfold choice_positions, positions.
  assert (HV : forall i x, nth_error choices i = Some x ->
     mem x (select_valid_choices choices cs) = nth i cs false).
  { intros i x Hi. apply eq_true_iff_eq. rewrite mem_In. unfold select_valid_choices.
    rewrite in_map_iff. split.
    - intros [[i' x'] [E H]]. simpl in E. subst x'. apply filter_In in H. destruct H as [H1 H2].
      simpl in H2. apply In_enumerate in H1.
      assert (i = i').
      { rewrite NoDup_nth_error in HN. apply HN; [apply nth_error_Some; congruence|congruence]. }
      subst. exact H2.
    - intros H. exists (i, x). split; [reflexivity|]. apply filter_In. split; [|exact H].
      apply In_enumerate. exact Hi. }
  assert (G : forall (l : list nat) (m : list bool) n, length m = length l ->
     (forall i x, nth_error l i = Some x -> mem x (select_valid_choices choices cs) = nth i m false) ->
     map fst (filter (fun p => mem (snd p) (select_valid_choices choices cs)) (enumerate_from n l)) =
     map fst (filter (fun p : nat * bool => snd p) (enumerate_from n m))).
  { induction l as [|x l IH]; intros [|b m] n L H; simpl in *; try lia; [reflexivity|].
    rewrite (H 0%nat x eq_refl). simpl. specialize (IH m (S n) ltac:(lia) (fun i => H (S i))).
    destruct b; simpl; rewrite IH; reflexivity. }
  apply G; auto.
Qed.

Section Record.
  Variables (choices : list nat) (cs : list bool) (vals : list R).
  Hypothesis HN : NoDup choices.
  Hypothesis HL : length cs = length choices.
  Hypothesis HV : length vals = count_true cs.

  Lemma record_choice_eq : record_choice choices cs vals = option_map (recode (positions cs)) (argmax vals).
  Proof. unfold record_choice. rewrite choice_positions_eq by assumption. reflexivity. Qed.

  Lemma record_available : forall c, record_choice choices cs vals = Some c -> available cs c.
  Proof.
    intros c. rewrite record_choice_eq. destruct (argmax vals) as [j|] eqn:E; [|discriminate].
    intros H. injection H as <-. apply In_positions. apply recode_available.
    apply argmax_spec in E. destruct E as [v [Hv _]]. rewrite length_positions, <- HV.
    apply nth_error_Some. congruence.
  Qed.

  Lemma record_best : in_place cs -> forall c, record_choice choices cs vals = Some c ->
    maximises cs vals c.
  Proof.
    intros HP c. rewrite record_choice_eq. destruct (argmax vals) as [j|] eqn:E; [|discriminate].
    intros H. injection H as H. apply argmax_spec in E. destruct E as [v [Hv [H1 H2]]].
    assert (L : (j < length (positions cs))%nat).
    { rewrite length_positions, <- HV. apply nth_error_Some. congruence. }
    destruct (nth_error (positions cs) j) as [d|] eqn:Hd; [|apply nth_error_None in Hd; lia].
    rewrite (recode_in_place _ _ d Hd) in H by (rewrite length_positions; apply HP; exact Hd).
    subst d. exists j, v. split; [exact Hd|]. split; [exact Hv|].
    intros v' Hin. apply In_nth_error in Hin. destruct Hin as [i Hi]. eauto.
  Qed.

  Lemma record_some : (0 < count_true cs)%nat -> exists c, record_choice choices cs vals = Some c.
  Proof.
    intros H. rewrite record_choice_eq. destruct (argmax_some vals) as [j ->]; [|eexists; reflexivity].
    intros E. subst. simpl in HV. lia.
  Qed.
End Record.

(** For all other choice sets some strict maximiser is recorded as another choice. *)
Lemma argmax_unique : forall l j, (j < length l)%nat ->
  (forall i v w, nth_error l i = Some v -> nth_error l j = Some w -> i <> j -> v < w) -> argmax l = Some j.
Proof.
  intros l j L H. destruct (argmax_some l) as [j' E]; [intros ->; simpl in L; lia|].
  rewrite E. f_equal. apply argmax_spec in E. apply (first_max_unique l); [exact E|].
  destruct (nth_error l j) as [w|] eqn:W; [|apply nth_error_None in W; lia].
  exists w. split; [exact W|]. split.
  - intros i v' Hi. destruct (Nat.eq_dec i j) as [->|Hne].
    + rewrite W in Hi. injection Hi as <-. lra.
    + specialize (H i v' w Hi eq_refl Hne). lra.
  - intros i v' Li Hi. apply (H i v' w Hi eq_refl). lia.
Qed.

Lemma not_in_place_witness : forall cs, ~ in_place cs ->
  exists j c, nth_error (positions cs) j = Some c /\ c <> j /\ (c < count_true cs)%nat.
Proof.
  intros cs H.
  assert (D : forall n, (exists j c, (j < n)%nat /\ nth_error (positions cs) j = Some c /\ c <> j /\ (c < count_true cs)%nat)
     \/ (forall j c, (j < n)%nat -> nth_error (positions cs) j = Some c -> c = j \/ (count_true cs <= c)%nat)).
  { induction n as [|n IH]; [right; intros; lia|].
    destruct IH as [[j [c [L R]]]|IH]; [left; exists j, c; split; [lia|exact R]|].
    destruct (nth_error (positions cs) n) as [c|] eqn:E.
    - destruct (Nat.eq_dec c n) as [E1|E1].
      + right. intros j c' L Hj. destruct (Nat.eq_dec j n) as [->|Hne]; [left; congruence|apply (IH j); [lia|exact Hj]].
      + destruct (le_lt_dec (count_true cs) c) as [E2|E2].
        * right. intros j c' L Hj. destruct (Nat.eq_dec j n) as [->|Hne]; [right; congruence|apply (IH j); [lia|exact Hj]].
        * left. exists n, c. auto.
    - right. intros j c' L Hj. destruct (Nat.eq_dec j n) as [->|Hne]; [congruence|apply (IH j); [lia|exact Hj]]. }
  destruct (D (length (positions cs))) as [[j [c [L R]]]|D']; [eauto|].
  exfalso. apply H. intros j c Hj. apply (D' j); [apply nth_error_Some; congruence|exact Hj].
Qed.

Lemma record_wrong : forall choices cs, NoDup choices -> length cs = length choices ->
  ~ in_place cs -> exists vals c c', length vals = count_true cs /\
    strict_maximiser cs vals c /\ record_choice choices cs vals = Some c' /\ c' <> c.
Proof.
  intros choices cs HN HL HP. destruct (not_in_place_witness cs HP) as [j [c [Hj [Hne Hlt]]]].
  set (vals := map (fun i => if Nat.eqb i j then 1 else 0) (seq 0 (count_true cs))).
  assert (LV : length vals = count_true cs) by (unfold vals; rewrite map_length, seq_length; reflexivity).
  assert (Lj : (j < count_true cs)%nat).
  { rewrite <- length_positions. apply nth_error_Some. congruence. }
  assert (NV : forall i, (i < count_true cs)%nat -> nth_error vals i = Some (if Nat.eqb i j then 1 else 0)).
  { intros i Li. unfold vals. rewrite nth_error_map, Proof_CoreStateSpace.nth_error_seq0 by exact Li. reflexivity. }
  assert (NL : forall i v, nth_error vals i = Some v -> (i < count_true cs)%nat).
  { intros i v Hi. rewrite <- LV. apply nth_error_Some. congruence. }
  exists vals, c, (recode (positions cs) j). split; [exact LV|]. split; [|split].
  - exists j, 1. split; [exact Hj|]. split; [rewrite NV by exact Lj; rewrite Nat.eqb_refl; reflexivity|].
    intros j' v' Hv Hn. pose proof (NL _ _ Hv) as L. rewrite NV in Hv by exact L. injection Hv as <-.
    destruct (Nat.eqb_spec j' j); [congruence|lra].
  - rewrite record_choice_eq by assumption.
    rewrite (argmax_unique vals j); [reflexivity|lia|].
    intros i v w Hi Hw Hn. pose proof (NL _ _ Hi) as L. rewrite NV in Hi, Hw by assumption.
    injection Hi as <-. injection Hw as <-. rewrite Nat.eqb_refl.
    destruct (Nat.eqb_spec i j); [congruence|lra].
  - pose proof (recode_wrong (positions cs) j c (positions_sorted cs) Hj Hne ltac:(rewrite length_positions; exact Hlt)). lia.
Qed.

(** ** One row *)
Lemma transform_draw_nth : forall n p cs shocks j ch,
  square n (p_chol p) -> length cs = n -> length shocks = n ->
  nth_error (positions cs) j = Some ch ->
  nth_error (transform_draw (subset_cholesky (p_chol p) cs) (count_true (firstn (p_nwages p) cs))
               (compress cs shocks)) j = Some (shock_of p cs shocks ch).
Proof.
  intros n p cs shocks j ch SQ LC LS Hj.
  destruct (transform_draw_spec n p cs [compress cs shocks] 0 (compress cs shocks) j ch SQ LC eq_refl Hj)
    as [e [H1 [H2 H3]]].
  simpl in H1. injection H1 as E. rewrite E, H3. unfold shock_of.
  rewrite (compress_positions _ _ _ 0) by congruence. reflexivity.
Qed.

Lemma nth_error_map_seq : forall A (f : nat -> A) n j, (j < n)%nat ->
  nth_error (map f (seq 0 n)) j = Some (f j).
Proof.
  intros. rewrite nth_error_map, Proof_CoreStateSpace.nth_error_seq0 by assumption. reflexivity.
Qed.

Lemma simulate_row_spec : forall n si next cx wages nonpecs conts i r w np c,
  let cs := cx_choice_set cx in
  let p := si_params si in
  square n (p_chol p) -> length cs = n -> NoDup (si_choices si) -> length (si_choices si) = n ->
  length (r_shocks r) = n -> length (r_meas r) = n ->
  nth_error wages (r_index r) = Some w -> nth_error nonpecs (r_index r) = Some np ->
  nth_error conts (r_index r) = Some c ->
  length w = count_true cs -> length np = count_true cs -> length c = count_true cs ->
  (0 < count_true cs)%nat ->
  exists o, simulate_row si next cx wages nonpecs conts i r = Ok o /\
    o_ind o = r_ind r /\ o_shocks o = r_shocks r /\ o_next o = next i (r_key r) (r_index r) /\
    length (o_values o) = count_true cs /\
    (forall j ch, nth_error (positions cs) j = Some ch ->
       nth_error (o_values o) j =
       Some (nth j w 0 * shock_of p cs (r_shocks r) ch + nth j np 0 + si_beta si * p_delta p * nth j c 0)) /\
    record_choice (si_choices si) cs (o_values o) = Some (o_choice o) /\
    exists j ch, first_max (o_values o) j /\ nth_error (positions cs) j = Some ch /\
      o_wage o = if Nat.ltb ch (p_nwages p)
                 then Some (nth j w 0 * shock_of p cs (r_shocks r) ch * nth ch (r_meas r) 0) else None.
Proof.
  intros n si next cx wages nonpecs conts i r w np c cs p SQ LC NC LCh LS LM Hw Hnp Hc Lw Lnp Lc Pos.
  unfold simulate_row. fold cs p. rewrite Hw, Hnp, Hc.
  set (draws := transform_draw (subset_cholesky (p_chol p) cs) (count_true (firstn (p_nwages p) cs)) (compress cs (r_shocks r))).
  set (values := value_functions w np c draws (si_beta si * p_delta p)).
  assert (LV : length values = count_true cs).
  { unfold values, value_functions. rewrite map_length, seq_length. exact Lw. }
  assert (Hdraw : forall j ch, nth_error (positions cs) j = Some ch -> nth j draws 0 = shock_of p cs (r_shocks r) ch).
  { intros j ch Hj. apply nth_error_nth. unfold draws. eapply transform_draw_nth; eauto. }
  assert (Lj : forall j ch, nth_error (positions cs) j = Some ch -> (j < count_true cs)%nat).
  { intros j ch Hj. rewrite <- length_positions. apply nth_error_Some. congruence. }
  destruct (argmax_some values) as [j Ej]; [intros E; rewrite E in LV; simpl in LV; lia|].
  destruct (record_some (si_choices si) cs values NC ltac:(congruence) LV Pos) as [ch Ech].
  rewrite Ej, Ech. eexists. split; [reflexivity|]. simpl. split; [reflexivity|]. split; [reflexivity|].
  split; [reflexivity|]. split; [exact LV|]. split; [|split; [exact Ech|]].
  - intros j' ch' Hj'. unfold values, value_functions. rewrite nth_error_map_seq by (rewrite Lw; eapply Lj; eauto).
    simpl. rewrite (Hdraw _ _ Hj'). reflexivity.
  - pose proof (argmax_spec _ _ Ej) as FM. destruct FM as [v [Hv FM]].
    assert (L : (j < count_true cs)%nat) by (rewrite <- LV; apply nth_error_Some; congruence).
    destruct (nth_error (positions cs) j) as [ch'|] eqn:Hj;
      [|apply nth_error_None in Hj; rewrite length_positions in Hj; lia].
    exists j, ch'. split; [exists v; auto|]. split; [exact Hj|].
    unfold observed_wages.
    rewrite (nth_error_nth _ _ None (nth_error_map_seq _ _ (length w) j ltac:(lia))).
    pose proof (firstn_positions cs (p_nwages p) j ch' Hj) as FP.
    rewrite (Hdraw _ _ Hj).
    rewrite (nth_error_nth _ _ 0 (nth_error_compress _ cs (r_meas r) 0 j ch' ltac:(congruence) Hj)).
    destruct (Nat.ltb_spec j (count_true (firstn (p_nwages p) cs)));
      destruct (Nat.ltb_spec ch' (p_nwages p)); try lia; reflexivity.
Qed.
