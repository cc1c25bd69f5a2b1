(** Arguments of the simulation and sampling of characteristics. *)
From Coq Require Import List Arith ZArith Bool Reals Lra Lia Permutation Sorted.
From Verif Require Import Base Proof_Base Model_CoreStateSpace Model_StateSpace Model_Solve Spec_Solve
  Model_Parallel Spec_Parallel Proof_Parallel Model_Simulate Spec_Simulate Proof_Simulate Proof_Panel.
Import ListNotations.
Open Scope R_scope.

(** ** Number of periods *)
Lemma list_max_spec : forall l, l <> [] -> In (list_max l) l /\ forall q, In q l -> (q <= list_max l)%nat.
Proof.
  intros l Hl. assert (G : forall q, In q l -> (q <= list_max l)%nat).
  { intros q Hq. pose proof (proj1 (list_max_le l (list_max l)) (le_n _)) as F.
    rewrite Forall_forall in F. apply F. exact Hq. }
  split; [|exact G]. clear G. induction l as [|x l IH]; [contradiction|].
  destruct l as [|y l]; [simpl; lia|].
  specialize (IH ltac:(discriminate)). change (list_max (x :: y :: l)) with (Nat.max x (list_max (y :: l))).
  destruct (Nat.max_spec x (list_max (y :: l))) as [[_ ->]|[_ ->]]; [right; exact IH|left; reflexivity].
Qed.

Lemma max_ltb : forall n p, (if Nat.ltb n p then p else n) = Nat.max n p.
Proof. intros n p. destruct (Nat.ltb_spec n p); lia. Qed.

Lemma harmonize_one_step : forall data n agents, data <> [] ->
  exists p ids, harmonize OneStep data None n agents = Ok (S p, Nat.max n (S p), length ids) /\
    In p (map snd data) /\ (forall q, In q (map snd data) -> (q <= p)%nat) /\
    NoDup ids /\ forall i, In i ids <-> In i (map fst data).
Proof.
  intros data n agents Hd. exists (list_max (map snd data)), (drop_duplicates Nat.eq_dec (map fst data)).
  assert (Hm : map snd data <> []) by (destruct data; [contradiction|discriminate]).
  destruct (list_max_spec _ Hm) as [H1 H2]. split.
  - destruct data; [contradiction|]. unfold harmonize. cbn [result_bind]. rewrite max_ltb. reflexivity.
  - split; [exact H1|]. split; [exact H2|]. split; [apply NoDup_drop_duplicates|]. intros i. apply In_drop_duplicates.
Qed.

Lemma harmonize_ignored : forall m data requested n agents, (m = OneStep -> requested <> None) ->
  exists k, harmonize m data requested n agents = Ok (n, n, k) /\
    (m = NStepSampling -> k = agents) /\
    (m <> NStepSampling -> exists ids, k = length ids /\ NoDup ids /\ forall i, In i ids <-> In i (map fst data)).
Proof.
  intros m data requested n agents H.
  exists (match m with NStepSampling => agents | _ => length (drop_duplicates Nat.eq_dec (map fst data)) end).
  split; [|split].
  - unfold harmonize. destruct requested as [q|], m; try (exfalso; apply H; reflexivity);
      cbn [result_bind]; rewrite Nat.ltb_irrefl; reflexivity.
  - intros ->. reflexivity.
  - intros Hm. exists (drop_duplicates Nat.eq_dec (map fst data)). split; [destruct m; congruence|].
    split; [apply NoDup_drop_duplicates|]. intros i. apply In_drop_duplicates.
Qed.

Lemma harmonize_empty : forall n agents, harmonize OneStep [] None n agents = ValueError.
Proof. reflexivity. Qed.

(** ** Initial rows *)
Lemma initial_rows_index : forall A (data : frame A) n,
  map fst (initial_rows data n) = map (fun k => (k, 0%nat)) (seq 0 n).
Proof. intros A data n. unfold initial_rows. rewrite map_map. reflexivity. Qed.

Lemma initial_rows_kept : forall A (data : frame A) n id x, NoDup (map fst data) ->
  (In ((id, 0%nat), Some x) (initial_rows data n) <-> (id < n)%nat /\ In ((id, 0%nat), x) data).
Proof.
  intros A data n id x ND. unfold initial_rows. rewrite in_map_iff. split.
  - intros [k [E Hk]]. injection E as -> E. apply in_seq in Hk. split; [lia|].
    match type of E with context [find ?f data] => destruct (find f data) as [[[i t] y]|] eqn:F end; [|discriminate]. simpl in E. injection E as ->.
    apply find_some in F. destruct F as [F1 F2]. simpl in F2. apply andb_true_iff in F2.
    destruct F2 as [F2 F3]. apply Nat.eqb_eq in F2. apply Nat.eqb_eq in F3. subst. exact F1.
  - intros [Hi Hx]. exists id. split; [|apply in_seq; lia]. f_equal.
    match goal with |- context [find ?f data] => destruct (find f data) as [[[i t] y]|] eqn:F end.
    + apply find_some in F. destruct F as [F1 F2]. simpl in F2. apply andb_true_iff in F2.
      destruct F2 as [F2 F3]. apply Nat.eqb_eq in F2. apply Nat.eqb_eq in F3. subst. simpl.
      f_equal. exact (NoDup_fst_functional _ _ _ _ _ _ ND F1 Hx).
    + exfalso. apply (find_none _ _ F) in Hx. simpl in Hx. rewrite !Nat.eqb_refl in Hx. discriminate.
Qed.

Lemma initial_rows_missing : forall A (data : frame A) n id, (id < n)%nat ->
  (forall x, ~ In ((id, 0%nat), x) data) -> In ((id, 0%nat), None) (initial_rows data n).
Proof.
  intros A data n id Hi Hx. unfold initial_rows. apply in_map_iff. exists id. split; [|apply in_seq; lia]. f_equal.
  match goal with |- context [find ?f data] => destruct (find f data) as [[[i t] y]|] eqn:F end; [|reflexivity].
  apply find_some in F. destruct F as [F1 F2]. simpl in F2. apply andb_true_iff in F2.
  destruct F2 as [F2 F3]. apply Nat.eqb_eq in F2. apply Nat.eqb_eq in F3. subst. exfalso. exact (Hx _ F1).
Qed.

(** ** Random choice *)
Lemma round_half_even_one : forall x, round_half_even x = 100000%Z <-> 99999.5 <= x <= 100000.5.
Proof.
  intros x. unfold round_half_even. destruct (base_Int_part x) as [B1 B2].
  set (n := Int_part x) in *.
  split.
  - destruct (Rlt_dec (x - IZR n) (1 / 2)) as [L|L].
    + intros E. rewrite E in *. lra.
    + destruct (Rlt_dec (1 / 2) (x - IZR n)) as [L2|L2].
      * intros E. assert (En : n = 99999%Z) by lia. rewrite En in *. lra.
      * destruct (Z.even n) eqn:Ev; intros E.
        -- rewrite E in *. lra.
        -- assert (En : n = 99999%Z) by lia. rewrite En in *. lra.
  - intros [H1 H2].
    assert (C : n = 99999%Z \/ n = 100000%Z).
    { assert (99998 < n)%Z by (apply lt_IZR; lra). assert (n < 100001)%Z by (apply lt_IZR; lra). lia. }
    destruct C as [C|C]; rewrite C in *.
    + destruct (Rlt_dec (x - 99999) (1 / 2)) as [L|L]; [lra|].
      destruct (Rlt_dec (1 / 2) (x - 99999)); reflexivity.
    + destruct (Rlt_dec (x - 100000) (1 / 2)) as [L|L]; [reflexivity|].
      destruct (Rlt_dec (1 / 2) (x - 100000)) as [L2|L2]; [lra|reflexivity].
Qed.

Lemma round5_one : forall x, round5 x = 1 <-> 1 - 0.000005 <= x <= 1 + 0.000005.
Proof.
  intros x. unfold round5. transitivity (round_half_even (x * 100000) = 100000%Z).
  - split; intros H.
    + apply eq_IZR. lra.
    + rewrite H. lra.
  - rewrite round_half_even_one. lra.
Qed.

Lemma cumsum_length : forall l a, length (cumsum a l) = length l.
Proof. induction l; intros b; simpl; [reflexivity|]. rewrite IHl. reflexivity. Qed.

Lemma cumsum_nth : forall l a i, (i < length l)%nat -> nth_error (cumsum a l) i = Some (a + rsum (firstn (S i) l)).
Proof.
  induction l as [|x l IH]; intros a i Hi; simpl in Hi; [lia|].
  destruct i as [|i]; cbn [cumsum nth_error firstn].
  - f_equal. unfold rsum. simpl. lra.
  - rewrite IH by lia. f_equal. cbn [firstn]. unfold rsum. simpl. lra.
Qed.

Lemma round_last_length : forall l, length (round_last l) = length l.
Proof. induction l as [|x [|y l] IH]; [reflexivity|reflexivity|]. change (S (length (round_last (y :: l))) = S (length (y :: l))). rewrite IH. reflexivity. Qed.

Lemma round_last_nth : forall l i x, nth_error l i = Some x ->
  nth_error (round_last l) i = Some (if Nat.eqb (S i) (length l) then round5 x else x).
Proof.
  induction l as [|y [|z l] IH]; intros i x H.
  - destruct i; discriminate.
  - destruct i as [|[|]]; simpl in *; try discriminate. injection H as ->. reflexivity.
  - change (round_last (y :: z :: l)) with (y :: round_last (z :: l)).
    destruct i as [|i].
    + cbn in H. injection H as ->. reflexivity.
    + exact (IH i x H).
Qed.

Lemma last_nth : forall A (l : list A) d, l <> [] -> nth_error l (length l - 1) = Some (last l d).
Proof.
  induction l as [|x [|y l] IH]; intros d H; [contradiction|reflexivity|].
  specialize (IH d ltac:(discriminate)). simpl in *. rewrite Nat.sub_0_r in IH. exact IH.
Qed.

Lemma first_below_spec : forall l u i j, first_below u i l = Some j <->
  (i <= j)%nat /\ exists x, nth_error l (j - i) = Some x /\ u < x /\
    forall k y, (k < j - i)%nat -> nth_error l k = Some y -> y <= u.
Proof.
  induction l as [|a l IH]; intros u i j.
  - split; [discriminate|]. intros [_ [x [H _]]]. destruct (j - i)%nat; discriminate.
  - simpl. destruct (Rlt_dec u a) as [L|L].
    + split.
      * intros E. injection E as <-. split; [lia|]. exists a. rewrite Nat.sub_diag. repeat split; auto. intros; lia.
      * intros [H1 [x [H2 [H3 H4]]]]. f_equal. destruct (j - i)%nat as [|d] eqn:D; [lia|].
        specialize (H4 0%nat a ltac:(lia) eq_refl). lra.
    + rewrite IH. split.
      * intros [H1 [x [H2 [H3 H4]]]]. split; [lia|]. exists x.
        replace (j - i)%nat with (S (j - S i)) by lia. split; [exact H2|]. split; [exact H3|].
        intros [|k] y Hk Hy; [injection Hy as ->; lra|]. apply (H4 k); [lia|exact Hy].
      * intros [H1 [x [H2 [H3 H4]]]]. destruct (j - i)%nat as [|d] eqn:D.
        -- simpl in H2. injection H2 as ->. lra.
        -- split; [lia|]. exists x. replace (j - S i)%nat with d by lia. split; [exact H2|]. split; [exact H3|].
           intros k y Hk Hy. apply (H4 (S k)); [lia|exact Hy].
Qed.

Lemma rsum_firstn_mono : forall l i j, (forall p, In p l -> 0 <= p) -> (i <= j)%nat ->
  rsum (firstn i l) <= rsum (firstn j l).
Proof.
  induction l as [|x l IH]; intros i j H Hij.
  - rewrite !firstn_nil. lra.
  - destruct i as [|i]; destruct j as [|j]; cbn [firstn]; try lia.
    + lra.
    + assert (0 <= rsum (firstn j l)).
      { specialize (IH 0%nat j (fun p Hp => H p (or_intror Hp)) ltac:(lia)). simpl in IH. exact IH. }
      unfold rsum in *. simpl. specialize (H x (or_introl eq_refl)). lra.
    + specialize (IH i j (fun p Hp => H p (or_intror Hp)) ltac:(lia)). unfold rsum in *. simpl. lra.
Qed.

Lemma rsum_firstn_S : forall l i p, nth_error l i = Some p -> rsum (firstn (S i) l) = rsum (firstn i l) + p.
Proof.
  induction l as [|x l IH]; intros [|i] p H; try discriminate.
  - simpl in H. injection H as ->. unfold rsum. simpl. lra.
  - simpl in H. rewrite (firstn_cons (S i)). rewrite (firstn_cons i). unfold rsum in *. cbn [fold_right].
    rewrite (IH i p H). lra.
Qed.

Lemma random_choice_spec : forall probs u, probs <> [] -> (forall p, In p probs -> 0 <= p) ->
  1 - 0.000005 <= rsum probs <= 1 + 0.000005 -> 0 <= u < 1 ->
  (exists i, random_choice probs u = Ok i) /\
  forall i, random_choice probs u = Ok i <-> drawn_interval probs i u.
Proof.
  intros probs u Hne Hp Hs Hu. set (n := length probs).
  assert (Hn : (0 < n)%nat) by (unfold n; destruct probs; [contradiction|simpl; lia]).
  set (cdf := round_last (cumsum 0 probs)).
  assert (Hlen : length cdf = n) by (unfold cdf; rewrite round_last_length, cumsum_length; reflexivity).
  assert (Hnth : forall i, (i < n)%nat -> nth_error cdf i =
            Some (if Nat.eqb (S i) n then 1 else rsum (firstn (S i) probs))).
  { intros i Hi. unfold cdf. rewrite (round_last_nth _ _ _ (cumsum_nth probs 0 i Hi)), cumsum_length.
    rewrite Rplus_0_l. fold n. destruct (Nat.eqb_spec (S i) n) as [E|E]; [|reflexivity].
    rewrite E. unfold n. rewrite firstn_all. f_equal. apply round5_one. exact Hs. }
  assert (Hlast : last cdf 0 = 1).
  { assert (Hc : cdf <> []) by (destruct cdf; [simpl in Hlen; lia|discriminate]).
    pose proof (last_nth _ cdf 0 Hc) as L. rewrite Hlen, Hnth in L by lia.
    replace (S (n - 1)) with n in L by lia. rewrite Nat.eqb_refl in L. congruence. }
  assert (Hdef : random_choice probs u = Ok match first_below u 0 cdf with Some i => i | None => 0%nat end).
  { unfold random_choice. fold cdf. destruct cdf as [|c cdf']; [simpl in Hlen; lia|].
    destruct (Req_EM_T (last (c :: cdf') 0) 1); [reflexivity|contradiction]. }
  assert (HFB : forall i, first_below u 0 cdf = Some i <-> drawn_interval probs i u).
  { intros i. rewrite first_below_spec. rewrite Nat.sub_0_r. unfold drawn_interval. fold n. split.
    - intros [_ [x [H1 [H2 H3]]]].
      assert (Hi : (i < n)%nat) by (rewrite <- Hlen; apply nth_error_Some; congruence).
      rewrite Hnth in H1 by exact Hi. match type of H1 with Some ?a = Some x => assert (a = x) as <- by congruence end.
      split; [exact Hi|]. split; [|exact H2].
      destruct i as [|i]; [simpl; unfold rsum; simpl; lra|].
      apply (H3 i); [lia|]. rewrite Hnth by lia. destruct (Nat.eqb_spec (S i) n); [lia|reflexivity].
    - intros [Hi [H1 H2]]. split; [lia|]. eexists. split; [apply Hnth; exact Hi|]. split; [exact H2|].
      intros k y Hk Hy. rewrite Hnth in Hy by lia. destruct (Nat.eqb_spec (S k) n); [lia|]. assert (y = rsum (firstn (S k) probs)) as -> by congruence.
      apply Rle_trans with (rsum (firstn i probs)); [apply rsum_firstn_mono; [exact Hp|lia]|exact H1]. }
  assert (HE : exists i, first_below u 0 cdf = Some i).
  { destruct (first_below u 0 cdf) as [i|] eqn:E; [eauto|]. exfalso.
    assert (G : forall l i, first_below u i l = None -> forall x, In x l -> x <= u).
    { induction l as [|a l IH]; intros i H x Hx; [contradiction|]. simpl in H.
      destruct (Rlt_dec u a) as [L|L]; [discriminate|]. destruct Hx as [<-|Hx]; [lra|exact (IH _ H x Hx)]. }
    assert (In 1 cdf).
    { apply nth_error_In with (n := (n - 1)%nat). rewrite Hnth by lia. replace (S (n - 1)) with n by lia.
      rewrite Nat.eqb_refl. reflexivity. }
    specialize (G cdf 0%nat E 1 H). lra. }
  split; [rewrite Hdef; eauto|]. intros i. rewrite <- HFB, Hdef. destruct HE as [j ->].
  split; intros E; injection E as ->; reflexivity.
Qed.

Lemma random_choice_rejects : forall probs u, probs <> [] ->
  ~ (1 - 0.000005 <= rsum probs <= 1 + 0.000005) -> random_choice probs u = ValueError.
Proof.
  intros probs u Hne Hs. unfold random_choice. set (cdf := round_last (cumsum 0 probs)).
  assert (Hlen : length cdf = length probs) by (unfold cdf; rewrite round_last_length, cumsum_length; reflexivity).
  assert (Hn : (0 < length probs)%nat) by (destruct probs; [contradiction|simpl; lia]).
  assert (Hc : cdf <> []) by (destruct cdf; [simpl in Hlen; lia|discriminate]).
  assert (L : last cdf 0 = round5 (rsum probs)).
  { pose proof (last_nth _ cdf 0 Hc) as L. rewrite Hlen in L. unfold cdf at 1 in L.
    rewrite (round_last_nth _ _ _ (cumsum_nth probs 0 (length probs - 1) ltac:(lia))), cumsum_length in L.
    replace (S (length probs - 1)) with (length probs) in L by lia.
    rewrite Nat.eqb_refl, firstn_all, Rplus_0_l in L. congruence. }
  destruct cdf as [|c cdf']; [contradiction|]. rewrite L.
  destruct (Req_EM_T (round5 (rsum probs)) 1) as [E|E]; [|reflexivity]. apply round5_one in E. contradiction.
Qed.

(** Length of the interval. *)
Lemma interval_length : forall probs i p, rsum probs = 1 -> nth_error probs i = Some p ->
  (if Nat.eqb (S i) (length probs) then 1 else rsum (firstn (S i) probs)) = rsum (firstn i probs) + p.
Proof.
  intros probs i p Hs Hi. rewrite <- (rsum_firstn_S _ _ _ Hi). destruct (Nat.eqb_spec (S i) (length probs)) as [E|E]; [|reflexivity].
  rewrite E, firstn_all. symmetry. exact Hs.
Qed.

Lemma zero_never_drawn : forall probs u i, (forall p, In p probs -> 0 <= p) -> rsum probs = 1 -> 0 <= u < 1 ->
  nth_error probs i = Some 0 -> random_choice probs u <> Ok i.
Proof.
  intros probs u i Hp Hs Hu Hi E.
  assert (Hne : probs <> []) by (destruct probs; [destruct i; discriminate|discriminate]).
  destruct (random_choice_spec probs u Hne Hp) as [_ H]; [lra|exact Hu|].
  apply H in E. destruct E as [_ [H1 H2]]. rewrite (interval_length _ _ _ Hs Hi) in H2. lra.
Qed.

Lemma exp_sum_pos : forall z, z <> [] -> 0 < fold_right Rplus 0 (map exp z).
Proof.
  intros z Hz. assert (G : forall z, 0 <= fold_right Rplus 0 (map exp z)).
  { induction z0 as [|x z0 IH]; simpl; [lra|]. pose proof (exp_pos x). lra. }
  destruct z as [|x z]; [contradiction|]. simpl. pose proof (exp_pos x). specialize (G z). lra.
Qed.

Lemma rsum_div : forall A (f : A -> R) l c, rsum (map (fun x => f x / c) l) = rsum (map f l) / c.
Proof.
  intros A f l c. unfold rsum. induction l as [|x l IH]; simpl; [unfold Rdiv; lra|]. rewrite IH. unfold Rdiv. lra.
Qed.

Lemma softmax_sum : forall z, z <> [] -> rsum (softmax z) = 1.
Proof.
  intros z Hz. unfold softmax. rewrite rsum_div. unfold rsum. apply Rinv_r.
  pose proof (exp_sum_pos z Hz). lra.
Qed.

Lemma softmax_pos : forall z p, In p (softmax z) -> 0 < p.
Proof.
  intros z p Hp. unfold softmax in Hp. apply in_map_iff in Hp. destruct Hp as [x [<- Hx]].
  apply Rdiv_lt_0_compat; [apply exp_pos|]. apply exp_sum_pos. intros ->. contradiction.
Qed.

Lemma sample_spec : forall x levels u, levels <> [] -> 0 <= u < 1 ->
  (exists i, sample_characteristic x levels u = Ok i) /\
  forall i, sample_characteristic x levels u = Ok i <->
    drawn_interval (softmax (map (pandas_dot x) levels)) i u.
Proof.
  intros x levels u Hl Hu. assert (Hz : map (pandas_dot x) levels <> []) by (destruct levels; [contradiction|discriminate]).
  apply random_choice_spec.
  - destruct levels; [contradiction|discriminate].
  - intros p Hp. apply Rlt_le, (softmax_pos _ _ Hp).
  - rewrite (softmax_sum _ Hz). lra.
  - exact Hu.
Qed.

(** ** Types *)
Lemma ffill_fst : forall df v, map fst (ffill v df) = map fst df.
Proof. induction df as [|[i w] df IH]; intros v; simpl; [reflexivity|]. rewrite IH. reflexivity. Qed.

Lemma fill_fst : forall sampled df, map fst (fill_first_period sampled df) = map fst df.
Proof. intros. unfold fill_first_period. rewrite map_map. reflexivity. Qed.

(** Filling forward in an ordered frame where each individual starts in period 0. *)
Lemma ffill_own : forall (df : frame (option nat)) last lid,
  ordered_frame df ->
  (forall id t x, In ((id, t), x) df -> id <> lid -> exists v, In ((id, 0%nat), Some v) df) ->
  (forall id t x, In ((id, t), x) df -> (lid <= id)%nat) ->
  forall id t v, In ((id, t), v) (ffill last df) ->
    (v = last /\ id = lid /\ last = None) \/
    exists w, v = Some w /\ ((id = lid /\ last = Some w) \/ exists t', (t' <= t)%nat /\ In ((id, t'), Some w) df).
Proof.
  induction df as [|[[i0 t0] x0] df IH]; intros last lid OF HS HL id t v Hin; [contradiction|].
  unfold ordered_frame in OF. simpl in OF. inversion OF as [|? ? OF' FA]; subst.
  rewrite Forall_forall in FA.
  simpl in Hin. destruct Hin as [E|Hin].
  - injection E as <- <- <-. destruct x0 as [w|].
    + right. exists w. split; [reflexivity|]. right. exists t0. split; [lia|left; reflexivity].
    + destruct (Nat.eq_dec i0 lid) as [->|Hne].
      * destruct last as [w|]; [right; exists w; split; [reflexivity|left; auto]|left; auto].
      * exfalso. destruct (HS i0 t0 None (or_introl eq_refl) Hne) as [w [Hw|Hw]]; [discriminate|].
        assert (In (i0, 0%nat) (map fst df)) by (apply in_map_iff; exists ((i0, 0%nat), Some w); auto).
        apply FA in H. destruct H as [H|[_ H]]; simpl in H; lia.
  - assert (HL' : forall id t x, In ((id, t), x) df -> (i0 <= id)%nat).
    { intros id' t' x' H. assert (In (id', t') (map fst df)) by (apply in_map_iff; exists ((id', t'), x'); auto).
      apply FA in H0. destruct H0 as [H0|[H0 _]]; simpl in H0; lia. }
    assert (HS' : forall id t x, In ((id, t), x) df -> id <> i0 -> exists v, In ((id, 0%nat), Some v) df).
    { intros id' t' x' H Hne. specialize (HL i0 t0 x0 (or_introl eq_refl)).
      pose proof (HL' id' t' x' H).
      destruct (HS id' t' x' (or_intror H)) as [w [Hw|Hw]]; [lia| |eauto].
      injection Hw as E1 _ _. congruence. }
    assert (HI : (i0 <= id)%nat /\ (id = i0 -> (t0 < t)%nat)).
    { assert (In (id, t) (map fst df)).
      { rewrite <- (ffill_fst df (match x0 with Some x => Some x | None => last end)).
        apply in_map_iff. exists ((id, t), v). auto. }
      apply FA in H. destruct H as [H|[H1 H2]]; simpl in *; split; lia. }
    destruct (IH _ i0 OF' HS' HL' id t v Hin) as [[-> [-> E]]|[w [-> H]]].
    + destruct x0 as [w|]; [discriminate|]. subst last.
      destruct (Nat.eq_dec i0 lid) as [->|Hne]; [left; auto|].
      exfalso. destruct (HS i0 t0 None (or_introl eq_refl) Hne) as [w [Hw|Hw]]; [discriminate|].
      assert (In (i0, 0%nat) (map fst df)) by (apply in_map_iff; exists ((i0, 0%nat), Some w); auto).
      apply FA in H. destruct H as [H|[_ H]]; simpl in H; lia.
    + right. exists w. split; [reflexivity|]. destruct H as [[-> E]|[t' [H1 H2]]].
      * destruct x0 as [w'|].
        -- injection E as ->. right. exists t0. split; [|left; reflexivity]. destruct HI as [_ HI]. specialize (HI eq_refl). lia.
        -- subst last. destruct (Nat.eq_dec i0 lid) as [->|Hne]; [left; auto|].
           exfalso. destruct (HS i0 t0 None (or_introl eq_refl) Hne) as [w' [Hw|Hw]]; [discriminate|].
           assert (In (i0, 0%nat) (map fst df)) by (apply in_map_iff; exists ((i0, 0%nat), Some w'); auto).
           apply FA in H. destruct H as [H|[_ H]]; simpl in H; lia.
      * right. exists t'. split; [exact H1|right; exact H2].
Qed.

Lemma fill_In : forall sampled df id t v, In ((id, t), v) (fill_first_period sampled df) <->
  exists x, In ((id, t), x) df /\
    v = match x with Some w => Some w | None => if Nat.eqb t 0 then Some (sampled (id, t)) else None end.
Proof.
  intros sampled df id t v. unfold fill_first_period. rewrite in_map_iff. split.
  - intros [[[i t'] x] [E H]]. simpl in E. injection E as -> -> <-. eauto.
  - intros [x [H ->]]. exists ((id, t), x). auto.
Qed.

Lemma type_column_spec : forall sampled (df : frame (option nat)),
  ordered_frame df -> observed_from_start df ->
  map fst (type_column sampled df) = map fst df /\
  (forall id t v, In ((id, t), v) (type_column sampled df) -> exists w, v = Some w /\
     ((exists t', (t' <= t)%nat /\ In ((id, t'), Some w) df) \/
      (In ((id, 0%nat), None) df /\ w = sampled (id, 0%nat)))).
Proof.
  intros sampled df OF OS. unfold type_column.
  rewrite (sort_index_perm _ df df OF (Permutation_refl _)).
  split; [rewrite ffill_fst, fill_fst; reflexivity|].
  set (ff := fill_first_period sampled df).
  assert (OF' : ordered_frame ff) by (unfold ordered_frame, ff; rewrite fill_fst; exact OF).
  assert (S0 : forall id t x, In ((id, t), x) ff -> exists v, In ((id, 0%nat), Some v) ff).
  { intros id t x H. apply fill_In in H. destruct H as [y [H _]]. destruct (OS id t y H) as [z Hz].
    destruct z as [w|].
    - exists w. apply fill_In. exists (Some w). auto.
    - exists (sampled (id, 0%nat)). apply fill_In. exists None. auto. }
  intros id t v Hin.
  destruct (ffill_own ff None 0%nat OF') with (id := id) (t := t) (v := v) as [[-> [-> _]]|[w [-> H]]]; auto.
  - intros i s x H _. exact (S0 i s x H).
  - intros; lia.
  - (* a missing value at the beginning is impossible *)
    exfalso. clear - Hin S0 OF'. 
    assert (In (0%nat, t) (map fst ff)) by (rewrite <- (ffill_fst ff None); apply in_map_iff; eexists; split; [|exact Hin]; reflexivity).
    apply in_map_iff in H. destruct H as [[i x] [E H]]. simpl in E. subst i.
    destruct (S0 _ _ _ H) as [w Hw].
    destruct ff as [|[[i0 t0] x0] ff']; [contradiction|].
    assert (E : (i0, t0) = (0%nat, 0%nat)).
    { destruct Hw as [E|Hw]; [injection E as -> -> _; reflexivity|].
      unfold ordered_frame in OF'. simpl in OF'. inversion OF' as [|? ? _ FA]; subst. rewrite Forall_forall in FA.
      assert (I : In (0%nat, 0%nat) (map fst ff')) by (apply in_map_iff; exists ((0%nat, 0%nat), Some w); auto).
      apply FA in I. destruct I as [I|[_ I]]; simpl in I; lia. }
    injection E as -> ->.
    assert (E : x0 = Some w).
    { destruct Hw as [E|Hw]; [congruence|]. unfold ordered_frame in OF'. simpl in OF'.
      inversion OF' as [|? ? _ FA]; subst. rewrite Forall_forall in FA.
      assert (I : In (0%nat, 0%nat) (map fst ff')) by (apply in_map_iff; exists ((0%nat, 0%nat), Some w); auto).
      apply FA in I. destruct I as [I|[_ I]]; simpl in I; lia. }
    subst x0. simpl in Hin. destruct Hin as [E|Hin]; [discriminate|].
    assert (G : forall l w, ~ In ((0%nat, t), None) (ffill (Some w) l)).
    { induction l as [|[j y] l IHl]; intros u Hl; [exact Hl|]. simpl in Hl. destruct Hl as [Hl|Hl].
      - destruct y; congruence.
      - destruct y; exact (IHl _ Hl). }
    exact (G _ _ Hin).
  - exists w. split; [reflexivity|]. destruct H as [[_ H]|[t' [H1 H2]]]; [discriminate|].
    apply fill_In in H2. destruct H2 as [y [H2 H3]]. destruct y as [w'|].
    + injection H3 as ->. left. eauto.
    + destruct (Nat.eqb_spec t' 0) as [->|]; [|discriminate]. injection H3 as ->. right. auto.
Qed.

Lemma type_column_missing : forall sampled (df : frame (option nat)),
  ordered_frame df -> observed_from_start df -> (forall i x, In (i, x) df -> x = None) ->
  type_column sampled df = map (fun r => (fst r, Some (sampled (fst (fst r), 0%nat)))) df.
Proof.
  intros sampled df OF OS HN. destruct (type_column_spec sampled df OF OS) as [H1 H2].
  revert H1 H2. generalize (type_column sampled df). intros col H1 H2.
  assert (G : forall id t v, In ((id, t), v) col -> v = Some (sampled (id, 0%nat))).
  { intros id t v H. destruct (H2 _ _ _ H) as [w [-> [[t' [_ C]]|[_ ->]]]]; [|reflexivity].
    apply HN in C. discriminate. }
  clear - H1 G. unfold frame, index in *. revert col H1 G. induction df as [|[[i t] x] df IH]; intros [|[[j s] y] col] H1 G; simpl in *; try discriminate; [reflexivity|].
  injection H1 as -> -> H1. f_equal; [|apply IH; eauto]. rewrite (G i t y (or_introl eq_refl)). reflexivity.
Qed.

(** ** Simulated choices are optimal *)
From Verif Require Import Spec_CoreStateSpace Proof_CoreStateSpace Spec_StateSpace Proof_StateSpace
  Proof_Solve Proof_SolveProps Proof_PanelModel.
Open Scope R_scope.

Lemma right_row_values : forall sp neg k grid ss inp ev0 ev si t s m o,
  standard_model sp neg k grid ss inp -> ev_shape ss ev0 ->
  solve_with_backward_induction ss inp ev0 = Ok ev ->
  right_row sp neg k grid ss inp ev si t s m o ->
  forall j c, nth_error (positions (choices_of sp neg k grid (o_ind o))) j = Some c ->
    nth_error (o_values o) j = Some (decision_value sp neg k grid inp (si_beta si) t (o_ind o) s c).
Proof.
  intros sp neg k grid ss inp ev0 ev si t s m o SM SH0 HS [R1 R2 R3 R4 [d [Hd R5]] R6 _] j' c' Hj'.
  destruct (R5 j' c' Hj') as [w [Hw [W0 W1]]]. rewrite Hw. f_equal.
  unfold decision_value. f_equal.
  destruct R1 as [I1 [I2 I3]].
  assert (Ht : (t < sp_nperiods sp)%nat) by (rewrite <- I2; apply core_periods; auto; apply SM).
  destruct (Req_dec (p_delta (in_params inp)) 0) as [D|D]; [rewrite D; lra|]. f_equal.
  destruct (Nat.eq_dec (S t) (sp_nperiods sp)) as [E|E].
  - rewrite (W0 E), E, Nat.sub_diag. reflexivity.
  - assert (In (law_of_motion c' (i_core (o_ind o))) (create_core_state_space sp)).
    { eapply (sm_closed sp neg k); [exact SM|exact I1|lia|].
      apply In_positions. eapply nth_error_In. exact Hj'. }
    rewrite (solved_value _ _ _ _ _ _ _ _ _ _ _ _ SM D SH0 HS H Hd (W1 ltac:(lia))).
    f_equal. simpl. lia.
Qed.

Lemma right_row_optimal : forall sp neg k grid ss inp ev0 ev si t s m o,
  standard_model sp neg k grid ss inp -> ev_shape ss ev0 ->
  solve_with_backward_induction ss inp ev0 = Ok ev ->
  right_row sp neg k grid ss inp ev si t s m o ->
  in_place (choices_of sp neg k grid (o_ind o)) ->
  forall c, available (choices_of sp neg k grid (o_ind o)) c ->
    decision_value sp neg k grid inp (si_beta si) t (o_ind o) s c <=
    decision_value sp neg k grid inp (si_beta si) t (o_ind o) s (o_choice o).
Proof.
  intros sp neg k grid ss inp ev0 ev si t s m o SM SH0 HS RR IP c Hc.
  pose proof (right_row_values _ _ _ _ _ _ _ _ _ _ _ _ _ SM SH0 HS RR) as Q.
  destruct RR as [R1 R2 R3 R4 R5 R6 _].
  set (cs := choices_of sp neg k grid (o_ind o)) in *.
  destruct (standard_wf_inputs _ _ _ _ _ _ SM) as [W1 [W2 _]].
  assert (NDc : NoDup (in_choices inp)) by (rewrite W1; apply seq_NoDup).
  assert (Lcs : length cs = length (in_choices inp)) by (rewrite W1, seq_length; apply W2).
  destruct (record_best _ _ _ NDc Lcs R4 IP _ R6) as [j [v [Hj [Hv Hmax]]]].
  rewrite (Q j _ Hj) in Hv. injection Hv as <-. apply Hmax.
  apply In_positions, In_nth_error in Hc. destruct Hc as [j' Hj'].
  eapply nth_error_In. exact (Q j' c Hj').
Qed.

Lemma panel_optimal : forall sp neg k grid ss inp ev0 ev si order next_key n ids base base_wage df panel,
  ev_shape ss ev0 -> solve_with_backward_induction ss inp ev0 = Ok ev ->
  simulation_setup sp neg k grid ss inp ev si order n ids base base_wage df ->
  simulate_n_step (environment_of ss inp ev) si order next_key 0 n base base_wage df = Ok panel ->
  forall id t o, In ((id, t), o) panel -> in_place (choices_of sp neg k grid (o_ind o)) ->
  forall c, available (choices_of sp neg k grid (o_ind o)) c ->
    decision_value sp neg k grid inp (si_beta si) t (o_ind o) (o_shocks o) c <=
    decision_value sp neg k grid inp (si_beta si) t (o_ind o) (o_shocks o) (o_choice o).
Proof.
  intros sp neg k grid ss inp ev0 ev si order next_key n ids base base_wage df panel SH0 HS SU HP id t o Hin IP.
  assert (SM : standard_model sp neg k grid ss inp) by (eapply su_model; exact SU).
  assert (SH : ev_shape ss ev) by (eapply su_ev; exact SU).
  destruct (panel_model sp neg k grid ss inp ev SM SH si order next_key n ids base base_wage df SU)
    as [panel' [HP' [_ [_ [_ H]]]]].
  rewrite HP in HP'. injection HP' as <-.
  destruct (H id t o Hin) as [p [s [m [_ [_ [_ RR]]]]]].
  rewrite (rr_shocks _ _ _ _ _ _ _ _ _ _ _ _ RR).
  exact (right_row_optimal _ _ _ _ _ _ _ _ _ _ _ _ _ SM SH0 HS RR IP).
Qed.

(** ** Rows of the draws *)
Lemma draw_rows_injective : forall N t k t' k',
  (k < N)%nat -> (k' < N)%nat -> (N * t + k = N * t' + k')%nat -> t = t' /\ k = k'.
Proof.
  intros N t k t' k' H1 H2 E.
  destruct (Nat.lt_trichotomy t t') as [L|[L|L]].
  - exfalso. assert (N * S t <= N * t')%nat by (apply Nat.mul_le_mono_l; lia). nia.
  - subst. lia.
  - exfalso. assert (N * S t' <= N * t)%nat by (apply Nat.mul_le_mono_l; lia). nia.
Qed.

Lemma draw_rows_exist : forall N n t k, (t < n)%nat -> (k < N)%nat -> (N * t + k < N * n)%nat.
Proof.
  intros N n t k H1 H2. assert (N * S t <= N * n)%nat by (apply Nat.mul_le_mono_l; lia). nia.
Qed.

Lemma panel_shocks :
  forall sp neg k grid ss inp ev si order next_key n ids base base_wage df panel,
  simulation_setup sp neg k grid ss inp ev si order n ids base base_wage df ->
  simulate_n_step (environment_of ss inp ev) si order next_key 0 n base base_wage df = Ok panel ->
  forall p id t o, nth_error ids p = Some id -> In ((id, t), o) panel ->
    nth_error base (length ids * t + p) = Some (o_shocks o).
Proof.
  intros sp neg k grid ss inp ev si order next_key n ids base base_wage df panel SU HP p id t o Hp Hin.
  destruct (panel_model sp neg k grid ss inp ev (su_model _ _ _ _ _ _ _ _ _ _ _ _ _ _ SU)
    (su_ev _ _ _ _ _ _ _ _ _ _ _ _ _ _ SU) si order next_key n ids base base_wage df SU)
    as [panel' [HP' [_ [_ [_ H]]]]].
  rewrite HP in HP'. injection HP' as <-.
  destruct (H id t o Hin) as [p' [s [m [H1 [H2 [_ RR]]]]]].
  assert (p = p') as <-.
  { assert (ND : NoDup ids) by (apply increasing_NoDup; eapply su_increasing; exact SU).
    rewrite NoDup_nth_error in ND. apply ND; [apply nth_error_Some; congruence|congruence]. }
  rewrite H2, (rr_shocks _ _ _ _ _ _ _ _ _ _ _ _ RR). reflexivity.
Qed.

Lemma zero_drawn_after_rounding : exists probs u i,
  (forall p, In p probs -> 0 <= p) /\ 1 - 0.000005 <= rsum probs <= 1 + 0.000005 /\ 0 <= u < 1 /\
  nth_error probs i = Some 0 /\ random_choice probs u = Ok i.
Proof.
  exists [0.999996; 0], 0.999997, 1%nat.
  assert (P : forall p, In p [0.999996; 0] -> 0 <= p) by (intros p [<-|[<-|[]]]; lra).
  assert (S : 1 - 0.000005 <= rsum [0.999996; 0] <= 1 + 0.000005) by (unfold rsum; simpl; lra).
  split; [exact P|]. split; [exact S|]. split; [lra|]. split; [reflexivity|].
  apply random_choice_spec; [discriminate|exact P|exact S|lra|].
  unfold drawn_interval, rsum. simpl. repeat split; [lia|lra|lra].
Qed.

Lemma type_column_wrong : exists (df : frame (option nat)),
  ordered_frame df /\ (forall i x, In (i, x) df -> x = None) /\
  forall sampled, exists id t id', id <> id' /\
    In ((id, t), Some (sampled (id', 0%nat))) (type_column sampled df) /\
    exists i, In (i, None) (type_column sampled df).
Proof.
  exists [((0, 1), None); ((1, 0), None); ((2, 1), None)]%nat. split; [|split].
  - unfold ordered_frame, index_lt. simpl. repeat constructor; simpl; lia.
  - intros i x [E|[E|[E|[]]]]; congruence.
  - intros sampled. exists 2%nat, 1%nat, 1%nat. split; [lia|]. split.
    + right. right. left. reflexivity.
    + exists (0%nat, 1%nat). left. reflexivity.
Qed.

Lemma initial_rows_spec : forall A (data : frame A) n,
  map fst (initial_rows data n) = map (fun k => (k, 0%nat)) (seq 0 n) /\
  (NoDup (map fst data) -> forall id x,
     In ((id, 0%nat), Some x) (initial_rows data n) <-> (id < n)%nat /\ In ((id, 0%nat), x) data).
Proof.
  intros A data n. split; [apply initial_rows_index|]. intros ND id x. apply initial_rows_kept. exact ND.
Qed.

Lemma same_elements_length : forall (l1 l2 : list nat), NoDup l1 -> NoDup l2 ->
  (forall i, In i l1 <-> In i l2) -> length l1 = length l2.
Proof.
  intros l1 l2 N1 N2 H. apply Nat.le_antisymm; apply NoDup_incl_length; auto; intros i; apply H.
Qed.

Lemma consecutive_identifiers : forall A (data : frame A) m n k agents requested,
  m = NStepData -> NoDup (map fst data) -> observed_from_start data ->
  (forall i, In i (map fst (map fst data)) <-> (i < n)%nat) ->
  harmonize m (map fst data) requested k agents = Ok (k, k, n) /\
  (forall id x, In ((id, 0%nat), x) data <-> In ((id, 0%nat), Some x) (initial_rows data n)) /\
  forall i, ~ In (i, None) (initial_rows data n).
Proof.
  intros A data m n k agents requested -> ND OS HI.
  assert (ID : forall id t x, In ((id, t), x) data -> (id < n)%nat).
  { intros id t x H. apply HI. apply in_map_iff. exists (id, t). split; [reflexivity|].
    apply in_map_iff. exists ((id, t), x). auto. }
  split; [|split].
  - destruct (harmonize_ignored NStepData (map fst data) requested k agents) as [a [E [_ H]]]; [discriminate|].
    rewrite E. destruct (H ltac:(discriminate)) as [ids [-> [N1 N2]]]. f_equal. f_equal.
    rewrite <- (seq_length n 0). apply same_elements_length; [exact N1|apply seq_NoDup|].
    intros i. rewrite N2, HI, in_seq. lia.
  - intros id x. rewrite (initial_rows_kept _ _ _ _ _ ND). split; [|tauto]. intros H. split; [|exact H]. eauto.
  - intros i H.
    assert (I : In i (map fst (initial_rows data n))) by (apply in_map_iff; exists (i, None); auto).
    pose proof I as I'.
    rewrite initial_rows_index in I. apply in_map_iff in I. destruct I as [j [<- Hj]]. apply in_seq in Hj.
    assert (Hj' : (j < n)%nat) by lia. apply HI in Hj'. apply in_map_iff in Hj'. destruct Hj' as [[j' t] [E Hj']].
    simpl in E. subst j'. apply in_map_iff in Hj'. destruct Hj' as [[[j' t'] x] [E Hx]]. injection E as -> ->.
    destruct (OS _ _ _ Hx) as [y Hy].
    assert (K : In ((j, 0%nat), Some y) (initial_rows data n)) by (apply initial_rows_kept; [exact ND|split; [lia|exact Hy]]).
    assert (NDI : NoDup (map fst (initial_rows data n))).
    { rewrite initial_rows_index. apply FinFun.Injective_map_NoDup; [intros a b E; congruence|apply seq_NoDup]. }
    pose proof (NoDup_fst_functional _ _ _ _ _ _ NDI H K). discriminate.
Qed.

Lemma other_identifiers : forall A (data : frame A) n agents requested k id x,
  NoDup (map fst data) ->
  harmonize NStepData (map fst data) requested k agents = Ok (k, k, n) ->
  In ((id, 0%nat), x) data -> (n <= id)%nat ->
  (forall y, ~ In ((id, 0%nat), y) (initial_rows data n)) /\
  exists j, (j < n)%nat /\ forall t y, ~ In ((j, t), y) data /\ In ((j, 0%nat), None) (initial_rows data n).
Proof.
  intros A data n agents requested k id x ND HH Hx Hn. split.
  - intros y H. assert (I : In (id, 0%nat) (map fst (initial_rows data n))) by (apply in_map_iff; exists ((id, 0%nat), y); auto).
    rewrite initial_rows_index in I. apply in_map_iff in I. destruct I as [j [E Hj]]. apply in_seq in Hj.
    injection E as ->. lia.
  - destruct (harmonize_ignored NStepData (map fst data) requested k agents) as [a [E [_ H]]]; [discriminate|].
    rewrite HH in E. injection E as <-. destruct (H ltac:(discriminate)) as [ids [E [N1 N2]]].
    assert (J : exists j, (j < n)%nat /\ ~ In j ids).
    { destruct (Exists_dec (fun j => ~ In j ids) (seq 0 n)) as [X|X].
      - intros j. destruct (in_dec Nat.eq_dec j ids); [right; tauto|left; assumption].
      - apply Exists_exists in X. destruct X as [j [X1 X2]]. apply in_seq in X1. exists j. split; [lia|exact X2].
      - exfalso. assert (L : (length (id :: seq 0 n) <= length ids)%nat).
        { apply NoDup_incl_length.
          - constructor; [|apply seq_NoDup]. intros I. apply in_seq in I. lia.
          - intros i [<-|I].
            + apply N2. apply in_map_iff. exists (id, 0%nat). split; [reflexivity|]. apply in_map_iff. exists ((id, 0%nat), x). auto.
            + destruct (in_dec Nat.eq_dec i ids) as [Y|Y]; [exact Y|]. exfalso. apply X. apply Exists_exists. eauto. }
        simpl in L. rewrite seq_length in L. lia. }
    destruct J as [j [J1 J2]]. exists j. split; [exact J1|]. intros t y.
    assert (NI : forall t y, ~ In ((j, t), y) data).
    { intros t' y' H'. apply J2. apply N2. apply in_map_iff. exists (j, t'). split; [reflexivity|].
      apply in_map_iff. exists ((j, t'), y'). auto. }
    split; [apply NI|]. apply initial_rows_missing; [exact J1|]. intros z. apply NI.
Qed.

Lemma requested_raises :
  forall env si order next_key requested n agents base base_wage (df : frame individual),
  (forall id t x, In ((id, t), x) df -> (S t < n)%nat) -> (0 < n)%nat ->
  exists k, harmonize OneStep (map fst df) (Some requested) n agents = Ok (n, n, k) /\
  forall panel, one_step env si order next_key n base base_wage df <> Ok panel.
Proof.
  intros env si order next_key requested n agents base base_wage df HT Hn. eexists. split.
  - unfold harmonize. cbn [result_bind]. rewrite Nat.ltb_irrefl. reflexivity.
  - intros panel. apply one_step_gap with (t := (n - 1)%nat); [lia|]. intros id x H. apply HT in H. lia.
Qed.
