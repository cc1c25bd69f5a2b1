(** Proofs: data for the comparison plot of the likelihood. *)
From Coq Require Import List Arith Bool String Reals Lra Lia Sorting.Permutation Sorting.Sorted.
From Verif Require Import Base Proof_Base Model_CoreStateSpace Model_StateSpace Proof_StateSpace Model_Parallel Model_Solve Spec_Solve
  Model_ConditionalDraws Model_Likelihood Spec_Likelihood Proof_Likelihood Proof_LikelihoodRows Proof_LikelihoodPanel
  Proof_LikelihoodDraws Model_ComparisonPlot Spec_ComparisonPlot.
Import ListNotations.
Open Scope list_scope.
Open Scope nat_scope.

Lemma data_value : forall rc qr lk locate env n_types params x order order_t choices w data vc pd,
  log_like_data rc qr lk locate env n_types params x order order_t choices w data = Ok (vc, pd) ->
  log_like rc qr lk locate env n_types params x order order_t data = Ok vc.
Proof.
  intros rc qr lk locate env n_types params x order order_t choices w data vc pd H. unfold log_like_data in H. unfold log_like.
  destruct (duplicate_for_types locate n_types data) as [rows| | | | |]; try discriminate. cbn [result_bind] in *.
  destruct (compute_contributions rc qr lk env rows) as [c| | | | |]; try discriminate. cbn [result_bind] in *.
  destruct (contributions n_types params x _ _) as [cs| | | | |]; try discriminate. cbn [result_bind] in *.
  destruct (if Nat.leb 2 n_types then _ else _) as [tb| | | | |]; try discriminate. cbn [result_bind] in *. congruence.
Qed.

Lemma type_table_Ok : forall params x rows ids cs, result_all (map (type_contribution params x rows) ids) = Ok cs ->
  exists tb, type_table params x ids = Ok tb.
Proof.
  intros params x rows ids. unfold type_table. induction ids as [|id ids IH]; intros cs H; [eexists; reflexivity|].
  cbn [map result_all] in *. unfold type_contribution at 1 in H.
  destruct (log_type_probabilities (type_x_betas params (x id))) as [lps| | | | |]; try discriminate. cbn [result_bind] in *.
  destruct (logsumexp _) as [z| | | | |] in H; try discriminate. cbn [result_bind] in *.
  destruct (result_all (map (type_contribution params x rows) ids)) as [cs'| | | | |]; try discriminate.
  destruct (IH cs' eq_refl) as [tb ->]. cbn [result_bind]. eauto.
Qed.

Lemma data_succeeds : forall rc qr lk locate env n_types params x order order_t choices w data vc,
  log_like rc qr lk locate env n_types params x order order_t data = Ok vc ->
  exists pd, log_like_data rc qr lk locate env n_types params x order order_t choices w data = Ok (vc, pd).
Proof.
  intros rc qr lk locate env n_types params x order order_t choices w data vc H. unfold log_like in H. unfold log_like_data.
  destruct (duplicate_for_types locate n_types data) as [rows| | | | |]; try discriminate. cbn [result_bind] in *.
  destruct (compute_contributions rc qr lk env rows) as [c| | | | |]; try discriminate. cbn [result_bind] in *.
  unfold contributions in *. destruct (Nat.leb 2 n_types).
  - destruct (result_all _) as [cs| | | | |] eqn:E; try discriminate. cbn [result_bind] in *.
    destruct (type_table_Ok _ _ _ _ _ E) as [tb ->]. cbn [result_bind]. injection H as <-. eauto.
  - cbn [result_bind] in *. injection H as <-. eauto.
Qed.

(** ** Sums *)
Lemma wage_zero : forall rc qr lk cs wages nonpec cont base code ll,
  row_loglikes rc qr lk cs wages nonpec cont base code None = Ok ll -> snd ll = 0%R.
Proof.
  intros rc qr lk cs wages nonpec cont base code ll H. unfold row_loglikes in H.
  destruct (map_choice_code code cs) as [i| | | | |]; try discriminate. cbn [result_bind log_wage option_map] in H.
  unfold create_draws_and_log_prob_wages in H.
  destruct (nth_error wages i); try discriminate. cbn [update_mean_and_evaluate_likelihood result_bind] in H.
  match type of H with result_bind (result_bind ?u _) _ = _ => destruct u as [U| | | | |]; try discriminate end.
  cbn [result_bind fst snd] in H.
  destruct (simulate_log_probability _ _ _ _ _ _ _) as [lc| | | | |]; try discriminate. cbn [result_bind] in H.
  injection H as <-. cbn [snd]. apply clip_id. pose proof max_float_pos. lra.
Qed.

Lemma rsum_app : forall l1 l2, rsum (l1 ++ l2) = (rsum l1 + rsum l2)%R.
Proof. induction l1 as [|a l1 IH]; intros l2; unfold rsum in *; cbn [app fold_right]; [lra|rewrite IH; lra]. Qed.

Lemma as_uint_small : forall bits n, n < 2 ^ bits -> as_uint bits n = n.
Proof. intros bits n H. unfold as_uint. apply Nat.mod_small. exact H. Qed.

#[local] Opaque as_uint.

Lemma total_plot : forall choices w df id,
  (forall r, In r df -> fst (lr_index (fst r)) < 2 ^ 16 /\ (ob_wage (lr_obs (fst r)) = None -> snd (snd r) = 0%R)) ->
  total_of id (plot_rows choices w df) = per_individual df id.
Proof.
  intros choices w df id H. unfold total_of, plot_rows. rewrite filter_app, map_app, rsum_app.
  unfold per_individual. change (fold_right Rplus 0%R) with rsum.
  induction df as [|r df IH]; [unfold rsum; cbn; lra|].
  cbn [map flat_map filter]. rewrite filter_app, map_app, rsum_app.
  destruct (H r (or_introl eq_refl)) as [Hs Hz].
  specialize (IH (fun r' I => H r' (or_intror I))).
  assert (E : forall (r0 : lrow * (R * R)) k v, pr_identifier (mkPlotRow (as_uint 16 (fst (lr_index (fst r0)))) (as_uint 8 (snd (lr_index (fst r0))))
                 (choice_label choices (ob_code (lr_obs (fst r0)))) v k) = as_uint 16 (fst (lr_index (fst r0)))) by reflexivity.
  assert (W : rsum (map pr_value (filter (fun r0 => Nat.eqb (pr_identifier r0) id)
     match wage_value choices w r with
     | Some v => [mkPlotRow (as_uint 16 (fst (lr_index (fst r)))) (as_uint 8 (snd (lr_index (fst r))))
                 (choice_label choices (ob_code (lr_obs (fst r)))) v wage_kind]
     | None => [] end)) = if Nat.eqb (fst (lr_index (fst r))) id then snd (snd r) else 0%R).
  { unfold wage_value. destruct (ob_wage (lr_obs (fst r))) as [wg|].
    - cbn [filter]. rewrite E, (as_uint_small 16 _ Hs). destruct (Nat.eqb _ id); unfold rsum; cbn; lra.
    - rewrite (Hz eq_refl). destruct (label_in w _); [|cbn [filter]; rewrite E, (as_uint_small 16 _ Hs)];
        destruct (Nat.eqb _ id); unfold rsum; cbn; lra. }
  rewrite W, E, (as_uint_small 16 _ Hs). destruct (Nat.eqb (fst (lr_index (fst r))) id); unfold rsum in *; cbn [map fold_right pr_value] in *; lra.
Qed.

Lemma values_add_up : forall rc qr lk locate env params x order order_t choices w data v cs rows types,
  (forall l, Permutation (order l) l) -> (forall id p ob, In ((id, p), ob) data -> id < 2 ^ 16) ->
  log_like_data rc qr lk locate env 1 params x order order_t choices w data = Ok ((v, cs), (rows, types)) ->
  exists ids, StronglySorted lt ids /\ (forall id, In id ids <-> exists p ob, In ((id, p), ob) data) /\
    cs = map (fun id => clip (- 10 ^ 200) (10 ^ 200) (total_of id rows)) ids.
Proof.
  intros rc qr lk locate env params x order order_t choices w data v cs rows types PO SM H. unfold log_like_data in H.
  destruct (duplicate_for_types locate 1 data) as [l| | | | |] eqn:D; try discriminate. cbn [result_bind] in *.
  destruct (compute_contributions rc qr lk env l) as [c| | | | |] eqn:C; try discriminate. cbn [result_bind Nat.leb] in *.
  unfold contributions in H. cbn [Nat.leb result_bind] in H. injection H as _ <- <- _.
  eexists. split; [|split].
  3: { apply map_ext. intros id. unfold max_float. f_equal. symmetry. apply total_plot. intros r Hr.
    eapply Permutation_in in Hr; [|apply PO]. apply (computed_In rc qr lk _ _ _ r C) in Hr. destruct Hr as [n [Hn E]].
    apply contributions_row_Ok in E. destruct E as [E1 E2].
    split.
    - rewrite E1. assert (I : In (snd n) l) by (eapply Permutation_in; [apply number_rows_perm|]; apply in_map; exact Hn).
      destruct (duplicate_rows locate 1 data l (le_n 1) D) as [E3 _].
      apply (in_map (fun r => (lr_index r, lr_type r, lr_obs r))) in I. rewrite E3 in I. apply In_types in I. destruct I as [_ I].
      cbn [fst snd] in I. destruct (lr_index (snd n)) as [a b]. exact (SM _ _ _ I).
    - intros Nn. rewrite E1 in Nn. rewrite Nn in E2. exact (wage_zero _ _ _ _ _ _ _ _ _ _ E2). }
  - set (u := drop_duplicates Nat.eq_dec _).
    assert (N : NoDup (isort Nat.leb u)) by (apply NoDup_isort, NoDup_drop_duplicates).
    pose proof (sorted_nat u) as S. clearbody u. induction (isort Nat.leb u) as [|a m IH]; [constructor|].
    inversion N as [|? ? Na N']; inversion S as [|? ? S' F]; subst. constructor; [apply IH; assumption|].
    rewrite Forall_forall in *. intros b Hb. specialize (F b Hb). apply Nat.leb_le in F.
    assert (a <> b) by (intros ->; contradiction). lia.
  - intros id. rewrite In_isort, In_drop_duplicates.
    rewrite (ids_of rc qr lk locate 1 (le_n 1) env data l c order id PO D C). split; intros [a [b I]]; eauto.
Qed.

(** ** Numbers of rows *)
Lemma filter_perm_length : forall A (f : A -> bool) l l', Permutation l l' -> List.length (filter f l) = List.length (filter f l').
Proof. intros A f l l' P. apply Permutation_length. apply filter_perm. exact P. Qed.

Lemma label_position : forall choices n code, NoDup choices -> code < List.length choices ->
  label_in (firstn n choices) (choice_label choices code) = Nat.ltb code n.
Proof.
  intros choices n code N H. unfold choice_label. destruct (nth_error choices code) as [s|] eqn:E.
  - cbn [label_in]. destruct (Nat.ltb_spec code n) as [L|L].
    + apply existsb_exists. exists s. split; [|apply String.eqb_refl].
      assert (X : nth_error (firstn n choices) code = Some s).
      { rewrite <- E. clear - L. revert n code L. induction choices as [|c cs IH]; intros [|n] [|code] L; try reflexivity; try lia.
        cbn. apply IH. lia. }
      eapply nth_error_In. exact X.
    + destruct (existsb (String.eqb s) (firstn n choices)) eqn:X; [|reflexivity]. exfalso.
      apply existsb_exists in X. destruct X as [s' [I Es]]. apply String.eqb_eq in Es. subst s'.
      apply In_nth_error in I. destruct I as [j Hj].
      assert (Lj : j < n).
      { assert (j < List.length (firstn n choices)) by (apply nth_error_Some; rewrite Hj; discriminate). rewrite firstn_length in *. lia. }
      assert (Hj' : nth_error choices j = Some s).
      { rewrite <- Hj. clear - Lj. revert n j Lj. induction choices as [|c cs IH]; intros [|n] [|j] L; try reflexivity; try lia.
        cbn. apply IH. lia. }
      assert (j = code); [|lia]. apply (proj1 (NoDup_nth_error choices) N); [apply nth_error_Some; rewrite Hj'; discriminate|].
      rewrite Hj', E. reflexivity.
  - apply nth_error_None in E. lia.
Qed.

Lemma choice_rows_length : forall choices w df,
  List.length (filter is_choice_row (plot_rows choices w df)) = List.length df /\
  List.length (filter is_wage_row (plot_rows choices w df)) =
    List.length (filter (fun r => match wage_value choices w r with Some _ => true | None => false end) df).
Proof.
  intros choices w df. unfold plot_rows. rewrite !filter_app, !app_length.
  induction df as [|r df [IH1 IH2]]; [split; reflexivity|].
  cbn [map flat_map filter]. rewrite !filter_app, !app_length.
  change (is_choice_row (mkPlotRow _ _ _ _ choice_kind)) with true. change (is_wage_row (mkPlotRow _ _ _ _ choice_kind)) with false.
  destruct (wage_value choices w r); cbn [filter app];
    try change (is_choice_row (mkPlotRow _ _ _ _ wage_kind)) with false; try change (is_wage_row (mkPlotRow _ _ _ _ wage_kind)) with true;
    split; cbn [List.length] in *; lia.
Qed.

Lemma row_counts : forall rc qr lk locate env n_types params x order order_t choices n_wages data v cs rows types,
  1 <= n_types -> (forall l, Permutation (order l) l) -> NoDup choices ->
  (forall i ob, In (i, ob) data -> ob_code ob < List.length choices) ->
  log_like_data rc qr lk locate env n_types params x order order_t choices (firstn n_wages choices) data = Ok ((v, cs), (rows, types)) ->
  List.length (filter is_choice_row rows) = n_types * List.length data /\
  List.length (filter is_wage_row rows) = n_types * List.length (filter (fun d => wage_or_none n_wages (snd d)) data).
Proof.
  intros rc qr lk locate env n_types params x order order_t choices n_wages data v cs rows types NT PO N HC H.
  unfold log_like_data in H.
  destruct (duplicate_for_types locate n_types data) as [l| | | | |] eqn:D; try discriminate. cbn [result_bind] in *.
  destruct (compute_contributions rc qr lk env l) as [c| | | | |] eqn:C; try discriminate. cbn [result_bind] in *.
  destruct (contributions n_types params x _ _) as [cs'| | | | |]; try discriminate. cbn [result_bind] in *.
  destruct (if Nat.leb 2 n_types then _ else _) as [tb| | | | |]; try discriminate. cbn [result_bind] in *. injection H as _ _ <- _.
  destruct (choice_rows_length choices (firstn n_wages choices) (order c)) as [-> ->].
  destruct (computed_rows _ _ _ _ _ _ C) as [E _]. destruct (duplicate_rows locate n_types data l NT D) as [E2 _].
  assert (P : Permutation (map (fun r : lrow * (R * R) => lr_obs (fst r)) (order c))
                          (flat_map (fun _ => map snd data) (seq 0 n_types))).
  { rewrite (Permutation_map _ (PO c)). rewrite <- (map_map fst lr_obs), E.
    rewrite (Permutation_map lr_obs (number_rows_perm l)).
    assert (E3 : map lr_obs l = map snd (flat_map (fun t => map (fun d : index * obs => (fst d, t, snd d)) data) (seq 0 n_types)))
      by (rewrite <- E2, map_map; reflexivity).
    rewrite E3.
    rewrite flat_map_concat_map, concat_map, map_map, <- flat_map_concat_map.
    assert (X : forall ts : list nat, flat_map (fun t => map snd (map (fun d : index * obs => (fst d, t, snd d)) data)) ts = flat_map (fun _ => map snd data) ts).
    { intros ts. apply flat_map_ext. intros t. rewrite map_map. reflexivity. }
    rewrite X. reflexivity. }
  assert (G : forall (f : obs -> bool) k, List.length (filter f (flat_map (fun _ => map snd data) (seq 0 k))) = k * List.length (filter (fun d => f (snd d)) data)).
  { intros f k. rewrite <- (seq_length k 0) at 2. generalize (seq 0 k). induction l0 as [|t ts IH]; [reflexivity|].
    cbn [flat_map List.length]. rewrite filter_app, app_length, IH. cbn [Nat.mul]. f_equal.
    clear. induction data as [|d ds IH]; [reflexivity|]. cbn [map filter]. destruct (f (snd d)); cbn [List.length]; rewrite IH; reflexivity. }
  assert (T : forall A (l : list A), filter (fun _ => true) l = l) by (intros A m; induction m as [|a m IH]; [reflexivity|cbn; rewrite IH; reflexivity]).
  split.
  - pose proof (filter_perm_length _ (fun _ => true) _ _ P) as X. rewrite G, !T, map_length in X. exact X.
  - rewrite <- G, <- (filter_perm_length _ _ _ _ P).
    assert (X : forall m : list (lrow * (R * R)), (forall r, In r m -> ob_code (lr_obs (fst r)) < List.length choices) ->
       List.length (filter (fun r => match wage_value choices (firstn n_wages choices) r with Some _ => true | None => false end) m) =
       List.length (filter (wage_or_none n_wages) (map (fun r : lrow * (R * R) => lr_obs (fst r)) m))).
    { induction m as [|r m IH]; intros B; [reflexivity|]. cbn [filter map]. unfold wage_value at 1, wage_or_none at 1.
      specialize (IH (fun r' I => B r' (or_intror I))). specialize (B r (or_introl eq_refl)).
      destruct (ob_wage (lr_obs (fst r))); [cbn [List.length]; rewrite IH; reflexivity|].
      rewrite (label_position _ n_wages _ N B). destruct (Nat.ltb _ n_wages); cbn [negb List.length]; rewrite IH; reflexivity. }
    apply X. intros r Hr. apply (in_map (fun r : lrow * (R * R) => lr_obs (fst r))) in Hr. eapply Permutation_in in Hr; [|exact P].
    apply in_flat_map in Hr. destruct Hr as [_ [_ Hr]]. apply in_map_iff in Hr. destruct Hr as [[i o] [Eo Hd]].
    cbn [snd] in Eo. rewrite <- Eo. exact (HC _ _ Hd).
Qed.

(** ** Type probabilities *)
Lemma count_filter_app : forall A (f : A -> bool) l1 l2, List.length (filter f (l1 ++ l2)) = List.length (filter f l1) + List.length (filter f l2).
Proof. intros A f l1 l2. rewrite filter_app, app_length. reflexivity. Qed.

Lemma times_melt : forall id t table n, t < n ->
  times id t (type_plot_rows n table) = List.length (filter (fun r => Nat.eqb (fst r) id) table).
Proof.
  intros id t table n H. unfold times, type_plot_rows.
  assert (B : forall u, List.length (filter (fun r => Nat.eqb (tr_identifier r) id && Nat.eqb (tr_type r) t)
     (map (fun r : nat * list R => mkTypeRow (fst r) 0 u (nth u (snd r) 0%R)) table)) =
     if Nat.eqb u t then List.length (filter (fun r => Nat.eqb (fst r) id) table) else 0).
  { intros u. induction table as [|r tb IH]; [destruct (Nat.eqb u t); reflexivity|].
    cbn [map filter tr_identifier tr_type]. destruct (Nat.eqb (fst r) id), (Nat.eqb u t); cbn [andb List.length]; rewrite ?IH; reflexivity. }
  assert (G : forall ts, NoDup ts -> List.length (filter (fun r => Nat.eqb (tr_identifier r) id && Nat.eqb (tr_type r) t)
     (flat_map (fun u => map (fun r : nat * list R => mkTypeRow (fst r) 0 u (nth u (snd r) 0%R)) table) ts)) =
     if in_dec Nat.eq_dec t ts then List.length (filter (fun r => Nat.eqb (fst r) id) table) else 0).
  { induction ts as [|u ts IH]; intros N; [reflexivity|]. inversion N as [|? ? Nu N']; subst. cbn [flat_map].
    rewrite count_filter_app, B, (IH N'). destruct (Nat.eqb_spec u t) as [->|Ne].
    - destruct (in_dec Nat.eq_dec t ts); [contradiction|]. destruct (in_dec Nat.eq_dec t (t :: ts)) as [_|X]; [lia|].
      exfalso. apply X. left. reflexivity.
    - destruct (in_dec Nat.eq_dec t ts) as [I|I], (in_dec Nat.eq_dec t (u :: ts)) as [J|J]; try lia.
      + exfalso. apply J. right. exact I.
      + exfalso. destruct J as [J|J]; [congruence|contradiction]. }
  rewrite G by apply seq_NoDup. destruct (in_dec Nat.eq_dec t (seq 0 n)) as [_|X]; [reflexivity|].
  exfalso. apply X. apply in_seq. lia.
Qed.

Lemma table_rows : forall params x ids tb, type_table params x ids = Ok tb ->
  map fst tb = ids /\ forall r, In r tb -> log_type_probabilities (type_x_betas params (x (fst r))) = Ok (snd r).
Proof.
  intros params x. unfold type_table. induction ids as [|id ids IH]; intros tb H; [injection H as <-; split; [reflexivity|intros r []]|].
  cbn [map result_all] in H.
  destruct (log_type_probabilities (type_x_betas params (x id))) as [lps| | | | |] eqn:E; try discriminate. cbn [result_bind] in H.
  destruct (result_all _) as [tb'| | | | |]; try discriminate. cbn [result_bind] in H. injection H as <-.
  destruct (IH tb' eq_refl) as [E1 E2]. split; [cbn [map fst]; rewrite E1; reflexivity|].
  intros r [<-|I]; [exact E|exact (E2 r I)].
Qed.

Lemma type_rows_spec : forall rc qr lk locate env n_types params x order order_t choices w data v cs rows types,
  2 <= n_types -> List.length params = n_types -> NoDup (map fst data) -> (forall l, Permutation (order_t l) l) ->
  (forall id p, In id (individuals data) -> In p (logits (type_indices params (x id))) -> (- 10 ^ 200 <= ln p)%R) ->
  log_like_data rc qr lk locate env n_types params x order order_t choices w data = Ok ((v, cs), (rows, types)) ->
  (forall id t, In id (individuals data) -> t < n_types -> times id t types = n_types) /\
  (forall r, In r types -> In (tr_identifier r) (individuals data) /\ tr_type r < n_types /\
     tr_value r = ln (nth (tr_type r) (logits (type_indices params (x (tr_identifier r)))) 0%R)).
Proof.
  intros rc qr lk locate env n_types params x order order_t choices w data v cs rows types Hn Lp ND PT Hpr H.
  unfold log_like_data in H.
  destruct (duplicate_for_types locate n_types data) as [l| | | | |] eqn:D; try discriminate. cbn [result_bind] in *.
  destruct (compute_contributions rc qr lk env l) as [c| | | | |] eqn:C; try discriminate. cbn [result_bind] in *.
  destruct (contributions n_types params x _ _) as [cs'| | | | |]; try discriminate. cbn [result_bind] in *.
  rewrite (proj2 (Nat.leb_le 2 n_types) Hn) in H.
  destruct (type_table params x _) as [tb| | | | |] eqn:T; try discriminate. cbn [result_bind] in *. injection H as _ _ _ <-.
  destruct (table_rows _ _ _ _ T) as [T1 T2].
  assert (PI : Permutation (map fst tb) (flat_map (fun _ => individuals data) (seq 0 n_types))) by (rewrite T1; apply PT).
  assert (NI : NoDup (individuals data)).
  { unfold individuals. rewrite <- map_map. clear - ND.
    assert (X : forall l : list (nat * nat), NoDup l -> (forall i, In i l -> snd i = 0) -> NoDup (map fst l)).
    { induction l as [|[a b] l IH]; intros N Z; [constructor|]. inversion N as [|? ? Na N']; subst. cbn [map fst]. constructor.
      - intros I. apply in_map_iff in I. destruct I as [[a' b'] [Ea I]]. cbn [fst] in Ea. subst a'. apply Na.
        pose proof (Z _ (or_introl eq_refl)) as Z1. pose proof (Z _ (or_intror I)) as Z2. cbn [snd] in *. subst. exact I.
      - apply IH; [exact N'|intros i I; apply Z; right; exact I]. }
    apply X.
    - revert ND. unfold frame, index in *. induction data as [|d ds IH]; intros N; [constructor|]. cbn [map] in N. inversion N as [|? ? Na N']; subst.
      cbn [filter]. destruct (Nat.eqb (snd (fst d)) 0); [|apply IH; exact N']. cbn [map]. constructor; [|apply IH; exact N'].
      intros I. apply Na. apply in_map_iff in I. destruct I as [d' [Ed I]]. apply filter_In in I. rewrite <- Ed. apply in_map. apply I.
    - intros i I. apply in_map_iff in I. destruct I as [d [<- I]]. apply filter_In in I. apply Nat.eqb_eq. apply I. }
  assert (CNT : forall id k, In id (individuals data) ->
     List.length (filter (fun a => Nat.eqb a id) (flat_map (fun _ => individuals data) (seq 0 k))) = k).
  { intros id k I. rewrite <- (seq_length k 0) at 2. generalize (seq 0 k). induction l0 as [|t ts IH]; [reflexivity|].
    cbn [flat_map List.length]. rewrite count_filter_app, IH.
    assert (O : List.length (filter (fun a => Nat.eqb a id) (individuals data)) = 1); [|lia].
    clear - NI I. induction (individuals data) as [|a m IH]; [contradiction|]. inversion NI as [|? ? Na N']; subst.
    cbn [filter]. destruct (Nat.eqb_spec a id) as [->|Ne].
    - cbn [List.length]. f_equal. clear - Na. induction m as [|b m IH]; [reflexivity|]. cbn [filter].
      destruct (Nat.eqb_spec b id) as [->|Ne]; [exfalso; apply Na; left; reflexivity|]. apply IH. intros X. apply Na. right. exact X.
    - apply IH; [exact N'|]. destruct I as [I|I]; [contradiction|exact I]. }
  split.
  - intros id t I Ht. rewrite times_melt by exact Ht. rewrite <- (CNT id n_types I) at 1. rewrite <- (filter_perm_length _ _ _ _ PI).
    clear. induction tb as [|r tb IH]; [reflexivity|]. cbn [map filter]. destruct (Nat.eqb (fst r) id); cbn [List.length]; rewrite IH; reflexivity.
  - intros r I. unfold type_plot_rows in I. apply in_flat_map in I. destruct I as [t [Ht I]]. apply in_seq in Ht.
    apply in_map_iff in I. destruct I as [q [<- I]]. cbn [tr_identifier tr_type tr_value].
    assert (J : In (fst q) (individuals data)).
    { apply (in_map fst) in I. eapply Permutation_in in I; [|exact PI]. apply in_flat_map in I. destruct I as [_ [_ I]]. exact I. }
    split; [exact J|]. split; [lia|]. specialize (T2 q I). rewrite type_x_betas_linear in T2.
    assert (Lz : List.length (type_indices params (x (fst q))) = n_types).
    { unfold type_indices. rewrite map_length. rewrite length_enumerate. exact Lp. }
    rewrite log_type_spec in T2.
    + injection T2 as <-. assert (Ll : t < List.length (logits (type_indices params (x (fst q))))) by (unfold logits; rewrite map_length, seq_length; lia).
      rewrite (nth_indep _ 0%R (ln 0)) by (rewrite map_length; exact Ll). apply map_nth.
    + intros X. rewrite X in Lz. cbn in Lz. lia.
    + intros p Hp. exact (Hpr _ p J Hp).
Qed.
