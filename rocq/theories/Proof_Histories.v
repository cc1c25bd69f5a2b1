(** The likelihood of all histories of choices. *)
From Coq Require Import List Arith Bool Reals Lra Lia Sorting.Permutation.
From Verif Require Import Base Proof_Base Model_CoreStateSpace Model_StateSpace Proof_StateSpace Model_Parallel Model_Solve Spec_Solve
  Model_ConditionalDraws Model_Likelihood Spec_Likelihood Proof_Likelihood Proof_LikelihoodPanel Proof_LikelihoodRows Proof_LikelihoodUnits
  Proof_TypeLabels Spec_Histories.
Import ListNotations.
Open Scope R_scope.

(** ** A row without wage *)
Lemma clip_zero : clip (- max_float) max_float 0 = 0.
Proof. apply clip_id. pose proof max_float_pos. lra. Qed.

Lemma row_none : forall rc qr lk cs wages nonpec cont base,
  length wages = count_true cs -> length nonpec = length wages -> length cont = length wages -> base <> [] -> lk_tau lk <> 0 ->
  exists draws, draws <> [] /\ draws = map (conditional_draw (length wages) (length (select_valid_choices (seq 0 (lk_nwages lk)) cs)) (fun _ => 0)
      (of_rows (subset_cholesky (lk_chol lk) cs))) base /\ forall i code, nth_error (positions cs) i = Some code ->
    exists lp, row_loglikes rc qr lk cs wages nonpec cont base code None = Ok (clip (- max_float) max_float lp, 0) /\
      exp lp = smoothed_probability wages nonpec cont (lk_beta_delta lk) draws (lk_tau lk) i /\ lp <= 0.
Proof.
  intros rc qr lk cs wages nonpec cont base Lw Ln Lc Hb Ht.
  set (nw := length (select_valid_choices (seq 0 (lk_nwages lk)) cs)).
  set (draws := map (conditional_draw (length wages) nw (fun _ => 0) (of_rows (subset_cholesky (lk_chol lk) cs))) base).
  exists draws. split; [unfold draws; destruct base; [contradiction|discriminate]|]. split; [reflexivity|].
  intros i code Hi. unfold row_loglikes. rewrite (map_choice_position cs i code Hi). cbn [result_bind]. fold nw.
  assert (Hin : (i < length wages)%nat).
  { rewrite Lw, <- length_positions. apply nth_error_Some. rewrite Hi. discriminate. }
  destruct (nth_error wages i) as [s|] eqn:Es; [|apply nth_error_None in Es; lia].
  unfold create_draws_and_log_prob_wages. rewrite Es.
  unfold update_cholcov, update_cholcov_with_measurement_error. cbn [log_wage option_map update_mean_and_evaluate_likelihood result_bind fst snd].
  rewrite Nat.ltb_irrefl, Nat.eqb_refl.
  assert (E : (if lk_has_meas lk then Ok (of_rows (subset_cholesky (lk_chol lk) cs)) else Ok (of_rows (subset_cholesky (lk_chol lk) cs)))
    = Ok (of_rows (subset_cholesky (lk_chol lk) cs))) by (destruct (lk_has_meas lk); reflexivity).
  rewrite E. cbn [result_bind fst snd].
  change (map (conditional_draw (length wages) nw _ _) base) with draws.
  destruct (simulate_spec wages nonpec cont draws (lk_beta_delta lk) i (lk_tau lk)) as [lp [Es' [E1 E2]]]; auto.
  - split; [exact Ln|]. split; [exact Lc|]. intros e He. apply in_map_iff in He. destruct He as [b [<- _]].
    unfold conditional_draw. rewrite map_length, seq_length. reflexivity.
  - unfold draws. destruct base; [contradiction|discriminate].
  - exists lp. rewrite Es'. cbn [result_bind]. rewrite clip_zero. split; [reflexivity|]. split; [exact E1|].
    destruct (Rle_dec lp 0) as [H|H]; [exact H|]. exfalso. assert (exp 0 < exp lp) by (apply exp_increasing; lra). rewrite exp_0 in *. lra.
Qed.

Lemma clip_le_zero : forall x, x <= 0 -> clip (- max_float) max_float x <= 0.
Proof.
  intros x H. assert (P : 0 < max_float) by (unfold max_float; apply pow_lt; lra).
  unfold clip, Rmin, Rmax. repeat (destruct (Rle_dec _ _)); lra.
Qed.

(** ** Sums over histories *)
Fixpoint product_along (P : list nat -> nat -> R) (past rest : list nat) : R :=
  match rest with
  | [] => 1
  | c :: r => P past c * product_along P (past ++ [c]) r
  end.

Lemma rsum_flat : forall A (f : A -> list R) l, rsum (flat_map f l) = rsum (map (fun a => rsum (f a)) l).
Proof. intros A f l. induction l as [|a l IH]; [reflexivity|]. cbn [flat_map map]. rewrite rsum_app', IH. reflexivity. Qed.

Lemma histories_app : forall options m past n, In past (histories options m []) -> forall c, In c (options past) ->
  n = S m -> In (past ++ [c]) (histories options n []).
Proof.
  intros options m past n H c Hc ->.
  assert (G : forall m p q, In q (histories options m p) -> In c (options (p ++ q)) -> In (q ++ [c]) (histories options (S m) p)).
  { clear. induction m as [|m IH]; intros p q H Hc.
    - cbn in H. destruct H as [<-|[]]. rewrite app_nil_r in Hc. cbn. apply in_flat_map. exists c. split; [exact Hc|]. left. reflexivity.
    - cbn [histories] in H. apply in_flat_map in H. destruct H as [d [Hd H]]. apply in_map_iff in H. destruct H as [q' [<- H]].
      cbn [app]. change (histories options (S (S m)) p) with (flat_map (fun d => map (cons d) (histories options (S m) (p ++ [d]))) (options p)).
      apply in_flat_map. exists d. split; [exact Hd|]. apply in_map. apply IH; [exact H|]. rewrite <- app_assoc. exact Hc. }
  apply G; assumption.
Qed.
Lemma histories_length : forall options n past q, In q (histories options n past) -> length q = n.
Proof.
  intros options. induction n as [|n IH]; intros past q H; cbn in H; [destruct H as [<-|[]]; reflexivity|].
  apply in_flat_map in H. destruct H as [c [_ H]]. apply in_map_iff in H. destruct H as [q' [<- H]]. cbn. f_equal. eapply IH. exact H.
Qed.
Lemma histories_prefix : forall options n past q i, In q (histories options n past) -> In (firstn i q) (histories options (length (firstn i q)) past).
Proof.
  intros options. induction n as [|n IH]; intros past q i H; cbn in H.
  - destruct H as [<-|[]]. rewrite firstn_nil. left. reflexivity.
  - apply in_flat_map in H. destruct H as [c [Hc H]]. apply in_map_iff in H. destruct H as [q' [<- H]]. destruct i as [|i]; [left; reflexivity|].
    cbn [firstn length histories]. apply in_flat_map. exists c. split; [exact Hc|]. apply in_map. eapply IH. exact H.
Qed.
Lemma histories_step : forall options n past q i c, In q (histories options n past) -> nth_error q i = Some c -> In c (options (past ++ firstn i q)).
Proof.
  intros options. induction n as [|n IH]; intros past q i c H E; cbn in H.
  - destruct H as [<-|[]]. destruct i; discriminate.
  - apply in_flat_map in H. destruct H as [d [Hd H]]. apply in_map_iff in H. destruct H as [q' [<- H]]. destruct i as [|i]; cbn in E.
    + injection E as <-. cbn. rewrite app_nil_r. exact Hd.
    + specialize (IH _ _ _ _ H E). rewrite <- app_assoc in IH. exact IH.
Qed.

Lemma sum_histories : forall options (P : list nat -> nat -> R) N,
  (forall past, In past (histories options (length past) []) -> (length past < N)%nat -> rsum (map (P past) (options past)) = 1) ->
  forall n past, In past (histories options (length past) []) -> (length past + n = N)%nat ->
  rsum (map (product_along P past) (histories options n past)) = 1.
Proof.
  intros options P N H. induction n as [|n IH]; intros past Hp Hn; [cbn; lra|].
  cbn [histories]. rewrite flat_map_concat_map, concat_map, map_map, <- flat_map_concat_map, rsum_flat.
  rewrite (rsum_map_ext _ _ (P past)); [apply H; [exact Hp|lia]|].
  intros c Hc. rewrite map_map. cbn [product_along].
  rewrite rsum_map_scal, IH; [lra| |].
  - eapply histories_app; eauto. rewrite app_length. cbn. lia.
  - rewrite app_length. cbn. lia.
Qed.

Lemma map_positions : forall (f : nat -> R) l, map f l = map (fun i => f (nth i l 0%nat)) (seq 0 (length l)).
Proof.
  intros f l. induction l as [|x l IH]; [reflexivity|]. cbn [length seq map nth]. f_equal. rewrite IH, <- seq_shift, map_map. reflexivity.
Qed.

(** ** The number of the draws of a row *)
Lemma filter_position : forall A (f : A -> bool) l1 x l2 j, NoDup (l1 ++ x :: l2) -> f x = true ->
  nth_error (filter f (l1 ++ x :: l2)) j = Some x -> j = length (filter f l1).
Proof.
  intros A f l1 x l2 j N Fx E. assert (N' : NoDup (filter f (l1 ++ x :: l2))) by (apply NoDup_filter; exact N).
  rewrite filter_app in *. cbn [filter] in *. rewrite Fx in *.
  eapply NoDup_nth_error; [exact N'| |].
  - apply nth_error_Some. rewrite E. discriminate.
  - rewrite E, nth_error_app2, Nat.sub_diag by lia. reflexivity.
Qed.

Lemma fst_enumerate : forall A (l : list A), map fst (enumerate l) = seq 0 (length l).
Proof. intros A l. apply map_fst_enumerate_from. Qed.

(** ** The data of one history *)
Section Path.
  Variables (rc qr : nat -> matrix -> matrix) (lk : like_spec) (env : like_env) (n_types : nat)
    (place : list nat -> nat -> nat * nat) (choice_set : list nat -> list bool) (N : nat).
  Hypothesis (Hn : (1 <= n_types)%nat) (Tau : lk_tau lk <> 0) (Tree : proper_tree lk env n_types place choice_set N).
  Let options (past : list nat) := positions (choice_set past).

  Definition number (t : nat) (past : list nat) : nat :=
    length (filter (fun q => Nat.eqb (fst (place (firstn q past) t)) (fst (place past t))) (seq 0 (length past))).
  Definition row_value (t : nat) (past : list nat) (c : nat) : result (R * R) :=
    let k := fst (place past t) in let pos := snd (place past t) in
    row_loglikes rc qr lk (le_choice_set env k) (le_wages env k pos) (le_nonpec env k pos) (le_cont env k pos)
      (le_draws env k (number t past)) c None.
  Definition value_of (t : nat) (past : list nat) (c : nat) : R * R :=
    match row_value t past c with Ok ll => ll | _ => (0, 0) end.
  Definition chance (t : nat) (past : list nat) (c : nat) : R := exp (fst (value_of t past c)).

  Lemma row_value_ok : forall t past c, In past (histories options (length past) []) -> (length past < N)%nat -> (t < n_types)%nat ->
    In c (options past) -> row_value t past c = Ok (value_of t past c) /\ snd (value_of t past c) = 0 /\ fst (value_of t past c) <= 0.
  Proof.
    intros t past c Hp Hl Ht Hc. destruct (proj1 Tree past t Hp Hl Ht) as (E1 & _ & _ & L1 & L2 & L3 & D).
    destruct (row_none rc qr lk (choice_set past) _ _ _ (le_draws env (fst (place past t)) (number t past)) L1
      (eq_trans L2 (eq_sym L1)) (eq_trans L3 (eq_sym L1)) (D _) Tau) as (draws & _ & _ & H).
    destruct (In_nth_error _ _ Hc) as [i Hi]. destruct (H i c Hi) as (lp & E & _ & Hle).
    unfold value_of, row_value in *. rewrite E1 in *. rewrite E. cbn [fst snd]. repeat split.
    apply clip_le_zero. exact Hle.
  Qed.

  Lemma chances_sum : forall t past, In past (histories options (length past) []) -> (length past < N)%nat -> (t < n_types)%nat ->
    (forall c, In c (options past) -> - 10 ^ 200 < fst (value_of t past c)) ->
    rsum (map (chance t past) (options past)) = 1.
  Proof.
    intros t past Hp Hl Ht HU. destruct (proj1 Tree past t Hp Hl Ht) as (E1 & NE & _ & L1 & L2 & L3 & D).
    destruct (row_none rc qr lk (choice_set past) _ _ _ (le_draws env (fst (place past t)) (number t past)) L1
      (eq_trans L2 (eq_sym L1)) (eq_trans L3 (eq_sym L1)) (D _) Tau) as (draws & Dr & _ & H).
    rewrite map_positions.
    assert (Lo : length (options past) = length (le_wages env (fst (place past t)) (snd (place past t)))).
    { unfold options. rewrite length_positions. auto. }
    rewrite (rsum_map_ext _ _ (smoothed_probability (le_wages env (fst (place past t)) (snd (place past t)))
       (le_nonpec env (fst (place past t)) (snd (place past t))) (le_cont env (fst (place past t)) (snd (place past t)))
       (lk_beta_delta lk) draws (lk_tau lk))).
    - rewrite Lo. apply smoothed_sum; [|exact Dr]. intros X. rewrite X in Lo. destruct (options past) eqn:Eo; [|discriminate].
      apply NE. exact Eo.
    - intros i Hi. apply in_seq in Hi. assert (Ei : nth_error (options past) i = Some (nth i (options past) 0%nat)) by (apply nth_error_nth'; lia).
      assert (Hc : In (nth i (options past) 0%nat) (options past)) by (apply nth_In; lia).
      destruct (H i _ Ei) as (lp & E & Ep & Hle). rewrite <- Ep. unfold chance. f_equal.
      specialize (HU _ Hc). destruct (row_value_ok t past _ Hp Hl Ht Hc) as (EV & _ & HV).
      unfold row_value in EV. rewrite E1 in EV. rewrite E in EV. injection EV as EV. rewrite <- EV in HU, HV |- *. cbn [fst] in *.
      apply clip_inside. pose proof max_float_pos. unfold max_float in *. lra.
  Qed.

  Section One.
    Variable path : list nat.
    Hypothesis (Hpath : In path (histories options N [])).
    Definition row_of (t : nat) (qc : nat * nat) : lrow :=
      mkLrow (0%nat, fst qc) t (mkObs (snd qc) None) (fst (place (firstn (fst qc) path) t)) (snd (place (firstn (fst qc) path) t)).
    Definition rows_of : list lrow := flat_map (fun t => map (row_of t) (enumerate path)) (seq 0 n_types).

    Lemma path_duplicated : duplicate_for_types (locate_along place path) n_types (panel path) = Ok rows_of.
    Proof.
      unfold duplicate_for_types, rows_of.
      assert (En : (if Nat.leb 2 n_types then n_types else 1%nat) = n_types) by (destruct (Nat.leb_spec 2 n_types); lia).
      rewrite En. clear En. unfold panel.
      assert (E : forall ts, flat_map (fun t => map (fun r : index * obs => result_bind (locate_along place path (fst r) (snd r) t)
          (fun kp => Ok (mkLrow (fst r) t (snd r) (fst kp) (snd kp)))) (map (fun tc => (0%nat, fst tc, mkObs (snd tc) None)) (enumerate path))) ts
        = map (fun r => Ok r) (flat_map (fun t => map (row_of t) (enumerate path)) ts)).
      { induction ts as [|t ts IH]; [reflexivity|]. cbn [flat_map]. rewrite map_app, IH, !map_map. reflexivity. }
      rewrite E. rewrite (result_all_map_value _ _ (fun r => Ok r) (fun r => r)) by reflexivity. rewrite map_id. reflexivity.
    Qed.
    Lemma In_rows : forall r, In r rows_of <-> exists t q c, (t < n_types)%nat /\ nth_error path q = Some c /\ r = row_of t (q, c).
    Proof.
      intros r. unfold rows_of. rewrite in_flat_map. split.
      - intros (t & Ht & H). apply in_seq in Ht. apply in_map_iff in H. destruct H as [[q c] [<- H]]. apply In_enumerate in H.
        exists t, q, c. repeat split; auto. lia.
      - intros (t & q & c & Ht & H & ->). exists t. split; [apply in_seq; lia|]. apply in_map. apply In_enumerate. exact H.
    Qed.
    Lemma panel_index : NoDup (map fst (panel path)).
    Proof.
      unfold panel. rewrite map_map.
      assert (E : map (fun x : nat * nat => fst ((0%nat, fst x, mkObs (snd x) None) : index * obs)) (enumerate path) = map (fun q => (0%nat, q)) (map fst (enumerate path)))
        by (rewrite map_map; reflexivity).
      unfold index in *. rewrite E, fst_enumerate.
      apply FinFun.Injective_map_NoDup; [intros a b X; injection X; auto|]. apply seq_NoDup.
    Qed.
    Lemma rows_distinct : NoDup rows_of.
    Proof.
      destruct (duplicate_rows _ _ _ _ Hn path_duplicated) as [D _].
      pose proof (NoDup_flat_types (panel path) n_types panel_index) as U. rewrite <- D in U. rewrite map_map in U.
      eapply NoDup_map_inv. exact U.
    Qed.
    Lemma seq_split : forall t, (t < n_types)%nat -> seq 0 n_types = seq 0 t ++ t :: seq (S t) (n_types - S t).
    Proof. intros t Ht. replace n_types with (t + S (n_types - S t))%nat at 1 by lia. rewrite seq_app. reflexivity. Qed.

    Lemma draw_number : forall k j r, In ((k, j), r) (number_rows rows_of) -> j = number (lr_type r) (firstn (snd (lr_index r)) path).
    Proof.
      intros k j r H. apply number_rows_In in H. pose proof (nth_error_In _ _ H) as I. apply filter_In in I. destruct I as [I Ek].
      apply In_rows in I. destruct I as (t & q & c & Ht & Ec & ->). cbn [row_of lr_type lr_index lr_key fst snd] in *.
      apply Nat.eqb_eq in Ek.
      assert (Ee : nth_error (enumerate path) q = Some (q, c)).
      { assert (I : In (q, c) (enumerate path)) by (apply In_enumerate; exact Ec). destruct (In_nth_error _ _ I) as [i Hi].
        assert (X : nth_error (map fst (enumerate path)) i = Some q) by (rewrite nth_error_map, Hi; reflexivity).
        rewrite fst_enumerate in X. assert (Li : (i < length path)%nat).
        { assert (Li : (i < length (seq 0 (length path)))%nat) by (apply nth_error_Some; rewrite X; discriminate). rewrite seq_length in Li. exact Li. }
        rewrite (nth_error_nth' _ 0%nat) in X by (rewrite seq_length; exact Li). rewrite seq_nth in X by exact Li. cbn in X. injection X as <-. exact Hi. }
      apply nth_error_split in Ee. destruct Ee as (l1 & l2 & Ee & Ll).
      assert (Er : rows_of = (flat_map (fun t => map (row_of t) (enumerate path)) (seq 0 t) ++ map (row_of t) l1) ++
                 row_of t (q, c) :: (map (row_of t) l2 ++ flat_map (fun t => map (row_of t) (enumerate path)) (seq (S t) (n_types - S t)))).
      { unfold rows_of. rewrite (seq_split t Ht). rewrite flat_map_app. cbn [flat_map].
        rewrite (f_equal (map (row_of t)) Ee), map_app. cbn [map]. rewrite <- !app_assoc. reflexivity. }
      pose proof rows_distinct as U. rewrite Er in U, H.
      apply filter_position in H; [|exact U|cbn [row_of lr_key fst]; apply Nat.eqb_eq; exact Ek].
      rewrite H, filter_app, app_length. clear H.
      assert (Z : filter (fun q0 => Nat.eqb (lr_key q0) k) (flat_map (fun t => map (row_of t) (enumerate path)) (seq 0 t)) = []).
      { destruct (filter _ _) as [|r l] eqn:EF; [reflexivity|]. exfalso.
        assert (I : In r (filter (fun q0 => Nat.eqb (lr_key q0) k) (flat_map (fun t => map (row_of t) (enumerate path)) (seq 0 t)))) by (rewrite EF; left; reflexivity).
        apply filter_In in I. destruct I as [I Er']. apply in_flat_map in I. destruct I as (t' & Ht' & I). apply in_seq in Ht'.
        apply in_map_iff in I. destruct I as (qc & <- & _). cbn [row_of lr_key] in Er'. apply Nat.eqb_eq in Er'.
        assert (t' = t) by (eapply (proj2 Tree); [lia|exact Ht|rewrite Er', <- Ek; reflexivity]). lia. }
      rewrite Z. cbn [length Nat.add]. unfold number.
      assert (Lq : length (firstn q path) = q).
      { apply firstn_length_le. apply Nat.lt_le_incl. apply nth_error_Some. rewrite Ec. discriminate. }
      rewrite Lq.
      assert (F1 : map fst l1 = seq 0 q).
      { assert (X : map fst (enumerate path) = seq 0 (length path)) by apply fst_enumerate. rewrite Ee, map_app in X. cbn [map fst] in X.
        apply (f_equal (firstn q)) in X. rewrite firstn_app, map_length, Ll, Nat.sub_diag, firstn_O, app_nil_r in X.
        rewrite firstn_all2 in X by (rewrite map_length; lia). rewrite X.
        assert (Lp : (q < length path)%nat) by (apply nth_error_Some; rewrite Ec; discriminate).
        replace (length path) with (q + (length path - q))%nat by lia. rewrite seq_app, firstn_app, seq_length, Nat.sub_diag, firstn_O, app_nil_r.
        apply firstn_all2. rewrite seq_length. lia. }
      rewrite <- F1, Ek.
      assert (G : forall l, (forall x, In x l -> (fst x <= q)%nat) ->
        length (filter (fun q0 => Nat.eqb (lr_key q0) k) (map (row_of t) l)) =
        length (filter (fun q0 => Nat.eqb (fst (place (firstn q0 (firstn q path)) t)) k) (map fst l))).
      { induction l as [|[a b] l IH]; intros HL; [reflexivity|]. cbn [map filter row_of lr_key fst].
        assert (Fa : firstn a (firstn q path) = firstn a path).
        { rewrite firstn_firstn. f_equal. specialize (HL (a, b) (or_introl eq_refl)). cbn in HL. lia. }
        rewrite Fa. destruct (Nat.eqb _ _); cbn [length]; [f_equal|]; apply IH; intros x Hx; apply HL; right; exact Hx. }
      apply G. intros x Hx. apply (in_map fst) in Hx. rewrite F1 in Hx. apply in_seq in Hx. lia.
    Qed.

    Definition row_values (r : lrow) : R * R :=
      value_of (lr_type r) (firstn (snd (lr_index r)) path) (ob_code (lr_obs r)).
    Lemma path_prefix : forall q c, nth_error path q = Some c ->
      In (firstn q path) (histories options (length (firstn q path)) []) /\ (length (firstn q path) < N)%nat /\ In c (options (firstn q path)).
    Proof.
      intros q c E. assert (L : (q < length path)%nat) by (apply nth_error_Some; rewrite E; discriminate).
      split; [eapply histories_prefix; exact Hpath|]. split.
      - rewrite firstn_length_le by lia. rewrite (histories_length _ _ _ _ Hpath) in L. exact L.
      - apply (histories_step options N [] path q c Hpath E).
    Qed.
    Lemma path_computed : compute_contributions rc qr lk env rows_of = Ok (map (fun n => (snd n, row_values (snd n))) (number_rows rows_of)).
    Proof.
      unfold compute_contributions. apply result_all_map_value. intros [[k j] r] H.
      pose proof (draw_number _ _ _ H) as Ej.
      assert (I : In r rows_of). { eapply Permutation_in; [apply number_rows_perm|]. apply (in_map snd) in H. exact H. }
      apply In_rows in I. destruct I as (t & q & c & Ht & Ec & ->). cbn [fst snd] in *. unfold contributions_of_row.
      cbn [row_of lr_type lr_index lr_key lr_pos lr_obs ob_code ob_wage fst snd] in *. subst j.
      destruct (path_prefix q c Ec) as (P1 & P2 & P3).
      destruct (row_value_ok t _ c P1 P2 Ht P3) as (EV & _). unfold row_value in EV. rewrite EV. cbn [result_bind]. reflexivity.
    Qed.
    Lemma path_values : Permutation (map (fun n => (snd n, row_values (snd n))) (number_rows rows_of)) (map (fun r => (r, row_values r)) rows_of).
    Proof.
      replace (map (fun n : nat * nat * lrow => (snd n, row_values (snd n))) (number_rows rows_of))
        with (map (fun r => (r, row_values r)) (map snd (number_rows rows_of))) by (rewrite map_map; reflexivity).
      apply Permutation_map. apply number_rows_perm.
    Qed.
    Lemma product_rows : forall t past rest, path = past ++ rest ->
      (forall q c, nth_error path q = Some c -> snd (value_of t (firstn q path) c) = 0) ->
      rprod (map (fun r => exp (fst (snd r)) * exp (snd (snd r))) (map (fun r => (r, row_values r)) (map (row_of t) (enumerate_from (length past) rest))))
      = product_along (chance t) past rest.
    Proof.
      intros t past rest. revert past. induction rest as [|c rest IH]; intros past E Z; [reflexivity|].
      cbn [enumerate_from map rprod fold_right product_along].
      specialize (IH (past ++ [c])). rewrite app_length, Nat.add_1_r, <- app_assoc in IH. specialize (IH E Z).
      change (fold_right Rmult 1) with rprod. rewrite IH. f_equal.
      cbn [snd]. unfold row_values. cbn [row_of lr_type lr_index lr_obs ob_code fst snd].
      assert (Ef : firstn (length past) path = past) by (rewrite E, firstn_app, Nat.sub_diag, firstn_O, app_nil_r; apply firstn_all).
      assert (Ec : nth_error path (length past) = Some c) by (rewrite E, nth_error_app2, Nat.sub_diag by lia; reflexivity).
      pose proof (Z _ _ Ec) as Z'. rewrite Ef in *. rewrite Z', exp_0, Rmult_1_r. reflexivity.
    Qed.
    Lemma path_likelihood : forall computed t, Permutation computed (map (fun n => (snd n, row_values (snd n))) (number_rows rows_of)) -> (t < n_types)%nat ->
      likelihood_of computed 0 t = product_along (chance t) [] path.
    Proof.
      intros computed t P Ht. rewrite (likelihood_of_perm _ _ 0 t (Permutation_trans P path_values)).
      assert (Z : forall ts, ~ In t ts -> filter (fun r : lrow * (R * R) => Nat.eqb (fst (lr_index (fst r))) 0 && Nat.eqb (lr_type (fst r)) t)
         (map (fun r => (r, row_values r)) (flat_map (fun t => map (row_of t) (enumerate path)) ts)) = []).
      { induction ts as [|t' ts IH]; intros HN; [reflexivity|]. cbn [flat_map]. rewrite map_app, filter_app, IH by (intros X; apply HN; right; exact X).
        rewrite app_nil_r. generalize (enumerate path). intros l. induction l as [|qc l IHl]; [reflexivity|]. cbn [map filter row_of lr_type lr_index fst snd].
        destruct (Nat.eqb_spec t' t) as [->|_]; [exfalso; apply HN; left; reflexivity|]. cbn [andb]. rewrite andb_false_r. exact IHl. }
      assert (A : forall l, filter (fun r : lrow * (R * R) => Nat.eqb (fst (lr_index (fst r))) 0 && Nat.eqb (lr_type (fst r)) t)
         (map (fun r => (r, row_values r)) (map (row_of t) l)) = map (fun r => (r, row_values r)) (map (row_of t) l)).
      { induction l as [|qc l IHl]; [reflexivity|]. cbn [map filter row_of lr_type lr_index fst snd]. rewrite !Nat.eqb_refl. cbn [andb]. f_equal. exact IHl. }
      assert (F : filter (fun r : lrow * (R * R) => Nat.eqb (fst (lr_index (fst r))) 0 && Nat.eqb (lr_type (fst r)) t)
         (map (fun r => (r, row_values r)) rows_of) = map (fun r => (r, row_values r)) (map (row_of t) (enumerate path))).
      { unfold rows_of. rewrite (seq_split t Ht), flat_map_app. cbn [flat_map]. rewrite !map_app, !filter_app, A, !Z by (rewrite in_seq; lia).
        rewrite app_nil_r. reflexivity. }
      unfold likelihood_of. rewrite F. apply (product_rows t [] path); [reflexivity|]. intros q c E. destruct (path_prefix q c E) as (P1 & P2 & P3).
      apply (row_value_ok t _ c P1 P2 Ht P3).
    Qed.

    Variables (params : list (list (nat * R))) (x : nat -> nat -> nat -> R)
      (order_rows : list (lrow * (R * R)) -> list (lrow * (R * R))) (order_types : list nat -> list nat).
    Hypothesis (HN : (1 <= N)%nat) (Lp : length params = n_types)
      (Por : forall l, Permutation (order_rows l) l) (Pot : forall l, Permutation (order_types l) l)
      (Hpr : forall p, In p (logits (type_indices params (x 0%nat))) -> - 10 ^ 200 <= ln p).

    Lemma path_first : filter (fun r : index * obs => Nat.eqb (snd (fst r)) 0) (panel path) = [((0%nat, 0%nat), mkObs (nth 0 path 0%nat) None)].
    Proof.
      assert (L := histories_length _ _ _ _ Hpath). unfold panel, enumerate. destruct path as [|c rest]; [cbn in L; lia|].
      cbn [enumerate_from map filter fst snd Nat.eqb nth]. f_equal.
      assert (G : forall m l, filter (fun r : index * obs => Nat.eqb (snd (fst r)) 0)
        (map (fun tc : nat * nat => (0%nat, fst tc, mkObs (snd tc) None)) (enumerate_from (S m) l)) = []).
      { intros m l. revert m. induction l as [|d l IH]; intros m; [reflexivity|]. cbn. apply IH. }
      apply G.
    Qed.
    Lemma logits_single : forall z, logits [z] = [1].
    Proof. intros z. unfold logits. cbn. unfold logit. cbn. f_equal. rewrite Rplus_0_r. apply Rinv_r. pose proof (exp_pos z). lra. Qed.

    Lemma log_like_path : exists cs,
      log_like rc qr lk (locate_along place path) env n_types params x order_rows order_types (panel path) =
      Ok (clip (- 10 ^ 200) (10 ^ 200) (ln (mixture (logits (type_indices params (x 0%nat))) (fun t => product_along (chance t) [] path))), cs).
    Proof.
      set (v := clip _ _ _). unfold log_like. rewrite path_duplicated. cbn [result_bind]. rewrite path_computed. cbn [result_bind].
      set (computed := map (fun n => (snd n, row_values (snd n))) (number_rows rows_of)).
      assert (Lk : forall t, (t < n_types)%nat -> likelihood_of (order_rows computed) 0 t = product_along (chance t) [] path).
      { intros t Ht. apply path_likelihood; [apply Por|exact Ht]. }
      assert (Mx : mixture (logits (type_indices params (x 0%nat))) (likelihood_of (order_rows computed) 0) =
                   mixture (logits (type_indices params (x 0%nat))) (fun t => product_along (chance t) [] path)).
      { unfold mixture. apply rsum_map_ext. intros [t p] I. cbn [fst snd]. f_equal. apply Lk. apply In_enumerate in I.
        assert (I' : (t < length (logits (type_indices params (x 0%nat))))%nat) by (apply nth_error_Some; rewrite I; discriminate).
        unfold logits, type_indices in I'. rewrite !map_length, seq_length, length_enumerate in I'. lia. }
      destruct (covers_exists rc qr lk _ env n_types (panel path) _ computed Hn path_duplicated path_computed) as (numbered & E & Cov).
      pose proof (covers_unique _ _ _ _ _ _ _ _ panel_index Cov) as U. rewrite E in U.
      assert (One : forall l : list R, l <> [] -> (forall y, In y l -> y = v) -> rsum l / INR (length l) = v).
      { intros l Hl Hy. assert (S : rsum l = INR (length l) * v).
        { clear Hl. induction l as [|y l IH]; [cbn; lra|]. change (rsum (y :: l)) with (y + rsum l). cbn [length]. rewrite S_INR, IH by (intros z Hz; apply Hy; right; exact Hz).
          rewrite (Hy y (or_introl eq_refl)). lra. }
        rewrite S. assert (0 < INR (length l)) by (apply lt_0_INR; destruct l; [contradiction|cbn; lia]). field. lra. }
      unfold contributions. destruct (Nat.leb_spec 2 n_types) as [H2|H2].
      - set (ids := order_types (type_rows (panel path) n_types)).
        assert (PI : Permutation ids (flat_map (fun _ => [0%nat]) (seq 0 n_types))).
        { unfold ids. etransitivity; [apply Pot|].
          replace (type_rows (panel path) n_types) with (flat_map (fun _ : nat => [0%nat]) (seq 0 n_types)); [reflexivity|].
          unfold type_rows. apply flat_map_ext. intros _. symmetry. exact (f_equal (map (fun r : index * obs => fst (fst r))) path_first). }
        assert (I0 : forall id, In id ids -> id = 0%nat).
        { intros id Hid. eapply Permutation_in in Hid; [|exact PI]. apply in_flat_map in Hid. destruct Hid as (t & _ & [<-|[]]). reflexivity. }
        rewrite (result_all_map_value _ _ _ (fun _ => v) ids).
        + cbn [result_bind]. eexists. f_equal. f_equal. change (fold_right Rplus 0) with rsum. apply One.
          * apply Permutation_length in PI. destruct ids; [|discriminate]. cbn in PI. destruct n_types; [lia|discriminate].
          * intros y Hy. apply in_map_iff in Hy. destruct Hy as (? & <- & _). reflexivity.
        + intros id Hid. rewrite (I0 id Hid). rewrite type_contribution_spec; [| |destruct params; [cbn in Lp; lia|discriminate]|exact Hpr].
          * unfold v. rewrite Mx. reflexivity.
          * eapply unique_rows_perm; [apply Permutation_sym, Por|exact U].
      - assert (n_types = 1%nat) by lia. cbn [result_bind]. eexists. f_equal. f_equal. change (fold_right Rplus 0) with rsum. apply One.
        + intros X. apply map_eq_nil in X.
          assert (I : In 0%nat (isort Nat.leb (drop_duplicates Nat.eq_dec (map (fun r => fst (lr_index (fst r))) (order_rows computed))))).
          { apply In_isort, In_drop_duplicates. apply in_map_iff.
            destruct (nth_error path 0) as [c|] eqn:Ec; [|apply nth_error_None in Ec; pose proof (histories_length _ _ _ _ Hpath); lia].
            exists (row_of 0 (0%nat, c), row_values (row_of 0 (0%nat, c))). split; [reflexivity|].
            eapply Permutation_in; [apply Permutation_sym, Por|]. eapply Permutation_in; [apply Permutation_sym, path_values|].
            apply (in_map (fun r => (r, row_values r))). apply In_rows. exists 0%nat, 0%nat, c. repeat split; [lia|exact Ec]. }
          rewrite X in I. exact I.
        + intros y Hy. apply in_map_iff in Hy. destruct Hy as (id & <- & Hid).
          assert (T : forall r, In r (order_rows computed) -> fst (lr_index (fst r)) = 0%nat /\ lr_type (fst r) = 0%nat).
          { intros r Hr. eapply Permutation_in in Hr; [|apply Por]. eapply Permutation_in in Hr; [|apply path_values].
            apply in_map_iff in Hr. destruct Hr as (r' & <- & Hr). apply In_rows in Hr. destruct Hr as (t & q & c & Ht & _ & ->).
            cbn [fst row_of lr_index lr_type]. split; [reflexivity|lia]. }
          assert (id = 0%nat).
          { apply In_isort, In_drop_duplicates in Hid. apply in_map_iff in Hid. destruct Hid as (r & <- & Hr). apply (T r Hr). }
          subst id. unfold v. unfold max_float. f_equal. rewrite <- (ln_exp (per_individual (order_rows computed) 0)). f_equal.
          rewrite per_individual_likelihood. rewrite <- Mx.
          destruct params as [|b [|b' ps]]; cbn [length] in Lp; try lia.
          unfold type_indices. cbn [enumerate enumerate_from map]. rewrite logits_single. unfold mixture. cbn [enumerate enumerate_from map fst snd].
          change (rsum [?a]) with (a + 0). rewrite Rplus_0_r, Rmult_1_l. unfold likelihood_of. f_equal. f_equal. apply filter_ext_in.
          intros r Hr. destruct (T r Hr) as [_ ->]. cbn [Nat.eqb]. rewrite andb_true_r. reflexivity.
    Qed.
  End One.
End Path.

Lemma mixture_sum : forall A probs (like : A -> nat -> R) l, (forall t, (t < length probs)%nat -> rsum (map (fun a => like a t) l) = 1) ->
  rsum probs = 1 -> rsum (map (fun a => mixture probs (like a)) l) = 1.
Proof.
  intros A probs like l H S. unfold mixture. rewrite rsum_swap. rewrite <- S. rewrite <- (map_snd_enumerate R probs) at 2.
  apply rsum_map_ext. intros [t p] I. cbn [fst snd]. rewrite rsum_map_scal, H; [lra|]. apply In_enumerate in I. apply nth_error_Some. rewrite I. discriminate.
Qed.
Lemma mixture_pos : forall probs like, probs <> [] -> (forall p, In p probs -> 0 < p) -> (forall t, 0 < like t) -> 0 < mixture probs like.
Proof.
  intros probs like NE P L. unfold mixture.
  assert (G : forall l : list (nat * R), l <> [] -> (forall tp, In tp l -> 0 < snd tp) -> 0 < rsum (map (fun tp => snd tp * like (fst tp)) l)).
  { induction l as [|tp l IH]; intros N Q; [contradiction|]. cbn [map]. change (rsum (?a :: ?m)) with (a + rsum m).
    assert (0 < snd tp * like (fst tp)) by (apply Rmult_lt_0_compat; [apply Q; left; reflexivity|apply L]).
    destruct l as [|tq l]; [cbn; lra|]. assert (0 < rsum (map (fun tp => snd tp * like (fst tp)) (tq :: l))) by (apply IH; [discriminate|intros z Hz; apply Q; right; exact Hz]). lra. }
  apply G.
  - intros X. apply NE. rewrite <- (map_snd_enumerate R probs), X. reflexivity.
  - intros tp I. apply P. apply (in_map snd) in I. rewrite map_snd_enumerate in I. exact I.
Qed.
Lemma product_pos : forall P, (forall past c, 0 < P past c) -> forall rest past, 0 < product_along P past rest.
Proof. intros P H. induction rest as [|c rest IH]; intros past; cbn; [lra|]. apply Rmult_lt_0_compat; auto. Qed.

Lemma product_bounds : forall options P N b, b <= 0 ->
  (forall past c, In past (histories options (length past) []) -> (length past < N)%nat -> In c (options past) -> exp b <= P past c <= 1) ->
  forall n past path, In past (histories options (length past) []) -> (length past + n = N)%nat -> In path (histories options n past) ->
  exp (INR n * b) <= product_along P past path <= 1.
Proof.
  intros options P N b Hb H. induction n as [|n IH]; intros past path Hp Hn Hq.
  - cbn in Hq. destruct Hq as [<-|[]]. cbn. rewrite Rmult_0_l, exp_0. lra.
  - cbn [histories] in Hq. apply in_flat_map in Hq. destruct Hq as [c [Hc Hq]]. apply in_map_iff in Hq. destruct Hq as [q [<- Hq]].
    cbn [product_along]. assert (B1 := H past c Hp ltac:(lia) Hc).
    assert (B2 : exp (INR n * b) <= product_along P (past ++ [c]) q <= 1).
    { apply IH; [|rewrite app_length; cbn; lia|exact Hq]. eapply histories_app; eauto. rewrite app_length. cbn. lia. }
    rewrite S_INR. replace ((INR n + 1) * b) with (b + INR n * b) by ring. rewrite exp_plus.
    pose proof (exp_pos b). pose proof (exp_pos (INR n * b)). split.
    + apply Rmult_le_compat; lra.
    + rewrite <- (Rmult_1_l 1). apply Rmult_le_compat; lra.
Qed.
Lemma mixture_bounds : forall probs like lo, (forall p, In p probs -> 0 < p) -> rsum probs = 1 ->
  (forall t, (t < length probs)%nat -> lo <= like t <= 1) -> lo <= mixture probs like <= 1.
Proof.
  intros probs like lo P S1 B. unfold mixture.
  assert (G : forall l : list (nat * R), (forall tp, In tp l -> 0 < snd tp /\ lo <= like (fst tp) <= 1) ->
    lo * rsum (map snd l) <= rsum (map (fun tp => snd tp * like (fst tp)) l) <= rsum (map snd l)).
  { induction l as [|[t p] l IH]; intros H; [cbn; lra|]. cbn [map]. change (rsum (?a :: ?m)) with (a + rsum m). cbn [fst snd].
    destruct (H (t, p) (or_introl eq_refl)) as [H1 H2]. cbn [fst snd] in *.
    assert (IH' := IH (fun tp I => H tp (or_intror I))).
    assert (lo * p <= p * like t) by (rewrite Rmult_comm; apply Rmult_le_compat_l; lra).
    assert (p * like t <= p * 1) by (apply Rmult_le_compat_l; lra). lra. }
  assert (X := G (enumerate probs)). rewrite map_snd_enumerate, S1 in X. rewrite Rmult_1_r in X. apply X.
  intros [t p] I. apply In_enumerate in I. cbn [fst snd]. split; [apply P; eapply nth_error_In; exact I|].
  apply B. apply nth_error_Some. rewrite I. discriminate.
Qed.

Lemma all_histories : forall rc qr lk env n_types params x order_rows order_types place choice_set n,
  (1 <= n_types)%nat -> length params = n_types -> (1 <= n)%nat -> lk_tau lk <> 0 ->
  (forall l, Permutation (order_rows l) l) -> (forall l, Permutation (order_types l) l) ->
  proper_tree lk env n_types place choice_set n ->
  (forall p, In p (logits (type_indices params (x 0%nat))) -> - 10 ^ 200 <= ln p) ->
  let options past := positions (choice_set past) in
  let log_likelihood path := log_like rc qr lk (locate_along place path) env n_types params x order_rows order_types (panel path) in
  (forall path, In path (histories options n []) -> exists v cs, log_likelihood path = Ok (v, cs)) /\
  ((forall past t c j lc lw, In past (histories options (length past) []) -> (length past < n)%nat -> (t < n_types)%nat -> In c (options past) ->
      let k := fst (place past t) in let pos := snd (place past t) in
      row_loglikes rc qr lk (le_choice_set env k) (le_wages env k pos) (le_nonpec env k pos) (le_cont env k pos) (le_draws env k j) c None = Ok (lc, lw) ->
      - 10 ^ 200 < INR n * lc) ->
   rsum (map (fun path => match log_likelihood path with Ok (v, _) => exp v | _ => 0 end) (histories options n [])) = 1).
Proof.
  intros rc qr lk env n_types params x order_rows order_types place choice_set n Hn Lp H1 Tau Por Pot Tree Hpr options log_likelihood.
  assert (LL : forall path, In path (histories options n []) -> exists cs, log_likelihood path =
     Ok (clip (- 10 ^ 200) (10 ^ 200) (ln (mixture (logits (type_indices params (x 0%nat)))
       (fun t => product_along (chance rc qr lk env place t) [] path))), cs)).
  { intros path Hp. apply (log_like_path rc qr lk env n_types place choice_set n Hn Tau Tree path Hp params x order_rows order_types H1 Lp Por Pot Hpr). }
  split; [intros path Hp; destruct (LL path Hp) as [cs E]; rewrite E; eauto|].
  intros U.
  assert (N1 : 1 <= INR n) by (apply (le_INR 1); exact H1).
  assert (NZ : type_indices params (x 0%nat) <> []).
  { intros X; apply (f_equal (@length R)) in X; unfold type_indices in X; rewrite map_length, length_enumerate in X; cbn in X; lia. }
  assert (LLg : length (logits (type_indices params (x 0%nat))) = n_types).
  { unfold logits, type_indices. rewrite !map_length, seq_length, length_enumerate. exact Lp. }
  assert (P0 : 0 < 10 ^ 200) by (apply pow_lt; lra).
  assert (C : forall t past c, (t < n_types)%nat -> In past (histories options (length past) []) -> (length past < n)%nat -> In c (options past) ->
     - 10 ^ 200 < INR n * fst (value_of rc qr lk env place t past c) /\ - 10 ^ 200 < fst (value_of rc qr lk env place t past c) /\
     exp (- 10 ^ 200 / INR n) <= chance rc qr lk env place t past c <= 1).
  { intros t past c Ht Hp Hl Hc. destruct (row_value_ok rc qr lk env n_types place choice_set n Tau Tree t past c Hp Hl Ht Hc) as (EV & E2 & LE).
    unfold chance. destruct (value_of rc qr lk env place t past c) as [lc lw] eqn:Ev. cbn [fst snd] in *.
    assert (B : - 10 ^ 200 < INR n * lc) by (eapply (U past t c); eauto).
    split; [exact B|]. assert (LC : - 10 ^ 200 / INR n <= lc).
    { apply Rmult_le_reg_l with (INR n); [lra|]. unfold Rdiv. rewrite <- Rmult_assoc, Rinv_r_simpl_m by lra. lra. }
    split; [|split].
    - assert (INR n * lc <= 1 * lc) by (rewrite (Rmult_comm _ lc), (Rmult_comm 1 lc); apply Rmult_le_compat_neg_l; lra). lra.
    - destruct LC as [LC|LC]; [left; apply exp_increasing; exact LC|right; rewrite LC; reflexivity].
    - rewrite <- exp_0. destruct LE as [LE|LE]; [left; apply exp_increasing; exact LE|right; rewrite LE; reflexivity]. }
  rewrite (rsum_map_ext _ _ (fun path => mixture (logits (type_indices params (x 0%nat))) (fun t => product_along (chance rc qr lk env place t) [] path))).
  - apply (mixture_sum _ _ (fun path t => product_along (chance rc qr lk env place t) [] path)).
    + intros t Ht. rewrite LLg in Ht.
      apply (sum_histories options (chance rc qr lk env place t) n); [|left; reflexivity|reflexivity].
      intros past Hp Hl. apply (chances_sum rc qr lk env n_types place choice_set n Hn Tau Tree t past Hp Hl Ht).
      intros c Hc. apply C; assumption.
    + apply logits_sum. exact NZ.
  - intros path Hp. destruct (LL path Hp) as [cs E]. rewrite E.
    assert (B : exp (- 10 ^ 200) <= mixture (logits (type_indices params (x 0%nat))) (fun t => product_along (chance rc qr lk env place t) [] path) <= 1).
    { apply mixture_bounds; [intros p Ip; apply logits_pos in Ip; lra|apply logits_sum; exact NZ|]. intros t Ht. rewrite LLg in Ht.
      replace (- 10 ^ 200) with (INR n * (- 10 ^ 200 / INR n)) by (field; lra).
      apply (product_bounds options _ n); [|intros past c A1 A2 A3; apply C; assumption|left; reflexivity|reflexivity|exact Hp].
      apply Rmult_le_reg_l with (INR n); [lra|]. unfold Rdiv. rewrite <- Rmult_assoc, Rinv_r_simpl_m by lra. lra. }
    set (m := mixture _ _) in *. pose proof (exp_pos (- 10 ^ 200)) as Pe.
    assert (Pm : 0 < m) by (eapply Rlt_le_trans; [exact Pe|apply B]).
    assert (Lm : - 10 ^ 200 <= ln m <= 0).
    { split.
      - rewrite <- (ln_exp (- 10 ^ 200)). destruct B as [[B|B] _]; [left; apply ln_increasing; assumption|right; rewrite B; reflexivity].
      - rewrite <- ln_1. destruct B as [_ [B|B]]; [left; apply ln_increasing; lra|right; rewrite B; reflexivity]. }
    assert (Ec : clip (- 10 ^ 200) (10 ^ 200) (ln m) = ln m).
    { set (b := 10 ^ 200) in *. clearbody b. unfold clip, Rmin, Rmax. repeat destruct (Rle_dec _ _); lra. }
    rewrite Ec. apply exp_ln. lra.
Qed.
