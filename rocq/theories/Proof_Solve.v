(** Proofs about the solution. *)
From Coq Require Import List Arith Bool Reals Lra Lia.
From Verif Require Import Base Proof_Base Model_CoreStateSpace Proof_CoreStateSpace
  Model_StateSpace Spec_StateSpace Proof_StateSpace Model_Solve Spec_Solve.
Import ListNotations.
Open Scope R_scope.

(** ** lists *)
Lemma length_set_nth : forall A i (x : A) l, length (set_nth i x l) = length l.
Proof. induction i; intros x [|y l]; simpl; auto. Qed.

Lemma nth_error_set_nth_same : forall A i (x : A) l, (i < length l)%nat ->
  nth_error (set_nth i x l) i = Some x.
Proof. induction i; intros x [|y l] H; simpl in *; try lia; auto. apply IHi. lia. Qed.

Lemma nth_error_set_nth_other : forall A i j (x : A) l, i <> j ->
  nth_error (set_nth i x l) j = nth_error l j.
Proof.
  induction i; intros [|j] x [|y l] H; simpl; auto; try congruence.
Qed.

Lemma fold_sum_gen : forall A (f : A -> R) l a,
  fold_left (fun acc x => acc + f x) l a = a + rsum (map f l).
Proof.
  induction l as [|x l IH]; intros a; simpl; [lra|]. rewrite IH. simpl. lra.
Qed.

Lemma pandas_dot_linear : forall x b, pandas_dot x b = linear_index x b.
Proof.
  intros. unfold pandas_dot, linear_index.
  rewrite (fold_sum_gen _ (fun p : nat * R => snd p * x (fst p))).
  rewrite Rplus_0_l. f_equal. apply map_ext. intros; lra.
Qed.

(** ** rewards (C17) *)
Lemma length_set_col : forall A i (vals : list A) M, length vals = length M ->
  length (set_col i vals M) = length M.
Proof. intros. unfold set_col. rewrite map_length, combine_length. lia. Qed.

Lemma nth_error_combine : forall A B (l : list A) (m : list B) i,
  nth_error (combine l m) i =
  match nth_error l i, nth_error m i with Some a, Some b => Some (a, b) | _, _ => None end.
Proof.
  induction l as [|a l IH]; intros m i; simpl.
  - destruct i; reflexivity.
  - destruct m as [|b m]; simpl.
    + destruct i; simpl; [reflexivity|]. destruct (nth_error l i); reflexivity.
    + destruct i; simpl; [reflexivity|]. apply IH.
Qed.

Lemma nth_error_set_col : forall A i (vals : list A) M r row v,
  nth_error M r = Some row -> nth_error vals r = Some v ->
  nth_error (set_col i vals M) r = Some (set_nth i v row).
Proof.
  intros. unfold set_col. rewrite nth_error_map, nth_error_combine, H, H0. reflexivity.
Qed.

Lemma fold_columns : forall (cols : list (nat * nat)) (f : nat -> option ((nat -> R) -> R))
    (states : list (nat -> R)) M r row x,
  nth_error M r = Some row -> nth_error states r = Some x ->
  nth_error (fold_left (fun M ic => match f (snd ic) with
                                    | Some g => set_col (fst ic) (map g states) M
                                    | None => M end) cols M) r =
  Some (fold_left (fun row ic => match f (snd ic) with
                                 | Some g => set_nth (fst ic) (g x) row
                                 | None => row end) cols row).
Proof.
  induction cols as [|[i c] cols IH]; intros f states M r row x HM Hx; simpl; [exact HM|].
  destruct (f c) as [g|].
  - apply IH; auto. apply nth_error_set_col; auto. rewrite nth_error_map, Hx. reflexivity.
  - apply IH; auto.
Qed.

Lemma fold_row : forall (f : nat -> option R) d names pre suf,
  length suf = length names -> (forall x, In x suf -> x = d) ->
  fold_left (fun row ic => match f (snd ic) with
                           | Some v => set_nth (fst ic) v row
                           | None => row end)
    (enumerate_from (length pre) names) (pre ++ suf) =
  pre ++ map (fun c => match f c with Some v => v | None => d end) names.
Proof.
  intros f d names. induction names as [|c names IH]; intros pre suf L H; simpl.
  - destruct suf; [reflexivity|discriminate].
  - destruct suf as [|y suf]; [discriminate|]. simpl in L.
    rewrite (H y) by (left; reflexivity).
    assert (E : forall v, set_nth (length pre) v (pre ++ d :: suf) = (pre ++ [v]) ++ suf).
    { intros v. clear. induction pre as [|a pre IHp]; simpl; [reflexivity|]. f_equal. apply IHp. }
    assert (G : forall v, fold_left (fun row ic => match f (snd ic) with
                           | Some v => set_nth (fst ic) v row
                           | None => row end)
      (enumerate_from (S (length pre)) names) ((pre ++ [v]) ++ suf) =
      pre ++ v :: map (fun c => match f c with Some v => v | None => d end) names).
    { intros v. replace (S (length pre)) with (length (pre ++ [v]))
        by (rewrite app_length; simpl; lia).
      rewrite IH by (try lia; intros; apply H; right; assumption).
      rewrite <- app_assoc. reflexivity. }
    destruct (f c) as [v|].
    + rewrite E. apply G.
    + replace (pre ++ d :: suf) with ((pre ++ [d]) ++ suf) by (rewrite <- app_assoc; reflexivity).
      apply G.
Qed.

Lemma fold_left_pair : forall A B C (f : A -> C -> A) (g : B -> C -> B) l a b,
  fold_left (fun ab c => (f (fst ab) c, g (snd ab) c)) l (a, b) =
  (fold_left f l a, fold_left g l b).
Proof. induction l as [|c l IH]; intros; simpl; auto. Qed.

Lemma fold_left_ext_in : forall A B (f g : A -> B -> A) l a,
  (forall a b, In b l -> f a b = g a b) -> fold_left f l a = fold_left g l a.
Proof.
  induction l as [|b l IH]; intros a H; simpl; [reflexivity|].
  rewrite H by (left; reflexivity). apply IH. intros; apply H; right; auto.
Qed.

Lemma length_select_valid : forall A (choices : list A) cs, length cs = length choices ->
  length (select_valid_choices choices cs) = count_true cs.
Proof.
  intros A choices cs. unfold select_valid_choices, enumerate. rewrite map_length.
  assert (G : forall pre, length cs = length choices ->
    length (filter (fun p => nth (fst p) (pre ++ cs) false) (enumerate_from (length pre) choices))
    = count_true cs).
  { revert cs. induction choices as [|a choices IH]; intros [|b cs] pre H; simpl in *; try lia.
    replace (nth (length pre) (pre ++ b :: cs) false) with b
      by (rewrite app_nth2, Nat.sub_diag by lia; reflexivity).
    specialize (IH cs (pre ++ [b]) ltac:(lia)). rewrite app_length in IH. simpl in IH.
    rewrite Nat.add_1_r, <- app_assoc in IH. simpl in IH.
    destruct b; simpl; rewrite IH; reflexivity. }
  exact (G []).
Qed.

Lemma select_valid_compress : forall A (choices : list A) cs, length cs = length choices ->
  select_valid_choices choices cs = compress cs choices.
Proof.
  intros A choices cs. unfold select_valid_choices, enumerate.
  assert (G : forall pre, length cs = length choices ->
    map snd (filter (fun p => nth (fst p) (pre ++ cs) false) (enumerate_from (length pre) choices))
    = compress cs choices).
  { revert cs. induction choices as [|a choices IH]; intros [|b cs] pre H; simpl in *; try lia; auto.
    replace (nth (length pre) (pre ++ b :: cs) false) with b
      by (rewrite app_nth2, Nat.sub_diag by lia; reflexivity).
    specialize (IH cs (pre ++ [b]) ltac:(lia)). rewrite app_length in IH. simpl in IH.
    rewrite Nat.add_1_r, <- app_assoc in IH. simpl in IH.
    destruct b; simpl; rewrite IH; reflexivity. }
  exact (G []).
Qed.

Lemma choice_rewards_rows : forall states choices cs p r x,
  length cs = length choices -> nth_error states r = Some x ->
  let wn := create_choice_rewards states choices cs p in
  nth_error (fst wn) r = Some (map (wage_of p x) (compress cs choices)) /\
  nth_error (snd wn) r = Some (map (nonpec_of p x) (compress cs choices)).
Proof.
  intros states choices cs p r x L Hx wn. unfold wn, create_choice_rewards.
  set (cols := enumerate (select_valid_choices choices cs)).
  set (f := fun c => option_map (fun b x => exp (pandas_dot x b)) (p_wage p c)).
  set (g := fun c => option_map (fun b x => pandas_dot x b) (p_nonpec p c)).
  assert (E : fold_left (fun (wn : list (list R) * list (list R)) ic =>
       (match p_wage p (snd ic) with
                    | Some b => set_col (fst ic) (map (fun x => exp (pandas_dot x b)) states) (fst wn)
                    | None => fst wn
                    end,
        match p_nonpec p (snd ic) with
                      | Some b => set_col (fst ic) (map (fun x => pandas_dot x b) states) (snd wn)
                      | None => snd wn
                      end)) cols
       (map (fun _ => repeat 1 (count_true cs)) states, map (fun _ => repeat 0 (count_true cs)) states)
     = (fold_left (fun M ic => match f (snd ic) with
                                    | Some h => set_col (fst ic) (map h states) M
                                    | None => M end) cols (map (fun _ => repeat 1 (count_true cs)) states),
        fold_left (fun M ic => match g (snd ic) with
                                    | Some h => set_col (fst ic) (map h states) M
                                    | None => M end) cols (map (fun _ => repeat 0 (count_true cs)) states))).
  { rewrite <- fold_left_pair. apply fold_left_ext_in. intros [a b] [i c] _. simpl. unfold f, g.
    destruct (p_wage p c), (p_nonpec p c); reflexivity. }
  simpl in E |- *. rewrite E. simpl. split.
  - rewrite (fold_columns cols f states _ r (repeat 1 (count_true cs)) x);
      [|rewrite nth_error_map, Hx; reflexivity|exact Hx].
    f_equal. set (fx := fun c => option_map (fun h : (nat -> R) -> R => h x) (f c)).
    assert (E2 : forall row0, fold_left (fun row ic => match f (snd ic) with
        | Some h => set_nth (fst ic) (h x) row | None => row end) cols row0 =
       fold_left (fun row ic => match fx (snd ic) with
        | Some v => set_nth (fst ic) v row | None => row end) cols row0).
    { intros. apply fold_left_ext_in. intros a [i c] _. unfold fx. simpl. destruct (f c); reflexivity. }
    rewrite E2.
    etransitivity; [apply (fold_row fx 1 (select_valid_choices choices cs) [] (repeat 1 (count_true cs)))|].
    + rewrite repeat_length, length_select_valid; auto.
    + intros y Hy. apply repeat_spec in Hy. exact Hy.
    + simpl. rewrite select_valid_compress by exact L. apply map_ext. intros c.
      unfold fx, f, wage_of. destruct (p_wage p c); simpl; [rewrite pandas_dot_linear|]; reflexivity.
  - rewrite (fold_columns cols g states _ r (repeat 0 (count_true cs)) x);
      [|rewrite nth_error_map, Hx; reflexivity|exact Hx].
    f_equal. set (fx := fun c => option_map (fun h : (nat -> R) -> R => h x) (g c)).
    assert (E2 : forall row0, fold_left (fun row ic => match g (snd ic) with
        | Some h => set_nth (fst ic) (h x) row | None => row end) cols row0 =
       fold_left (fun row ic => match fx (snd ic) with
        | Some v => set_nth (fst ic) v row | None => row end) cols row0).
    { intros. apply fold_left_ext_in. intros a [i c] _. unfold fx. simpl. destruct (g c); reflexivity. }
    rewrite E2.
    etransitivity; [apply (fold_row fx 0 (select_valid_choices choices cs) [] (repeat 0 (count_true cs)))|].
    + rewrite repeat_length, length_select_valid; auto.
    + intros y Hy. apply repeat_spec in Hy. exact Hy.
    + simpl. rewrite select_valid_compress by exact L. apply map_ext. intros c.
      unfold fx, g, nonpec_of. destruct (p_nonpec p c); simpl; [rewrite pandas_dot_linear|]; reflexivity.
Qed.

Lemma length_choice_rewards : forall states choices cs p,
  let wn := create_choice_rewards states choices cs p in
  length (fst wn) = length states /\ length (snd wn) = length states.
Proof.
  intros states choices cs p. unfold create_choice_rewards. simpl.
  set (cols := enumerate (select_valid_choices choices cs)). clearbody cols.
  set (W := map (fun _ => repeat 1 (count_true cs)) states).
  set (N := map (fun _ => repeat 0 (count_true cs)) states).
  assert (HW : length W = length states) by apply map_length.
  assert (HN : length N = length states) by apply map_length.
  clearbody W N. revert W N HW HN.
  induction cols as [|[i c] cols IH]; intros W N HW HN; simpl; [auto|].
  destruct (p_wage p c), (p_nonpec p c); apply IH;
    rewrite ?length_set_col by (rewrite map_length; auto); auto.
Qed.

(** ** shocks *)
Lemma length_compress_eq : forall A m (l : list A), length m = length l ->
  length (compress m l) = count_true m.
Proof. intros. apply length_compress. assumption. Qed.

Lemma length_transform_draw : forall chol n d, length (transform_draw chol n d) = length chol.
Proof. intros. unfold transform_draw. rewrite map_length, length_enumerate, map_length. reflexivity. Qed.

Lemma length_transform_row : forall draws cs p e, length cs = length (p_chol p) ->
  In e (transform_draws draws cs p) -> length e = count_true cs.
Proof.
  intros draws cs p e L H. unfold transform_draws in H. apply in_map_iff in H.
  destruct H as [d [<- _]]. rewrite length_transform_draw. unfold subset_cholesky.
  rewrite map_length, length_compress; auto.
Qed.

(** ** EMAX *)
Lemma running_max : forall A (f : A -> R) l m,
  fold_left (fun m j => if Rlt_dec m (f j) then f j else m) l m =
  fold_right Rmax m (map f l).
Proof.
  intros A f l. induction l as [|j l IH] using rev_ind; intros m; simpl; [reflexivity|].
  rewrite fold_left_app, map_app, fold_right_app. simpl. rewrite IH.
  assert (G : forall l a b, fold_right Rmax (Rmax a b) l = Rmax a (fold_right Rmax b l)).
  { clear. induction l as [|x l IH]; intros a b; simpl; [reflexivity|]. rewrite IH.
    rewrite !Rmax_assoc, (Rmax_comm x a). reflexivity. }
  rewrite G. set (b := fold_right Rmax m (map f l)). clearbody b. unfold Rmax.
  destruct (Rlt_dec b (f j)), (Rle_dec (f j) b); lra.
Qed.

Lemma max_value_spec : forall wages nonpecs conts delta draw,
  length nonpecs = length wages -> length conts = length wages -> length draw = length wages ->
  max_value wages nonpecs conts delta (length wages) draw =
  max0 (map (fun t => fst t * fst (snd t) + fst (snd (snd t)) + delta * snd (snd (snd t)))
            (combine wages (combine draw (combine nonpecs conts)))).
Proof.
  intros wages nonpecs conts delta draw L1 L2 L3. unfold max_value, max0.
  rewrite (running_max _ (fun j => fst (aggregate_keane_wolpin_utility (nth j wages 0) (nth j nonpecs 0)
                       (nth j conts 0) (nth j draw 0) delta))).
  f_equal. revert nonpecs conts draw L1 L2 L3.
  induction wages as [|w wages IH]; intros [|n nonpecs] [|c conts] [|e draw] L1 L2 L3;
    simpl in *; try lia; [reflexivity|].
  f_equal. rewrite <- seq_shift, map_map. apply IH; lia.
Qed.

Lemma emax_spec : forall wages nonpecs conts draws delta,
  length nonpecs = length wages -> length conts = length wages ->
  (forall e, In e draws -> length e = length wages) ->
  emax wages nonpecs conts draws delta =
  mean (map (fun e =>
    max0 (map (fun t => fst t * fst (snd t) + fst (snd (snd t)) + delta * snd (snd (snd t)))
              (combine wages (combine e (combine nonpecs conts))))) draws).
Proof.
  intros wages nonpecs conts draws delta L1 L2 L3. unfold emax, mean. rewrite map_length. f_equal.
  rewrite (fold_sum_gen _ (max_value wages nonpecs conts delta (length wages))), Rplus_0_l.
  f_equal. apply map_ext_in. intros e He. apply max_value_spec; auto.
Qed.

(** ** backward induction *)
Lemma compress_seq_from : forall cs a, compress cs (seq a (length cs)) =
  map fst (filter (fun p => snd p) (enumerate_from a cs)).
Proof.
  induction cs as [|b cs IH]; intros a; simpl; [reflexivity|].
  rewrite IH. destruct b; reflexivity.
Qed.
Lemma compress_seq : forall cs n, length cs = n -> compress cs (seq 0 n) = positions cs.
Proof. intros cs n <-. apply compress_seq_from. Qed.

Lemma ev_shape_set : forall ss (ev ev' : list (list R)) k arr, ev_shape ss ev ->
  set_ev ev k arr = Ok ev' -> ev_shape ss ev'.
Proof.
  intros ss ev ev' k arr [S1 S2] H. unfold set_ev in H.
  destruct (nth_error ev k) as [old|] eqn:E; [|discriminate].
  destruct (Nat.eqb (length old) (length arr)) eqn:L; [|discriminate].
  apply Nat.eqb_eq in L. injection H as <-. split; [rewrite length_set_nth; exact S1|].
  intros k' arr' inds Hk Hi. destruct (Nat.eq_dec k k') as [<-|Hne].
  - rewrite nth_error_set_nth_same in Hk by (eapply nth_error_lt; eauto).
    injection Hk as <-. rewrite <- L. eauto.
  - rewrite nth_error_set_nth_other in Hk by exact Hne. eauto.
Qed.

(** Effect of writing the values of one period. *)
Lemma set_all : forall ss vals ev, ev_shape ss ev -> NoDup (map fst vals) ->
  (forall k arr, In (k, arr) vals -> exists inds, dense_key_to_core_indices ss k = Some inds /\
                                                 length arr = length inds /\ (k < length ev)%nat) ->
  exists ev', fold_result (fun p ev => set_ev ev (fst p) (snd p)) vals ev = Ok ev' /\
    ev_shape ss ev' /\
    (forall k arr, In (k, arr) vals -> nth_error ev' k = Some arr) /\
    (forall k, ~ In k (map fst vals) -> nth_error ev' k = nth_error ev k).
Proof.
  induction vals as [|[k arr] vals IH]; intros ev SH N H; simpl.
  - exists ev. split; [reflexivity|]. split; [exact SH|]. split; [intros ? ? []|auto].
  - inversion N; subst.
    destruct (H k arr (or_introl eq_refl)) as [inds [Hi [Hl Hk]]].
    assert (E : set_ev ev k arr = Ok (set_nth k arr ev)).
    { unfold set_ev. destruct (nth_error ev k) as [old|] eqn:Eo.
      - destruct SH as [S1 S2]. rewrite (S2 k old inds Eo Hi), Hl, Nat.eqb_refl. reflexivity.
      - apply nth_error_None in Eo. lia. }
    rewrite E. simpl.
    destruct (IH (set_nth k arr ev)) as [ev' [F [SH' [W O]]]].
    + eapply ev_shape_set; eauto.
    + exact H3.
    + intros k' arr' Hin. destruct (H k' arr' (or_intror Hin)) as [i' [A [B C]]].
      exists i'. rewrite length_set_nth. auto.
    + exists ev'. split; [exact F|]. split; [exact SH'|]. split.
      * intros k' arr' [Hin|Hin]; [|auto]. injection Hin as <- <-.
        rewrite O by exact H2. apply nth_error_set_nth_same. exact Hk.
      * intros k' Hn. rewrite O by tauto. apply nth_error_set_nth_other. tauto.
Qed.

Lemma NoDup_keys_of_period : forall ss p, NoDup (dense_keys_from_period ss p).
Proof. intros. unfold dense_keys_from_period. apply NoDup_map_fst_filter, NoDup_map_fst_enumerate. Qed.

Lemma In_keys_of_period : forall ss p k,
  In k (dense_keys_from_period ss p) <->
  exists cx ck, nth_error (ss_dpc ss) k = Some (cx, ck) /\ cx_period cx = p.
Proof.
  intros. unfold dense_keys_from_period. rewrite in_map_iff. split.
  - intros [[k' [cx ck]] [<- H]]. apply filter_In in H. destruct H as [H E]. simpl in *.
    apply In_enumerate in H. apply Nat.eqb_eq in E. eauto.
  - intros [cx [ck [H E]]]. exists (k, (cx, ck)). split; [reflexivity|]. apply filter_In.
    split; [apply In_enumerate; exact H|]. simpl. apply Nat.eqb_eq. exact E.
Qed.

Lemma initial_ev_shape : forall ss, ev_shape ss (initial_ev ss).
Proof.
  intros ss. unfold initial_ev. split; [apply map_length|].
  intros k arr inds H1 H2. rewrite nth_error_map in H1.
  unfold dense_key_to_core_indices, dense_key_to_core_key in H2. rewrite nth_error_map in H2.
  destruct (nth_error (ss_dpc ss) k) as [[cx ck]|]; [|discriminate]. simpl in *.
  injection H1 as <-. rewrite H2. apply repeat_length.
Qed.

Lemma filter_enumerate : forall A (g : A -> bool) rest pre,
  map fst (filter (fun p => g (snd p)) (enumerate_from (length pre) rest)) =
  filter (fun k => match nth_error (pre ++ rest) k with Some x => g x | None => false end)
         (seq (length pre) (length rest)).
Proof.
  intros A g. induction rest as [|x rest IH]; intros pre; [reflexivity|].
  cbn [enumerate_from filter length seq snd].
  rewrite nth_error_app2, Nat.sub_diag by lia. cbn [nth_error].
  specialize (IH (pre ++ [x])). rewrite app_length in IH. cbn [length] in IH.
  rewrite Nat.add_1_r, <- app_assoc in IH. cbn [app] in IH.
  destruct (g x); cbn [map fst]; rewrite IH; reflexivity.
Qed.

Lemma keys_in_spec : forall ss p, keys_in ss p = dense_keys_from_period ss p.
Proof.
  intros ss p. unfold keys_in, dense_keys_from_period, enumerate.
  etransitivity; [|symmetry; exact (filter_enumerate _ (fun x => Nat.eqb (cx_period (fst x)) p) (ss_dpc ss) [])].
  apply filter_ext. intros k. cbn [app]. destruct (nth_error (ss_dpc ss) k) as [[cx ck]|]; reflexivity.
Qed.

Lemma any_interpolated_false : forall ss points p,
  any_interpolated ss points p = false <-> solved_exactly ss points p.
Proof.
  intros ss points p. unfold any_interpolated, solved_exactly, states_in. rewrite keys_in_spec.
  change (map (fun k => match dense_key_to_core_indices ss k with Some l => length l | None => 0%nat end)
              (dense_keys_from_period ss p)) with (map (key_size ss) (dense_keys_from_period ss p)).
  destruct (Nat.ltb_spec points (list_sum (map (key_size ss) (dense_keys_from_period ss p))));
    destruct (Nat.leb_spec (2 * length (dense_keys_from_period ss p)) points); simpl; split; intros;
    try discriminate; try reflexivity; lia.
Qed.

Section BackwardInduction.
  Variables (nchoices nperiods : nat) (core : list core_state) (csf : cs_fun)
    (grid : list (list nat)) (ss : state_space) (inp : inputs).
  Hypothesis ND : NoDup core.
  Hypothesis CL : closed_under_choices nperiods core csf.
  Hypothesis CF : collision_free core csf grid.
  Hypothesis CR : create_state_space nperiods core csf grid = Ok ss.
  Hypothesis WI : wf_inputs nchoices csf inp.
  Hypothesis INP : forall s, In s core -> (cs_period s < nperiods)%nat.

  Let F : ss_facts nperiods core csf grid ss := create_state_space_facts _ _ _ _ _ CR.
  Let delta := p_delta (in_params inp).

  Lemma rewards_row : forall k r s d ctx, located ss k r s d -> dense_combination grid d ctx ->
    exists wn inds, rewards_of ss inp k = Ok wn /\ dense_key_to_core_indices ss k = Some inds /\
      length (fst wn) = length inds /\ length (snd wn) = length inds /\
      nth_error (fst wn) r = Some (map (wage_of (in_params inp) (in_cov inp ctx s)) (positions (csf ctx s))) /\
      nth_error (snd wn) r = Some (map (nonpec_of (in_params inp) (in_cov inp ctx s)) (positions (csf ctx s))).
  Proof.
    intros k r s d ctx L Dc.
    destruct (located_facts _ _ _ _ _ _ _ _ _ CF F L) as
      [ctx' [cx [ck [inds [i [D' [Hk [Ecx [Gi [Hr Hi]]]]]]]]]].
    assert (ctx' = ctx) by (eapply dense_combination_fun; eauto). subst ctx'.
    destruct (dpc_facts_all _ _ _ _ CF (sf_dpc _ _ _ _ _ F)) as [N En Fi]. simpl in *.
    rewrite (sf_groups _ _ _ _ _ F) in Gi.
    destruct (Fi cx ck inds (nth_error_In _ _ Hk) Gi) as [ctx2 [D2 Hf]].
    assert (cx_dense cx = d) by (subst cx; reflexivity). rewrite H in D2.
    assert (ctx2 = ctx) by (eapply dense_combination_fun; eauto). subst ctx2.
    destruct (group_members core csf ck inds Gi) as [_ [_ Lr]].
    assert (Hs : nth_error (rows core inds) r = Some s)
      by (rewrite nth_error_rows by exact Lr; rewrite Hr; exact Hi).
    unfold rewards_of, dense_key_to_complex. rewrite nth_error_map, Hk. simpl. rewrite Hf. simpl.
    eexists. exists inds. split; [reflexivity|].
    split. { unfold dense_key_to_core_indices, dense_key_to_core_key. rewrite nth_error_map, Hk. simpl.
             rewrite (sf_groups _ _ _ _ _ F). exact Gi. }
    destruct (length_choice_rewards (map (in_cov inp ctx) (rows core inds)) (in_choices inp)
                (cx_choice_set cx) (in_params inp)) as [E1 E2].
    rewrite E1, E2, map_length, length_rows by exact Lr.
    split; [reflexivity|]. split; [reflexivity|].
    destruct WI as [W1 [W2 W3]].
    assert (Ecs : cx_choice_set cx = csf ctx s) by (subst cx; reflexivity).
    rewrite Ecs, W1. rewrite <- (compress_seq (csf ctx s) nchoices) by apply W2.
    apply choice_rewards_rows.
    - rewrite seq_length. apply W2.
    - rewrite nth_error_map, Hs. reflexivity.
  Qed.

  (** No interpolation in any period. *)
  Hypothesis NI0 : forall p, solved_exactly ss (in_points inp) p.
  Let NI : forall p, any_interpolated ss (in_points inp) p = false :=
    fun p => proj2 (any_interpolated_false ss (in_points inp) p) (NI0 p).
  Hypothesis Dnz : delta <> 0.

  Definition V (ctx : option (list nat)) (s : core_state) : R :=
    value (model_problem csf inp ctx) delta (nperiods - cs_period s) s.

  Definition correct_from (p : nat) (ev : list (list R)) : Prop :=
    forall s d ctx v, dense_combination grid d ctx -> (p <= cs_period s)%nat ->
      value_at ss ev s d v -> v = V ctx s.

  Lemma value_at_key : forall (ev : list (list R)) k r s d v, located ss k r s d ->
    value_at ss ev s d v -> exists arr, nth_error ev k = Some arr /\ nth_error arr r = Some v.
  Proof.
    intros ev k r s d v L [k' [r' [arr [L' [H1 H2]]]]].
    destruct (located_unique _ _ _ _ _ _ _ _ _ _ _ ND CF F L L') as [<- <-]. eauto.
  Qed.

  Lemma located_in_core : forall k r s d, located ss k r s d -> In s core.
  Proof.
    intros k r s d L. destruct (located_describes _ _ _ _ _ _ _ _ _ CF CR L) as [ctx [_ [H _]]]. exact H.
  Qed.

  Lemma combine_map_l : forall A B C (f : A -> B) (l : list A) (m : list C),
    combine (map f l) m = map (fun p => (f (fst p), snd p)) (combine l m).
  Proof. induction l as [|a l IH]; intros [|c m]; simpl; auto. f_equal. apply IH. Qed.

  Lemma rows_to_problem : forall (ctx : option (list nat)) s (row : list R) n,
    length row = length (positions (csf ctx s)) ->
    (forall j c, nth_error (positions (csf ctx s)) j = Some c ->
       nth_error row j = Some (value (model_problem csf inp ctx) delta n (law_of_motion c s))) ->
    emax (map (wage_of (in_params inp) (in_cov inp ctx s)) (positions (csf ctx s)))
         (map (nonpec_of (in_params inp) (in_cov inp ctx s)) (positions (csf ctx s)))
         row
         (transform_draws (in_base inp (count_true (csf ctx s)) (cs_period s)) (csf ctx s) (in_params inp))
         delta = value (model_problem csf inp ctx) delta (S n) s.
  Proof.
    intros ctx s row n L H.
    assert (Hrow : row = map (fun c => value (model_problem csf inp ctx) delta n (law_of_motion c s))
                             (positions (csf ctx s))).
    { apply nth_error_ext_eq. intros j. rewrite nth_error_map.
      destruct (nth_error (positions (csf ctx s)) j) as [c|] eqn:E; simpl; [auto|].
      apply nth_error_None. apply nth_error_None in E. lia. }
    assert (Hd : forall e, In e (transform_draws (in_base inp (count_true (csf ctx s)) (cs_period s))
                    (csf ctx s) (in_params inp)) -> length e = length (positions (csf ctx s))).
    { intros e He. rewrite length_positions. destruct WI as [_ [W2 W3]].
      eapply length_transform_row; [|exact He]. rewrite W2. auto. }
    rewrite emax_spec by (rewrite ?map_length; auto).
    cbn [value model_problem pb_flows pb_moves]. rewrite map_map. f_equal. apply map_ext_in. intros e He.
    f_equal. rewrite Hrow. specialize (Hd e He). revert Hd. fold (model_problem csf inp ctx). clear.
    revert e.
    induction (positions (csf ctx s)) as [|c l IH]; intros [|x e] L; simpl in *; try lia; [reflexivity|].
    f_equal. apply IH. lia.
  Qed.

  Lemma solve_step : forall p ev, (p < nperiods)%nat -> ev_shape ss ev -> correct_from (S p) ev ->
    exists ev', solve_period ss inp p ev = Ok ev' /\ ev_shape ss ev' /\ correct_from p ev'.
  Proof.
    intros p ev Hp SH C. unfold solve_period, period_values.
    fold delta. destruct (Req_EM_T delta 0) as [Z|_]; [contradiction|]. rewrite NI.
    set (f := fun k => result_bind (rewards_of ss inp k) (fun wn =>
         result_bind (get_continuation_values 0 ss ev p k) (fun conts =>
         result_bind (calculate_expected_value_functions (fst wn) (snd wn) conts
                        (draws_of ss inp k) delta) (fun arr => Ok (k, arr))))).
    assert (Hkey : forall k, In k (dense_keys_from_period ss p) ->
       exists arr inds, f k = Ok (k, arr) /\ dense_key_to_core_indices ss k = Some inds /\
         length arr = length inds /\
         forall r s d ctx, located ss k r s d -> dense_combination grid d ctx ->
           nth_error arr r = Some (V ctx s)).
    { intros k Hk. apply In_keys_of_period in Hk. destruct Hk as [cx [ck [Hk Pk]]].
      destruct (keys_inhabited _ _ _ _ _ k CF CR (nth_error_lt _ _ _ _ Hk)) as [inds [Hinds [Ne Loc]]].
      assert (H0 : (0 < length inds)%nat) by (destruct inds; [congruence|simpl; lia]).
      destruct (Loc 0%nat H0) as [s0 [d L0]].
      destruct (located_facts _ _ _ _ _ _ _ _ _ CF F L0) as
        [ctx [cx' [ck' [inds' [i [Dc [Hk' [Ecx _]]]]]]]].
      rewrite Hk in Hk'. injection Hk' as <- <-.
      assert (P0 : cs_period s0 = p) by (subst cx; exact Pk).
      destruct (rewards_row _ _ _ _ _ L0 Dc) as [wn [inds2 [Ew [Ei [Lw [Ln _]]]]]].
      rewrite Hinds in Ei. injection Ei as <-.
      destruct (continuation_values_spec R 0 _ _ _ _ _ ev _ _ _ _ _ ND CL CF CR SH L0 Dc
                  ltac:(rewrite P0; exact Hp)) as [M [row0 [EM _]]].
      rewrite P0 in EM.
      (* all rows of the matrix of continuation values *)
      assert (Row : forall r s, located ss k r s d -> exists row, nth_error M r = Some row /\
                length row = length (positions (csf ctx s)) /\
                forall j c, nth_error (positions (csf ctx s)) j = Some c ->
                  nth_error row j = Some (value (model_problem csf inp ctx) delta
                                            (nperiods - S p) (law_of_motion c s))).
      { intros r s L. 
        destruct (located_facts _ _ _ _ _ _ _ _ _ CF F L) as
          [ctx2 [cx2 [ck2 [inds2 [i2 [Dc2 [Hk2 [Ecx2 _]]]]]]]].
        rewrite Hk in Hk2. injection Hk2 as <- <-.
        assert (Ps : cs_period s = p) by (subst cx; injection Ecx2 as Ecx2 _; congruence).
        destruct (continuation_values_spec R 0 _ _ _ _ _ ev _ _ _ _ _ ND CL CF CR SH L Dc
                    ltac:(rewrite Ps; exact Hp)) as [M' [row [EM' [Hrow [Lrow [Last Mid]]]]]].
        rewrite Ps, EM in EM'. injection EM' as <-. exists row. split; [exact Hrow|].
        split; [rewrite length_positions; exact Lrow|]. intros j c Hj.
        destruct (Nat.eq_dec (S p) nperiods) as [E|E].
        - replace (nperiods - S p)%nat with 0%nat by lia. simpl.
          assert (Hj2 : (j < length row)%nat).
          { rewrite Lrow, <- length_positions. eapply nth_error_lt; eauto. }
          destruct (nth_error row j) as [v|] eqn:Ev; [|apply nth_error_None in Ev; lia].
          rewrite (Last ltac:(rewrite Ps; exact E) v (nth_error_In _ _ Ev)). reflexivity.
        - destruct (Mid ltac:(rewrite Ps; lia) j c Hj) as [v [Hv Va]]. rewrite Hv. f_equal.
          assert (Hle : (S p <= cs_period (law_of_motion c s))%nat) by (rewrite law_period; lia).
          rewrite (C _ _ _ _ Dc Hle Va). unfold V.
          rewrite law_period, Ps. reflexivity. }
      assert (LM : length M = length inds).
      { unfold get_continuation_values in EM. rewrite Hk, Hinds in EM.
        destruct (nth_error (ss_transit ss) k) as [tcs|]; [|discriminate].
        destruct (nth_error (ss_child ss) k) as [ch|]; [|discriminate].
        destruct (Nat.eqb p (ss_nperiods ss - 1)).
        - injection EM as <-. apply map_length.
        - apply result_all_map_Ok, Forall2_length_eq in EM. rewrite seq_length in EM. auto. }
      exists (map (fun t => emax (fst t) (fst (snd t)) (snd (snd t)) (draws_of ss inp k) delta)
               (combine (fst wn) (combine (snd wn) M))), inds.
      split; [|split; [exact Hinds|split]].
      - unfold f. rewrite Ew. simpl. rewrite EM. simpl. unfold calculate_expected_value_functions.
        rewrite Lw, Ln, LM, Nat.eqb_refl. reflexivity.
      - rewrite map_length, !combine_length. lia.
      - intros r s d' ctx' L Dc'.
        destruct (located_functional _ _ _ _ _ k r s d s d' F) as [_ <-]; [|exact L|].
        { destruct (located_facts _ _ _ _ _ _ _ _ _ CF F L) as
            [ctx2 [cx2 [ck2 [inds2 [i2 [Dc2 [Hk2 [Ecx2 _]]]]]]]].
          rewrite Hk in Hk2. injection Hk2 as <- <-.
          assert (d = d') by (subst cx; injection Ecx2 as _ _ Ecx2; exact Ecx2).
          subst d'. exact L. }
        assert (ctx' = ctx) by (eapply dense_combination_fun; eauto). subst ctx'.
        destruct (rewards_row _ _ _ _ _ L Dc) as [wn' [inds9 [Ew' [_ [_ [_ [R1 R2]]]]]]].
        rewrite Ew in Ew'. injection Ew' as <-.
        destruct (Row r s L) as [row [Hrow [Lrow Vrow]]].
        rewrite nth_error_map, !nth_error_combine, R1, R2, Hrow. simpl. f_equal.
        destruct (located_facts _ _ _ _ _ _ _ _ _ CF F L) as
            [ctx2 [cx2 [ck2 [inds2 [i2 [Dc2 [Hk2 [Ecx2 _]]]]]]]].
        assert (ctx2 = ctx) by (eapply dense_combination_fun; eauto). subst ctx2.
        unfold draws_of, dense_key_to_complex. rewrite nth_error_map, Hk2. simpl.
        subst cx2. unfold cx_choice_set, cx_period. simpl.
        assert (Ps : cs_period s = p).
        { rewrite Hk in Hk2. injection Hk2 as E2 _. rewrite E2 in Pk. exact Pk. }
        unfold V. replace (nperiods - cs_period s)%nat with (S (nperiods - S p)) by lia.
        apply rows_to_problem; auto. }
    set (keys := dense_keys_from_period ss p) in *.
    destruct (result_all_Ok_exists _ _ f keys) as [vals Hvals].
    { intros k Hk. destruct (Hkey k Hk) as [arr [inds [E _]]]. eauto. }
    change (exists ev' : list (list R),
      result_bind (result_all (map f keys)) (fun vals => fold_result (fun p ev => set_ev ev (fst p) (snd p)) vals ev)
      = Ok ev' /\ ev_shape ss ev' /\ correct_from p ev').
    rewrite Hvals. cbn [result_bind]. apply result_all_map_Ok in Hvals.
    assert (Keys : map fst vals = keys).
    { clear - Hvals Hkey. induction Hvals as [|k [k' arr] l l' H _ IH]; simpl; [reflexivity|].
      f_equal.
      - destruct (Hkey k (or_introl eq_refl)) as [a [i [E _]]]. rewrite H in E. congruence.
      - apply IH. intros; apply Hkey; right; auto. }
    assert (HV : forall k arr, In (k, arr) vals -> In k keys /\ f k = Ok (k, arr)).
    { intros k arr Hin. apply In_nth_error in Hin. destruct Hin as [n Hn].
      assert (Hk : nth_error keys n = Some k) by (rewrite <- Keys, nth_error_map, Hn; reflexivity).
      destruct (Forall2_nth_l _ _ _ _ _ _ _ Hvals Hk) as [x [Hx Fx]].
      rewrite Hn in Hx. injection Hx as <-. split; [eapply nth_error_In; eauto|exact Fx]. }
    destruct (set_all ss vals ev SH) as [ev' [EF [SH' [Wr Ot]]]].
    - rewrite Keys. apply NoDup_keys_of_period.
    - intros k arr Hin. destruct (HV k arr Hin) as [Hk Fk].
      destruct (Hkey k Hk) as [arr' [inds [Fk' [Hi [La _]]]]]. rewrite Fk in Fk'. injection Fk' as <-.
      exists inds. split; [exact Hi|]. split; [exact La|].
      apply In_keys_of_period in Hk. destruct Hk as [cx [ck [Hk _]]]. destruct SH as [SH1 _].
      rewrite SH1. eapply nth_error_lt; eauto.
    - exists ev'. split; [exact EF|]. split; [exact SH'|].
      intros s d ctx v Dc Hps Va.
      destruct (Nat.eq_dec (cs_period s) p) as [E|E].
      + destruct Va as [k [r [arr [L [Hk Hr]]]]].
        assert (Hin : In k keys).
        { destruct (located_facts _ _ _ _ _ _ _ _ _ CF F L) as
            [ctx2 [cx2 [ck2 [inds2 [i2 [Dc2 [Hk2 [Ecx2 _]]]]]]]].
          apply In_keys_of_period. exists cx2, ck2. split; [exact Hk2|]. subst cx2. exact E. }
        destruct (Hkey k Hin) as [arr' [inds [Fk [_ [_ Val]]]]].
        destruct (Forall2_In_l _ _ _ _ _ _ Hvals Hin) as [[k2 a2] [Fk2 Hc]].
        rewrite Fk in Fk2. injection Fk2 as <- <-.
        apply in_combine_r in Hc. rewrite (Wr _ _ Hc) in Hk. injection Hk as <-.
        rewrite (Val r s d ctx L Dc) in Hr. congruence.
      + apply (C s d ctx v Dc ltac:(lia)).
        destruct Va as [k [r [arr [L [Hk Hr]]]]]. exists k, r, arr. split; [exact L|].
        split; [|exact Hr]. rewrite <- Ot; [exact Hk|]. rewrite Keys. intro Hin.
        apply In_keys_of_period in Hin. destruct Hin as [cx [ck [Hk1 Pk]]].
        destruct (located_facts _ _ _ _ _ _ _ _ _ CF F L) as
            [ctx2 [cx2 [ck2 [inds2 [i2 [Dc2 [Hk2 [Ecx2 _]]]]]]]].
        rewrite Hk1 in Hk2. injection Hk2 as <- <-. subst cx. apply E. exact Pk.
  Qed.

  Lemma solve_loop : forall n ev, (n <= nperiods)%nat -> ev_shape ss ev -> correct_from n ev ->
    exists ev', fold_result (solve_period ss inp) (rev (seq 0 n)) ev = Ok ev' /\
                ev_shape ss ev' /\ correct_from 0 ev'.
  Proof.
    induction n as [|n IH]; intros ev Hn SH C.
    - exists ev. simpl. auto.
    - rewrite seq_S. simpl. rewrite rev_unit. simpl.
      destruct (solve_step n ev ltac:(lia) SH C) as [ev1 [E1 [SH1 C1]]]. rewrite E1. simpl.
      apply IH; auto. lia.
  Qed.

  Theorem backward_induction : forall ev0, ev_shape ss ev0 ->
    exists ev, solve_with_backward_induction ss inp ev0 = Ok ev /\ ev_shape ss ev /\
      forall k r s d ctx, located ss k r s d -> dense_combination grid d ctx ->
        exists arr, nth_error ev k = Some arr /\
          nth_error arr r =
          Some (value (model_problem csf inp ctx) delta (nperiods - cs_period s) s).
  Proof.
    intros ev0 SH. unfold solve_with_backward_induction. rewrite (sf_nperiods _ _ _ _ _ F).
    destruct (solve_loop nperiods ev0 (le_n _) SH) as [ev [E [SH' C]]].
    - intros s d ctx v Dc Hp [k [r [arr [L _]]]]. exfalso.
      specialize (INP s (located_in_core _ _ _ _ L)). lia.
    - exists ev. split; [exact E|]. split; [exact SH'|]. intros k r s d ctx L Dc.
      destruct (value_at_exists _ _ _ _ _ _ ev s d ctx CF F SH' (located_in_core _ _ _ _ L) Dc) as [v Hv].
      destruct (value_at_key _ _ _ _ _ _ L Hv) as [arr [H1 H2]]. exists arr. split; [exact H1|].
      rewrite H2. f_equal. apply (C s d ctx v Dc ltac:(lia) Hv).
  Qed.
End BackwardInduction.
