(** The simulated panel: induction over periods for an arbitrary environment. *)
From Coq Require Import List Arith Bool Reals Lia Lra Permutation Sorted.
From Verif Require Import Base Proof_Base Model_CoreStateSpace Model_StateSpace Spec_StateSpace
  Proof_CoreStateSpace Proof_StateSpace Model_Solve Spec_Solve Proof_Solve Proof_Shocks
  Model_Parallel Spec_Parallel Proof_Parallel Model_Simulate Spec_Simulate Proof_Simulate.
Import ListNotations.
Open Scope nat_scope.

(** ** sequences of results *)
Lemma sequence_frame_Ok : forall A (df : frame (result A)) out,
  sequence_frame df = Ok out <-> Forall2 (fun x y => fst y = fst x /\ snd x = Ok (snd y)) df out.
Proof.
  induction df as [|[i x] df IH]; intros out; simpl.
  - split; [intros [= <-]; constructor|inversion 1; reflexivity].
  - destruct x as [y| | | | |]; simpl;
      try (split; [discriminate|]; inversion 1; subst; simpl in *; destruct H2; discriminate).
    destruct (sequence_frame df) as [ys| | | | |] eqn:E; simpl;
      try (split; [discriminate|]; inversion 1; subst;
           match goal with H : Forall2 _ df _ |- _ => apply IH in H; discriminate end).
    split.
    + intros [= <-]. constructor; [auto|]. apply IH. reflexivity.
    + inversion 1; subst. simpl in *. destruct H2 as [H2 H2']. apply IH in H4.
      injection H4 as <-. injection H2' as ->. destruct y0; simpl in *. subst. reflexivity.
Qed.

Lemma sequence_frame_exists : forall A (df : frame (result A)),
  (forall r, In r df -> exists y, snd r = Ok y) -> exists out, sequence_frame df = Ok out.
Proof.
  induction df as [|[i x] df IH]; intros H; simpl; [eauto|].
  destruct (H (i, x) (or_introl eq_refl)) as [y E]. simpl in E. subst x. simpl.
  destruct IH as [out ->]; [intros; apply H; right; auto|]. simpl. eauto.
Qed.

Lemma NoDup_fst_functional : forall A B (l : list (A * B)) a b b',
  NoDup (map fst l) -> In (a, b) l -> In (a, b') l -> b = b'.
Proof.
  induction l as [|[x y] l IH]; simpl; intros a b b' N H1 H2; [destruct H1|].
  inversion N; subst. destruct H1 as [[= -> ->]|H1], H2 as [[= ]|H2]; subst; auto.
  - exfalso. apply H3. apply (in_map fst) in H2. exact H2.
  - exfalso. apply H3. apply (in_map fst) in H1. exact H1.
  - eauto.
Qed.

(** ** Arguments over dense keys *)
Lemma dense_dict_wf : forall A (inj : A -> sval) d, NoDup (map fst d) -> wf_dictionary (dense_dict inj d).
Proof.
  intros A inj d H. unfold dense_dict. simpl. rewrite map_map. simpl.
  rewrite <- (map_map fst KInt). apply FinFun.Injective_map_NoDup; [|exact H].
  intros x y E. congruence.
Qed.

Lemma dense_dict_dense : forall A (inj : A -> sval) d, d <> [] -> dense_dictionary (dense_dict inj d).
Proof.
  intros A inj d H. unfold dense_dict. simpl. split.
  - destruct d; [congruence|discriminate].
  - intros k x Hin. apply in_map_iff in Hin. destruct Hin as [[n a] [E _]]. simpl in E.
    injection E as <- _. eauto.
Qed.

Lemma dense_dict_has_key : forall A (inj : A -> sval) d n,
  has_key (dense_dict inj d) n <-> In n (map fst d).
Proof.
  intros A inj d n. unfold dense_dict. simpl. split.
  - intros [x H]. apply in_map_iff in H. destruct H as [[m a] [E H]]. simpl in E.
    injection E as -> _. apply (in_map fst) in H. exact H.
  - intros H. apply in_map_iff in H. destruct H as [[m a] [<- H]]. simpl.
    exists (PAtom (inj a)). apply in_map_iff. exists (m, a). auto.
Qed.

Lemma dense_dict_for_key : forall A (inj : A -> sval) d n v, NoDup (map fst d) ->
  In (n, v) d -> forall y, for_key n (dense_dict inj d) y -> y = PAtom (inj v).
Proof.
  intros A inj d n v N H y F.
  assert (D : dense_dictionary (dense_dict inj d)).
  { apply dense_dict_dense. intros ->. destruct H. }
  unfold dense_dict in *. inversion F as [d' x D' Hin E1 E2|v' D' E1 E2]; subst; [|contradiction].
  apply in_map_iff in Hin. destruct Hin as [[m a] [E Hin]]. simpl in E. injection E as -> <-.
  f_equal. f_equal. apply (NoDup_fst_functional _ _ d n a v); assumption.
Qed.

(** ** One period *)
(** What the simulation of an individual [x] in period [t] needs to find: its dense key
    [k] and index [i], the choice set, and its rewards and continuation values. *)
Record found (env : environment) (nch t : nat) (x : individual) (k i : nat) (cx : complex)
  (wm npm cm : list (list R)) (w np c : list R) : Prop := {
  fo_locate : en_locate env (i_core x) (i_dense x) = Ok (k, i);
  fo_complex : In (k, cx) (en_complex env t);
  fo_wages : exists d, en_wages env t = Ok d /\ In (k, wm) d;
  fo_nonpecs : exists d, en_nonpecs env t = Ok d /\ In (k, npm) d;
  fo_conts : exists d, en_conts env t = Ok d /\ In (k, cm) d;
  fo_w : nth_error wm i = Some w;
  fo_np : nth_error npm i = Some np;
  fo_c : nth_error cm i = Some c;
  fo_lw : length w = count_true (cx_choice_set cx);
  fo_lnp : length np = count_true (cx_choice_set cx);
  fo_lc : length c = count_true (cx_choice_set cx);
  fo_len : length (cx_choice_set cx) = nch;
  fo_pos : 0 < count_true (cx_choice_set cx)
}.

(** The dictionaries of a period are complete. *)
Definition period_ready (env : environment) (t : nat) : Prop :=
  NoDup (map fst (en_complex env t)) /\
  (exists d, en_wages env t = Ok d /\ NoDup (map fst d)) /\
  (exists d, en_nonpecs env t = Ok d /\ NoDup (map fst d)) /\
  (exists d, en_conts env t = Ok d /\ NoDup (map fst d)).

Lemma In_combine_nth : forall A B (l1 : list A) (l2 : list B) a b,
  In (a, b) (combine l1 l2) <-> exists n, nth_error l1 n = Some a /\ nth_error l2 n = Some b.
Proof.
  induction l1 as [|x l1 IH]; intros [|y l2] a b; simpl; split; try tauto.
  - intros [[|n] [H1 H2]]; discriminate.
  - intros [[|n] [H1 H2]]; discriminate.
  - intros [[|n] [H1 H2]]; discriminate.
  - intros [[= -> ->]|H]; [exists 0; auto|]. apply IH in H. destruct H as [n H]. exists (S n). exact H.
  - intros [[|n] [H1 H2]]; simpl in *; [left; congruence|]. right. apply IH. eauto.
Qed.

Lemma map_fst_combine : forall A B (l1 : list A) (l2 : list B), length l1 = length l2 ->
  map fst (combine l1 l2) = l1.
Proof.
  induction l1 as [|x l1 IH]; intros [|y l2] H; simpl in *; try discriminate; [reflexivity|].
  f_equal. apply IH. lia.
Qed.

Lemma Forall2_nth_iff : forall A B (P : A -> B -> Prop) l1 l2,
  Forall2 P l1 l2 <-> length l1 = length l2 /\
    forall n a b, nth_error l1 n = Some a -> nth_error l2 n = Some b -> P a b.
Proof.
  induction l1 as [|x l1 IH]; intros [|y l2]; split; simpl.
  - intros _. split; [reflexivity|]. intros [|n]; discriminate.
  - intros _. constructor.
  - inversion 1.
  - intros [H _]. discriminate.
  - inversion 1.
  - intros [H _]. discriminate.
  - inversion 1; subst. apply IH in H5. destruct H5 as [E H5]. split; [congruence|].
    intros [|n] a b H1 H2; simpl in *; [congruence|eauto].
  - intros [E H]. constructor; [apply (H 0); reflexivity|]. apply IH. split; [lia|].
    intros n a b H1 H2. apply (H (S n)); assumption.
Qed.

Lemma simulate_period_spec : forall env si order next_key nch t current shocks meas,
  iteration_order order -> square nch (p_chol (si_params si)) ->
  NoDup (si_choices si) -> length (si_choices si) = nch ->
  period_ready env t -> ordered_frame current -> current <> [] ->
  length shocks = length current -> length meas = length current ->
  (forall s, In s shocks -> length s = nch) -> (forall s, In s meas -> length s = nch) ->
  (forall id x, In (id, x) current -> exists k i cx wm npm cm w np c, found env nch t x k i cx wm npm cm w np c) ->
  exists out, simulate_period env si order next_key t current shocks meas = Ok out /\
    length out = length current /\
    forall n id x s m o, nth_error current n = Some (id, x) -> nth_error shocks n = Some s ->
      nth_error meas n = Some m -> nth_error out n = Some o ->
      fst o = id /\ forall k i cx wm npm cm w np c, found env nch t x k i cx wm npm cm w np c ->
        simulate_row si (next_key t) cx wm npm cm id (mkRow x k i s m) = Ok (snd o).
Proof.
  intros env si order next_key nch t current shocks meas HO SQ NC LC PR OF NE LS LM RS RM HF.
  unfold simulate_period. rewrite LS, LM, Nat.eqb_refl. simpl andb. cbv iota.
  set (all := combine current (combine shocks meas)).
  assert (Hall : forall n, nth_error all n =
    match nth_error current n, nth_error shocks n, nth_error meas n with
    | Some a, Some b, Some c => Some (a, (b, c)) | _, _, _ => None end).
  { intros n. unfold all. rewrite !nth_error_combine.
    destruct (nth_error current n), (nth_error shocks n), (nth_error meas n); reflexivity. }
  assert (Lall : length all = length current).
  { unfold all. rewrite !combine_length. lia. }
  set (pre := map (fun x : index * individual * (list R * list R) =>
      (fst (fst x), locate_row env (fst (snd x)) (snd (snd x)) (snd (fst x)))) all).
  destruct (sequence_frame_exists _ pre) as [rows Erows].
  { intros r Hr. unfold pre in Hr. apply in_map_iff in Hr. destruct Hr as [[[id x] [s m]] [<- Hin]].
    simpl. apply in_combine_l in Hin. destruct (HF _ _ Hin) as [k [i [cx [wm [npm [cm [w [np [c F]]]]]]]]].
    unfold locate_row. rewrite (fo_locate _ _ _ _ _ _ _ _ _ _ _ _ _ F). simpl. eauto. }
  rewrite Erows. cbn [result_bind]. apply sequence_frame_Ok in Erows.
  assert (Lrows : length rows = length current).
  { apply Forall2_length_eq in Erows. unfold pre in Erows. rewrite map_length in Erows. lia. }
  destruct PR as [P1 [[dw [Ew Pw]] [[dn [En Pn]] [dc [Ec Pc]]]]].
  rewrite Ew, En, Ec. cbn [result_bind].
  assert (Hrow : forall n id x s m r, nth_error current n = Some (id, x) -> nth_error shocks n = Some s ->
     nth_error meas n = Some m -> nth_error rows n = Some r ->
     fst r = id /\ forall k i cx wm npm cm w np c, found env nch t x k i cx wm npm cm w np c ->
       snd r = mkRow x k i s m).
  { intros n id x s m r H1 H2 H3 H4.
    assert (Hp : nth_error pre n = Some (id, locate_row env s m x)).
    { unfold pre. rewrite nth_error_map, Hall, H1, H2, H3. reflexivity. }
    destruct (Forall2_nth_l _ _ _ _ _ _ _ Erows Hp) as [r' [H4' [R1 R2]]].
    rewrite H4 in H4'. injection H4' as <-. simpl in *. split; [exact R1|].
    intros k i cx wm npm cm w np c F. unfold locate_row in R2.
    rewrite (fo_locate _ _ _ _ _ _ _ _ _ _ _ _ _ F) in R2. simpl in R2. congruence. }
  assert (Hidx : map fst rows = map fst current).
  { apply nth_error_ext_eq. intros n. rewrite !nth_error_map.
    destruct (nth_error current n) as [[id x]|] eqn:H1.
    - assert (L : n < length current) by (eapply nth_error_lt; eauto).
      destruct (nth_error shocks n) as [s|] eqn:H2; [|apply nth_error_None in H2; lia].
      destruct (nth_error meas n) as [m|] eqn:H3; [|apply nth_error_None in H3; lia].
      destruct (nth_error rows n) as [r|] eqn:H4; [|apply nth_error_None in H4; lia].
      simpl. f_equal. eapply Hrow; eauto.
    - apply nth_error_None in H1. replace (nth_error rows n) with (@None (index * sim_row)); [reflexivity|].
      symmetry. apply nth_error_None. lia. }
  assert (Hin : forall r, In r rows -> exists id x s m k i cx wm npm cm w np c,
     found env nch t x k i cx wm npm cm w np c /\ r = (id, mkRow x k i s m) /\ In (id, x) current /\
     length s = nch /\ length m = nch).
  { intros r Hr. apply In_nth_error in Hr. destruct Hr as [n H4].
    assert (L : n < length current) by (rewrite <- Lrows; eapply nth_error_lt; eauto).
    destruct (nth_error current n) as [[id x]|] eqn:H1; [|apply nth_error_None in H1; lia].
    destruct (nth_error shocks n) as [s|] eqn:H2; [|apply nth_error_None in H2; lia].
    destruct (nth_error meas n) as [m|] eqn:H3; [|apply nth_error_None in H3; lia].
    destruct (Hrow _ _ _ _ _ _ H1 H2 H3 H4) as [R1 R2].
    pose proof (nth_error_In _ _ H1) as Hc.
    destruct (HF _ _ Hc) as [k [i [cx [wm [npm [cm [w [np [c F]]]]]]]]].
    exists id, x, s, m, k, i, cx, wm, npm, cm, w, np, c. split; [exact F|].
    split; [|split; [exact Hc|split; [apply RS|apply RM]; eapply nth_error_In; eauto]].
    rewrite (surjective_pairing r), R1, (R2 _ _ _ _ _ _ _ _ _ F). reflexivity. }
  set (args := [dense_dict VComplex (en_complex env t); dense_dict VMat dw; dense_dict VMat dn; dense_dict VMat dc]).
  (* a row exists, so no dictionary is empty *)
  assert (NEd : en_complex env t <> [] /\ dw <> [] /\ dn <> [] /\ dc <> []).
  { destruct rows as [|r rows'] eqn:Er; [destruct current; [congruence|discriminate]|].
    destruct (Hin r (or_introl eq_refl)) as (id&x&s&m&k&i&cx&wm&npm&cm&w&np&c&F&_).
    destruct F as [F1 F2 [d1 [E1 F3]] [d2 [E2 F4]] [d3 [E3 F5]] _ _ _ _ _ _ _ _].
    rewrite Ew in E1. rewrite En in E2. rewrite Ec in E3. injection E1 as <-. injection E2 as <-.
    injection E3 as <-. repeat split; intros Z; rewrite Z in *; simpl in *; assumption. }
  destruct NEd as [NE1 [NE2 [NE3 NE4]]].
  set (g := fun (rest : list (pyval sval)) (kw : list (nat * pyval sval)) (r : sim_row) (i : index) =>
     match rest with
     | [PAtom (VComplex cx); PAtom (VMat w); PAtom (VMat n); PAtom (VMat c)] =>
         simulate_row si (next_key t) cx w n c i r
     | _ => OtherError
     end).
  destruct (split_and_combine_all _ _ _ VFrame r_key order (simulate_group si (next_key t)) rows args [] [] g)
    as [h [E1 E2]].
  - exact HO.
  - intros v Hv. simpl in Hv. destruct Hv as [<-|[<-|[<-|[<-|[]]]]]; apply dense_dict_wf; assumption.
  - intros v k Hv ND. exfalso. apply ND. simpl in Hv.
    destruct Hv as [<-|[<-|[<-|[<-|[]]]]]; apply dense_dict_dense; assumption.
  - intros gdf rest kw. reflexivity.
  - intros a kw. unfold simulate_group. destruct a as [|[[df|cx|mm]|d] rest]; eauto.
  - unfold ordered_frame. rewrite Hidx. exact OF.
  - intros Z. rewrite Z in Lrows. destruct current; [congruence|discriminate].
  - intros r Hr v Hv _. destruct (Hin r Hr) as (id&x&s&m&k&i&cx&wm&npm&cm&w&np&c&F&->&_&_&_).
    destruct F as [F1 F2 [d1 [Ed1 F3]] [d2 [Ed2 F4]] [d3 [Ed3 F5]] _ _ _ _ _ _ _ _].
    rewrite Ew in Ed1. rewrite En in Ed2. rewrite Ec in Ed3. injection Ed1 as <-. injection Ed2 as <-.
    injection Ed3 as <-. simpl.
    simpl in Hv. destruct Hv as [<-|[<-|[<-|[<-|[]]]]]; apply dense_dict_has_key;
      [apply (in_map fst) in F2; exact F2|apply (in_map fst) in F3; exact F3
      |apply (in_map fst) in F4; exact F4|apply (in_map fst) in F5; exact F5].
  - rewrite E1. cbn [result_bind].
    assert (Hh : forall id x s m k i cx wm npm cm w np c, In (id, mkRow x k i s m) rows ->
       found env nch t x k i cx wm npm cm w np c ->
       h (mkRow x k i s m) id = simulate_row si (next_key t) cx wm npm cm id (mkRow x k i s m)).
    { intros id x s m k i cx wm npm cm w np c Hr F.
      destruct (E2 _ Hr) as [args' [kwargs' [A1 [A2 A3]]]]. simpl in A3. rewrite A3.
      destruct F as [F1 F2 [d1 [Ed1 F3]] [d2 [Ed2 F4]] [d3 [Ed3 F5]] _ _ _ _ _ _ _ _].
      rewrite Ew in Ed1. rewrite En in Ed2. rewrite Ec in Ed3. injection Ed1 as <-. injection Ed2 as <-.
      injection Ed3 as <-. simpl in A1. unfold args in A1.
      inversion A1 as [|? y1 ? l1 B1 A1' ]; subst. inversion A1' as [|? y2 ? l2 B2 A1'' ]; subst.
      inversion A1'' as [|? y3 ? l3 B3 A1''' ]; subst. inversion A1''' as [|? y4 ? l4 B4 A1'''' ]; subst.
      inversion A1''''; subst.
      apply (dense_dict_for_key _ _ _ _ _ P1 F2) in B1. apply (dense_dict_for_key _ _ _ _ _ Pw F3) in B2.
      apply (dense_dict_for_key _ _ _ _ _ Pn F4) in B3. apply (dense_dict_for_key _ _ _ _ _ Pc F5) in B4.
      subst. reflexivity. }
    destruct (sequence_frame_exists _ (map (fun r => (fst r, h (snd r) (fst r))) rows)) as [out Eout].
    { intros r0 Hr0. apply in_map_iff in Hr0. destruct Hr0 as [r [<- Hr]]. simpl.
      destruct (Hin r Hr) as (id&x&s&m&k&i&cx&wm&npm&cm&w&np&c&F&->&_&Ls&Lm). simpl.
      rewrite (Hh _ _ _ _ _ _ _ _ _ _ _ _ _ Hr F).
      destruct (simulate_row_spec nch si (next_key t) cx wm npm cm id (mkRow x k i s m) w np c)
        as [o [Eo _]]; simpl; auto; try apply F. exists o. exact Eo. }
    exists out. split; [exact Eout|]. apply sequence_frame_Ok in Eout.
    split. { apply Forall2_length_eq in Eout. rewrite map_length in Eout. lia. }
    intros n id x s m o H1 H2 H3 H5.
    assert (L : n < length current) by (eapply nth_error_lt; eauto).
    destruct (nth_error rows n) as [r|] eqn:H4; [|apply nth_error_None in H4; lia].
    destruct (Hrow _ _ _ _ _ _ H1 H2 H3 H4) as [R1 R2].
    assert (Hm : nth_error (map (fun r => (fst r, h (snd r) (fst r))) rows) n = Some (fst r, h (snd r) (fst r)))
      by (rewrite nth_error_map, H4; reflexivity).
    destruct (Forall2_nth_l _ _ _ _ _ _ _ Eout Hm) as [o' [H5' [O1 O2]]].
    rewrite H5 in H5'. injection H5' as <-. simpl in O1, O2. split; [congruence|].
    intros k i cx wm npm cm w np c F. rewrite <- O2.
    rewrite (R2 _ _ _ _ _ _ _ _ _ F), R1. symmetry. eapply Hh; [|exact F].
    apply nth_error_In in H4. rewrite (surjective_pairing r), R1, (R2 _ _ _ _ _ _ _ _ _ F) in H4. exact H4.
Qed.

(** ** Induction over periods *)
Lemma nth_error_firstn_lt : forall A (l : list A) n i, i < n -> nth_error (firstn n l) i = nth_error l i.
Proof.
  induction l as [|x l IH]; intros [|n] [|i] H; simpl; auto; try lia. apply IH. lia.
Qed.

Lemma slice_nth : forall A (l : list A) a b i, i < b - a -> nth_error (slice l a b) i = nth_error l (a + i).
Proof.
  intros A l a b i H. unfold slice. rewrite nth_error_firstn_lt by exact H. apply nth_error_skipn_eq.
Qed.

Lemma length_slice : forall A (l : list A) a b, a <= b -> b <= length l -> length (slice l a b) = b - a.
Proof. intros. unfold slice. rewrite firstn_length, skipn_length. lia. Qed.

Lemma In_slice : forall A (l : list A) a b x, In x (slice l a b) -> In x l.
Proof.
  intros A l a b x H. unfold slice in H.
  rewrite <- (firstn_skipn a l). apply in_or_app. right.
  rewrite <- (firstn_skipn (b - a) (skipn a l)). apply in_or_app. left. exact H.
Qed.

Lemma cross_section_ordered : forall A ids t (df : frame A), increasing ids -> cross_section ids t df ->
  ordered_frame df.
Proof.
  intros A ids t df H C. unfold ordered_frame. rewrite C. clear C df. induction ids as [|x ids IH]; simpl in *.
  - constructor.
  - constructor; [apply IH; tauto|]. apply Forall_forall. intros y Hy. apply in_map_iff in Hy.
    destruct Hy as [z [<- Hz]]. left. simpl. apply H. exact Hz.
Qed.

  Lemma map_seq_sorted : forall id len a,
    StronglySorted index_lt (map (fun t => (id, t)) (seq a len)).
  Proof.
    intros id. induction len as [|k IHk]; intros a; simpl; constructor; [apply IHk|].
    apply Forall_forall. intros y Hy. apply in_map_iff in Hy. destruct Hy as [z [<- Hz]].
    apply in_seq in Hz. right. simpl. lia.
  Qed.

  Lemma StronglySorted_app : forall A (R : A -> A -> Prop) l1 l2,
    StronglySorted R l1 -> StronglySorted R l2 -> (forall x y, In x l1 -> In y l2 -> R x y) ->
    StronglySorted R (l1 ++ l2).
  Proof.
    induction l1 as [|x l1 IHl]; simpl; intros l2 H1 H2 H; [exact H2|].
    inversion H1; subst. constructor; [apply IHl; auto|]. apply Forall_app. split; [assumption|].
    apply Forall_forall. intros y Hy. apply H; auto.
  Qed.

  Lemma index_lt_irrefl : forall i, ~ index_lt i i.
  Proof. intros [a b] [H|[_ H]]; simpl in H; lia. Qed.

  Lemma sorted_lt_NoDup : forall l, StronglySorted index_lt l -> NoDup l.
  Proof.
    induction 1 as [|x l _ IH H]; constructor; auto. rewrite Forall_forall in H. intros Hx.
    exact (index_lt_irrefl _ (H _ Hx)).
  Qed.

  Lemma increasing_NoDup : forall l, increasing l -> NoDup l.
  Proof.
    induction l as [|x l IH]; simpl; intros H; constructor; [|apply IH; tauto].
    intros Hx. apply H in Hx. lia.
  Qed.

  Lemma sort_index_index : forall A (l : frame A) idx, StronglySorted index_lt idx ->
    Permutation (map fst l) idx -> map fst (sort_index l) = idx /\ Permutation (sort_index l) l.
  Proof.
    intros A l idx S P. assert (PS : Permutation (sort_index l) l) by apply Permutation_isort.
    split; [|exact PS].
    set (u := map (fun i : index => (i, tt)) idx).
    assert (U : map fst u = idx) by (unfold u; rewrite map_map, map_id; reflexivity).
    set (v := map (fun r : index * A => (fst r, tt)) (sort_index l)).
    assert (Vf : map fst v = map fst (sort_index l)) by (unfold v; rewrite map_map; reflexivity).
    rewrite <- Vf, <- U. f_equal.
    assert (OU : ordered_frame u) by (unfold ordered_frame; rewrite U; exact S).
    destruct (ordered_sorted _ _ OU) as [S1 N1].
    assert (PV : Permutation v u).
    { unfold v, u. rewrite <- (map_map fst (fun i : index => (i, tt))). apply Permutation_map.
      rewrite PS. exact P. }
    symmetry. apply sorted_frames_eq; auto; [|symmetry; exact PV].
    assert (SS : StronglySorted (fun a b : index * A => index_leb (fst a) (fst b) = true) (sort_index l)).
    { apply Sorted_isort; intros; [apply index_leb_total|eapply index_leb_trans; eauto]. }
    unfold v. clear - SS. induction SS as [|x l' _ IH H]; simpl; constructor; auto.
    rewrite Forall_forall in *. intros y Hy. apply in_map_iff in Hy. destruct Hy as [z [<- Hz]]. simpl. auto.
  Qed.

Section Periods.
  Variables (env : environment) (si : sim_spec) (order : list nat -> list nat)
    (next_key : nat -> index -> nat -> nat -> nat) (nch n_exog n : nat)
    (base meas : list (list R)) (ids : list nat) (good : nat -> individual -> Prop).
  Let N := length ids.
  Hypothesis HO : iteration_order order.
  Hypothesis SQ : square nch (p_chol (si_params si)).
  Hypothesis NC : NoDup (si_choices si).
  Hypothesis LC : length (si_choices si) = nch.
  Hypothesis PR : forall t, t < n -> period_ready env t.
  Hypothesis HF : forall t x, t < n -> good t x ->
    exists k i cx wm npm cm w np c, found env nch t x k i cx wm npm cm w np c.
  Hypothesis HN : forall t id x k i cx wm npm cm w np c s m o, S t < n -> good t x ->
    found env nch t x k i cx wm npm cm w np c -> length s = nch -> length m = nch ->
    simulate_row si (next_key t) cx wm npm cm (id, t) (mkRow x k i s m) = Ok o ->
    exists y, next_state env n_exog o = Ok y /\ good (S t) y.
  Hypothesis INC : increasing ids.
  Hypothesis NE : ids <> [].
  Hypothesis DB : draws_shape (N * n) nch base.
  Hypothesis DM : draws_shape (N * n) nch meas.

  Definition simulated (t p : nat) (r : index * outcome) : Prop :=
    exists id s m, nth_error ids p = Some id /\ fst r = (id, t) /\
      nth_error base (N * t + p) = Some s /\ nth_error meas (N * t + p) = Some m /\
      length s = nch /\ length m = nch /\
      good t (o_ind (snd r)) /\
      forall k i cx wm npm cm w np c, found env nch t (o_ind (snd r)) k i cx wm npm cm w np c ->
        simulate_row si (next_key t) cx wm npm cm (id, t) (mkRow (o_ind (snd r)) k i s m) = Ok (snd r).

  Lemma one_period : forall t df, t < n -> cross_section ids t df ->
    (forall id x, In (id, x) df -> good t x) ->
    exists out, simulate_period env si order next_key t
        (filter (fun r => Nat.eqb (snd (fst r)) t) df)
        (slice base (length df * t) (length df * S t)) (slice meas (length df * t) (length df * S t)) = Ok out /\
      map fst out = map (fun id => (id, t)) ids /\
      map (fun r => (fst r, o_ind (snd r))) out = df /\
      forall p r, nth_error out p = Some r -> simulated t p r.
  Proof.
    intros t df Ht CS HG.
    assert (Ldf : length df = N).
    { unfold N. apply (f_equal (@length _)) in CS. rewrite !map_length in CS. exact CS. }
    rewrite filter_all.
    2:{ intros r Hr. apply Nat.eqb_eq. apply (in_map fst) in Hr. rewrite CS in Hr.
        apply in_map_iff in Hr. destruct Hr as [id [<- _]]. reflexivity. }
    rewrite Ldf.
    destruct DB as [DB1 DB2], DM as [DM1 DM2].
    assert (Hle : N * S t <= N * n) by (apply Nat.mul_le_mono_l; lia).
    assert (Hsub : N * S t - N * t = N) by (rewrite Nat.mul_succ_r; lia).
    assert (Hord : N * t <= N * S t) by lia.
    destruct (simulate_period_spec env si order next_key nch t df (slice base (N * t) (N * S t))
                (slice meas (N * t) (N * S t))) as [out [E [Lout Hout]]]; auto.
    - eapply cross_section_ordered; eauto.
    - intros ->. unfold N in Ldf. destruct ids; [congruence|discriminate].
    - rewrite length_slice; lia.
    - rewrite length_slice; lia.
    - intros s Hs. apply DB2. eapply In_slice; eauto.
    - intros s Hs. apply DM2. eapply In_slice; eauto.
    - intros id x Hx. apply HF; [exact Ht|eauto].
    - exists out. split; [exact E|].
      assert (Hrow : forall p r, nth_error out p = Some r -> simulated t p r /\
                nth_error df p = Some (fst r, o_ind (snd r))).
      { intros p r Hp.
        assert (L : p < N) by (rewrite <- Ldf, <- Lout; eapply nth_error_lt; eauto).
        destruct (nth_error df p) as [[idx x]|] eqn:Hd; [|apply nth_error_None in Hd; lia].
        assert (Hs : exists s, nth_error base (N * t + p) = Some s).
        { destruct (nth_error base (N * t + p)) eqn:Z; [eauto|]. apply nth_error_None in Z. lia. }
        assert (Hm : exists s, nth_error meas (N * t + p) = Some s).
        { destruct (nth_error meas (N * t + p)) eqn:Z; [eauto|]. apply nth_error_None in Z. lia. }
        destruct Hs as [s Hs], Hm as [m Hm].
        destruct (Hout p idx x s m r) as [H1 H2]; auto.
        { rewrite slice_nth by lia. exact Hs. }
        { rewrite slice_nth by lia. exact Hm. }
        assert (Hid : exists id, nth_error ids p = Some id /\ idx = (id, t)).
        { apply (f_equal (fun l => nth_error l p)) in CS. rewrite !nth_error_map, Hd in CS. simpl in CS.
          destruct (nth_error ids p) as [id|]; [|discriminate]. exists id. split; [reflexivity|].
          simpl in CS. congruence. }
        destruct Hid as [id [Hid ->]].
        assert (Gx : good t x) by (apply (HG (id, t)); eapply nth_error_In; eauto).
        assert (Ls : length s = nch) by (apply DB2; eapply nth_error_In; eauto).
        assert (Lm : length m = nch) by (apply DM2; eapply nth_error_In; eauto).
        destruct (HF t x Ht Gx) as [k [i [cx [wm [npm [cm [w [np [c F]]]]]]]]].
        assert (Hind : o_ind (snd r) = x).
        { destruct (simulate_row_spec nch si (next_key t) cx wm npm cm (id, t) (mkRow x k i s m) w np c)
            as [o [Eo [Ho _]]]; simpl; auto; try apply F.
          rewrite (H2 _ _ _ _ _ _ _ _ _ F) in Eo. injection Eo as <-. exact Ho. }
        split; [|rewrite Hind, H1; reflexivity].
        exists id, s, m. rewrite Hind. repeat (split; [assumption|]). exact H2. }
      split; [|split].
      + transitivity (map fst df); [|exact CS]. apply nth_error_ext_eq. intros p. rewrite !nth_error_map.
        destruct (nth_error out p) as [r|] eqn:Hp.
        * destruct (Hrow p r Hp) as [_ ->]. reflexivity.
        * apply nth_error_None in Hp. replace (nth_error df p) with (@None (index * individual)); [reflexivity|].
          symmetry. apply nth_error_None. lia.
      + apply nth_error_ext_eq. intros p. rewrite nth_error_map.
        destruct (nth_error out p) as [r|] eqn:Hp; simpl.
        * destruct (Hrow p r Hp) as [_ ->]. reflexivity.
        * apply nth_error_None in Hp. symmetry. apply nth_error_None. lia.
      + intros p r Hp. apply Hrow. exact Hp.
  Qed.

  Lemma next_frame_spec : forall t out, S t < n ->
    map fst out = map (fun id => (id, t)) ids -> (forall p r, nth_error out p = Some r -> simulated t p r) ->
    exists df', next_frame env n_exog out = Ok df' /\ cross_section ids (S t) df' /\
      (forall id x, In (id, x) df' -> good (S t) x) /\
      Forall2 (fun r r' => next_state env n_exog (snd r) = Ok (snd r')) out df'.
  Proof.
    intros t out Ht HI HS. unfold next_frame.
    assert (Hy : forall p r, nth_error out p = Some r ->
              exists y, next_state env n_exog (snd r) = Ok y /\ good (S t) y).
    { intros p r Hp. destruct (HS p r Hp) as [id [s [m [H1 [H2 [H3 [H4 [H5 [H6 [H7 H8]]]]]]]]]].
      assert (Ht' : t < n) by lia.
      destruct (HF t _ Ht' H7) as [k [i [cx [wm [npm [cm [w [np [c F]]]]]]]]].
      exact (HN t id _ _ _ _ _ _ _ _ _ _ s m _ Ht H7 F H5 H6 (H8 _ _ _ _ _ _ _ _ _ F)). }
    destruct (sequence_frame_exists _ (map (fun r : index * outcome =>
       ((fst (fst r), S (snd (fst r))), next_state env n_exog (snd r))) out)) as [df' E].
    { intros r0 Hr0. apply in_map_iff in Hr0. destruct Hr0 as [r [<- Hr]]. simpl.
      apply In_nth_error in Hr. destruct Hr as [p Hp]. destruct (Hy p r Hp) as [y [H _]]. eauto. }
    exists df'. split; [exact E|]. apply sequence_frame_Ok in E.
    assert (F : Forall2 (fun r r' => fst r' = (fst (fst r), S (snd (fst r))) /\
                 next_state env n_exog (snd r) = Ok (snd r')) out df').
    { revert E. clear. revert df'. induction out as [|r out IH]; intros df' E; inversion E; subst; constructor; auto. }
    split; [|split].
    - unfold cross_section.
      assert (Z : map fst df' = map (fun i : index => (fst i, S (snd i))) (map fst out)).
      { clear - F. induction F as [|r r' l l' [H _] _ IH]; simpl; [reflexivity|]. f_equal; [exact H|exact IH]. }
      rewrite Z, HI, map_map. apply map_ext. reflexivity.
    - intros id x Hx. apply In_nth_error in Hx. destruct Hx as [p Hp].
      apply Forall2_nth_iff in F. destruct F as [FL F].
      destruct (nth_error out p) as [r|] eqn:Hr;
        [|apply nth_error_None in Hr; apply nth_error_lt in Hp; unfold frame, index in *; lia].
      destruct (F p r _ Hr Hp) as [_ H]. destruct (Hy p r Hr) as [y [Ey Gy]]. simpl in H. congruence.
    - clear - F. induction F as [|r r' l l' [_ H] _ IH]; constructor; auto.
  Qed.

  Lemma n_step_spec : forall m t df, t + m = n -> cross_section ids t df ->
    (forall id x, In (id, x) df -> good t x) ->
    exists frames, n_step env si order next_key n_exog base meas m t df = Ok frames /\ length frames = m /\
      forall j fr, nth_error frames j = Some fr ->
        map fst fr = map (fun id => (id, t + j)) ids /\
        (forall p r, nth_error fr p = Some r -> simulated (t + j) p r) /\
        (j = 0 -> map (fun r => (fst r, o_ind (snd r))) fr = df) /\
        (forall fr', nth_error frames (S j) = Some fr' ->
           Forall2 (fun r r' => next_state env n_exog (snd r) = Ok (o_ind (snd r'))) fr fr').
  Proof.
    induction m as [|m IH]; intros t df Hn CS HG.
    - exists []. split; [reflexivity|]. split; [reflexivity|]. intros [|j]; discriminate.
    - assert (Ht : t < n) by lia.
      destruct (one_period t df Ht CS HG) as [out [E [I1 [I2 I3]]]].
      cbn [n_step]. rewrite E. cbn [result_bind]. destruct m as [|m].
      + exists [out]. split; [reflexivity|]. split; [reflexivity|].
        intros [|[|j]] fr Hj; try discriminate. injection Hj as <-. rewrite Nat.add_0_r.
        split; [exact I1|]. split; [exact I3|]. split; [auto|]. intros fr' Z. discriminate.
      + assert (Ht2 : S t < n) by lia.
        destruct (next_frame_spec t out Ht2 I1 I3) as [df' [E' [C' [G' F']]]].
        rewrite E'. cbn [result_bind].
        assert (Hn2 : S t + S m = n) by lia.
        destruct (IH (S t) df' Hn2 C' G') as [frames [E2 [L2 H2]]].
        rewrite E2. cbn [result_bind]. exists (out :: frames). split; [reflexivity|].
        split; [simpl; lia|]. intros [|j] fr Hj.
        * injection Hj as <-. rewrite Nat.add_0_r. split; [exact I1|]. split; [exact I3|].
          split; [auto|]. intros fr' Hfr'. simpl in Hfr'.
          destruct (H2 0 fr' Hfr') as [_ [_ [H0 _]]]. specialize (H0 eq_refl).
          rewrite <- H0 in F'. clear - F'. revert F'. generalize fr'. induction out as [|r out IHo];
            intros l F'; destruct l; inversion F'; subst; constructor; auto.
        * simpl in Hj. destruct (H2 j fr Hj) as [A1 [A2 [A3 A4]]].
          replace (t + S j) with (S t + j) by lia. split; [exact A1|]. split; [exact A2|].
          split; [discriminate|]. exact A4.
  Qed.

  (** *** too few draws *)
  Lemma short_slice : forall A (l : list A) q a b, b <= q -> slice (firstn q l) a b = slice l a b.
  Proof.
    intros A l q a b H. apply nth_error_ext_eq. intros i. destruct (Nat.lt_ge_cases i (b - a)) as [L|L].
    - rewrite !slice_nth by exact L. apply nth_error_firstn_lt. lia.
    - unfold slice. rewrite (proj2 (nth_error_None _ _)), (proj2 (nth_error_None _ _)); [reflexivity| |];
        rewrite firstn_length; lia.
  Qed.

  Lemma n_step_short : forall q q', q < N * n \/ q' < N * n -> forall m t df, t + m = n -> N * t <= q -> N * t <= q' ->
    cross_section ids t df -> (forall id x, In (id, x) df -> good t x) -> 0 < m ->
    n_step env si order next_key n_exog (firstn q base) (firstn q' meas) m t df = ValueError.
  Proof.
    intros q q' HQ. induction m as [|m IH]; intros t df Hn Hq Hq' CS HG Hm; [lia|].
    assert (Ht : t < n) by lia.
    assert (Ldf : length df = N).
    { unfold N. apply (f_equal (@length _)) in CS. rewrite !map_length in CS. exact CS. }
    assert (NP : 0 < N) by (unfold N; destruct ids; [congruence|simpl; lia]).
    assert (EF : filter (fun r : index * individual => Nat.eqb (snd (fst r)) t) df = df).
    { apply filter_all. intros r Hr. apply Nat.eqb_eq. apply (in_map fst) in Hr. rewrite CS in Hr.
      apply in_map_iff in Hr. destruct Hr as [id [<- _]]. reflexivity. }
    assert (Hsub : N * S t - N * t = N) by (rewrite Nat.mul_succ_r; lia).
    assert (SL : forall A (l : list A) b, N * t <= b -> b < N * S t -> length (slice (firstn b l) (N * t) (N * S t)) <> N).
    { intros A l b H1 H2. unfold slice. rewrite firstn_length, skipn_length, firstn_length. lia. }
    destruct (one_period t df Ht CS HG) as [out [E [I1 [I2 I3]]]].
    cbn [n_step]. unfold frame, index in *. cbv zeta. rewrite EF, Ldf in E. rewrite EF, Ldf.
    destruct (Nat.lt_ge_cases q (N * S t)) as [Q|Q].
    { unfold simulate_period. unfold frame, index in *. rewrite ?Ldf. rewrite (proj2 (Nat.eqb_neq _ _) (SL _ base q Hq Q)). reflexivity. }
    destruct (Nat.lt_ge_cases q' (N * S t)) as [Q'|Q'].
    { unfold simulate_period. unfold frame, index in *. rewrite ?Ldf. rewrite (proj2 (Nat.eqb_neq _ _) (SL _ meas q' Hq' Q')), andb_false_r. reflexivity. }
    rewrite !short_slice by assumption. rewrite E. cbn [result_bind]. destruct m as [|m].
    - exfalso. replace (S t) with n in * by lia. lia.
    - assert (Ht2 : S t < n) by lia.
      destruct (next_frame_spec t out Ht2 I1 I3) as [df' [E' [C' [G' F']]]].
      rewrite E'. cbn [result_bind]. rewrite (IH (S t) df'); [reflexivity|lia|exact Q|exact Q'|exact C'|exact G'|lia].
  Qed.

  (** *** the panel *)
  Lemma In_panel_index : forall id t m, In (id, t) (panel_index ids m) <-> In id ids /\ t < m.
  Proof.
    intros. unfold panel_index. rewrite in_flat_map. split.
    - intros [x [H1 H2]]. apply in_map_iff in H2. destruct H2 as [y [[= <- <-] Hy]].
      apply in_seq in Hy. split; [exact H1|lia].
    - intros [H1 H2]. exists id. split; [exact H1|]. apply in_map_iff. exists t.
      split; [reflexivity|]. apply in_seq. lia.
  Qed.

  Lemma panel_index_sorted : forall m, StronglySorted index_lt (panel_index ids m).
  Proof.
    intros m. unfold panel_index. clear - INC. induction ids as [|id l IH]; simpl in *; [constructor|].
    apply StronglySorted_app; [apply map_seq_sorted|apply IH; tauto|].
    intros x y Hx Hy. apply in_map_iff in Hx. destruct Hx as [t [<- _]].
    apply in_flat_map in Hy. destruct Hy as [id' [H1 H2]]. apply in_map_iff in H2. destruct H2 as [u [<- _]].
    left. simpl. apply INC. exact H1.
  Qed.

  Definition panel_row (df : frame individual) (panel : frame outcome) (id t : nat) (o : outcome) : Prop :=
    exists p, simulated t p ((id, t), o) /\
      (t = 0 -> In ((id, 0), o_ind o) df) /\
      (forall o', In ((id, S t), o') panel -> next_state env n_exog o = Ok (o_ind o')).

  Lemma panel_spec : forall df, cross_section ids 0 df -> (forall id x, In (id, x) df -> good 0 x) ->
    exists frames, n_step env si order next_key n_exog base meas n 0 df = Ok frames /\
      map fst (sort_index (concat frames)) = panel_index ids n /\
      forall id t o, In ((id, t), o) (sort_index (concat frames)) ->
        panel_row df (sort_index (concat frames)) id t o.
  Proof.
    intros df CS HG.
    destruct (n_step_spec n 0 df (Nat.add_0_l n) CS HG) as [frames [E [L H]]].
    exists frames. split; [exact E|]. cbn [Nat.add] in H.
    assert (Hin : forall i o, In (i, o) (concat frames) <->
              exists j fr p, nth_error frames j = Some fr /\ nth_error fr p = Some (i, o)).
    { intros i o. rewrite in_concat. split.
      - intros [fr [H1 H2]]. apply In_nth_error in H1. apply In_nth_error in H2.
        destruct H1 as [j H1], H2 as [p H2]. eauto.
      - intros [j [fr [p [H1 H2]]]]. exists fr. split; eapply nth_error_In; eauto. }
    assert (P : Permutation (map fst (concat frames)) (panel_index ids n)).
    { rewrite concat_map.
      assert (Z : map (map fst) frames = map (fun t => map (fun id => (id, t)) ids) (seq 0 n)).
      { apply nth_error_ext_eq. intros j. rewrite !nth_error_map. unfold frame, index in *.
        destruct (nth_error frames j) as [fr|] eqn:Hj; cbn [option_map].
        - rewrite Proof_CoreStateSpace.nth_error_seq0 by (rewrite <- L; eapply nth_error_lt; eauto).
          cbn [option_map]. f_equal. apply (H j fr Hj).
        - apply nth_error_None in Hj. replace (nth_error (seq 0 n) j) with (@None nat); [reflexivity|].
          symmetry. apply nth_error_None. rewrite seq_length. lia. }
      rewrite Z. apply NoDup_Permutation.
      - rewrite <- flat_map_concat_map. apply NoDup_flat_map_intro.
        + apply seq_NoDup.
        + intros t _. apply FinFun.Injective_map_NoDup; [intros a b Q; congruence|].
          apply increasing_NoDup, INC.
        + intros t t' z _ _ H1 H2. apply in_map_iff in H1. apply in_map_iff in H2.
          destruct H1 as [a [<- _]], H2 as [b [Q _]]. congruence.
      - apply sorted_lt_NoDup, panel_index_sorted.
      - intros [id t]. rewrite In_panel_index, in_concat. split.
        + intros [l [H1 H2]]. apply in_map_iff in H1. destruct H1 as [t' [<- Ht]].
          apply in_map_iff in H2. destruct H2 as [id' [[= <- <-] Hi]]. apply in_seq in Ht. split; [exact Hi|lia].
        + intros [H1 H2]. exists (map (fun id => (id, t)) ids). split.
          * apply in_map_iff. exists t. split; [reflexivity|]. apply in_seq. lia.
          * apply in_map_iff. eauto. }
    destruct (sort_index_index _ _ _ (panel_index_sorted n) P) as [S1 S2].
    split; [exact S1|].
    assert (Hpos : forall id t o j fr p, nth_error frames j = Some fr -> nth_error fr p = Some ((id, t), o) ->
               j = t /\ nth_error ids p = Some id).
    { intros id t o j fr p Hj Hp. destruct (H j fr Hj) as [A1 _].
      apply (f_equal (fun l => nth_error l p)) in A1. rewrite !nth_error_map, Hp in A1. simpl in A1.
      destruct (nth_error ids p) as [id'|]; [|discriminate]. simpl in A1. split; congruence. }
    intros id t o Hi. apply (Permutation_in _ S2) in Hi. apply Hin in Hi.
    destruct Hi as [j [fr [p [Hj Hp]]]]. destruct (Hpos _ _ _ _ _ _ Hj Hp) as [-> Hid].
    destruct (H t fr Hj) as [A1 [A2 [A3 A4]]].
    exists p. split; [apply A2; exact Hp|]. split.
    - intros ->. rewrite <- (A3 eq_refl). apply in_map_iff. exists ((id, 0), o).
      split; [reflexivity|]. eapply nth_error_In; eauto.
    - intros o' Ho'. apply (Permutation_in _ S2) in Ho'. apply Hin in Ho'.
      destruct Ho' as [j' [fr' [p' [Hj' Hp']]]]. destruct (Hpos _ _ _ _ _ _ Hj' Hp') as [-> Hid'].
      assert (p' = p).
      { apply (proj1 (NoDup_nth_error ids) (increasing_NoDup _ INC)); [|congruence].
        eapply nth_error_lt; eauto. }
      subst p'. specialize (A4 fr' Hj'). apply Forall2_nth_iff in A4. destruct A4 as [_ A4].
      exact (A4 p _ _ Hp Hp').
  Qed.
End Periods.

(** ** A period without rows *)
Lemma results_const : forall A (l : list nat) (x : A), results (map (fun _ => Ok x) l) = Ok (map (fun _ => x) l).
Proof. induction l as [|a l IH]; intros x; simpl; [reflexivity|]. rewrite IH. reflexivity. Qed.

Lemma empty_period_raises : forall env si order next_key t out,
  simulate_period env si order next_key t [] [] [] <> Ok out.
Proof.
  intros env si order next_key t out H. unfold simulate_period in H. simpl in H.
  destruct (en_wages env t) as [w| | | | |]; try discriminate.
  destruct (en_nonpecs env t) as [np| | | | |]; try discriminate.
  destruct (en_conts env t) as [c| | | | |]; try discriminate. cbn [result_bind] in H.
  unfold split_and_combine in H. cbn [split_dataframe map drop_duplicates isort] in H.
  set (args := [dense_dict VComplex (en_complex env t); dense_dict VMat w; dense_dict VMat np; dense_dict VMat c]) in *.
  unfold distribute in H.
  match type of H with context [order ?l] => destruct (order l) as [|k0 keys] end.
  - simpl in H. discriminate.
  - unfold distribute_over in H.
    change (split_dataframe r_key []) with (@nil (nat * frame sim_row)) in H.
    cbn [map app] in H. cbv zeta in H.
    set (call := fun idx : nat => simulate_group si (next_key t)
      (broadcast (k0 :: keys) idx (PDict []) :: map (broadcast (k0 :: keys) idx) args) []).
    change (result_bind (result_bind (match call k0 with
      | RVal _ => result_bind (results (map ret_val (map call (k0 :: keys))))
                    (fun vals => Ok (WDict (combine (k0 :: keys) vals)))
      | RTuple first => result_bind
            (results (map (fun i => results (map (ret_component i) (map call (k0 :: keys))))
                          (seq 0 (length first))))
            (fun lists => Ok (WTuple (map (combine (k0 :: keys)) lists)))
      end) (fun out : wrapped (frame (result outcome)) =>
          match out with
          | WDict d => Ok (sort_index (concat (map snd d)))
          | WPlain (RVal r) => Ok r
          | _ => OtherError
          end)) sequence_frame = Ok out) in H.
    assert (E : forall idx, call idx = RVal [((0, 0), OtherError)]) by reflexivity.
    rewrite (E k0) in H.
    assert (E2 : map ret_val (map call (k0 :: keys)) =
      map (fun _ => Ok [((0, 0), @OtherError outcome)]) (k0 :: keys)).
    { rewrite map_map. apply map_ext. intros a. rewrite E. reflexivity. }
    rewrite E2, results_const in H. cbn [result_bind] in H.
    match type of H with sequence_frame ?f = _ => set (fr := f) in H end.
    assert (Hin : exists r, In r fr /\ snd r = OtherError).
    { exists ((0, 0), OtherError). split; [|reflexivity]. unfold fr, sort_index.
      eapply Permutation_in; [symmetry; apply Permutation_isort|]. simpl. auto. }
    destruct Hin as [r [H1 H2]]. apply sequence_frame_Ok in H.
    apply In_nth_error in H1. destruct H1 as [p Hp].
    destruct (Forall2_nth_l _ _ _ _ _ _ _ H Hp) as [o [_ [_ Ho]]]. congruence.
Qed.

Lemma result_all_not_Ok : forall A B (f : A -> result B) l a, In a l -> (forall b, f a <> Ok b) ->
  forall bs, result_all (map f l) <> Ok bs.
Proof.
  intros A B f l a Ha Hf bs H. apply In_nth_error in Ha. destruct Ha as [n Hn].
  destruct (nth_error_result_all _ _ _ _ _ _ _ H Hn) as [b [_ Hb]]. exact (Hf b Hb).
Qed.

Lemma one_step_gap : forall env si order next_key n base base_wage df t panel,
  t < n -> (forall id x, ~ In ((id, t), x) df) ->
  one_step env si order next_key n base base_wage df <> Ok panel.
Proof.
  intros env si order next_key n base base_wage df t panel Ht Hg H. unfold one_step in H.
  match type of H with result_bind ?x _ = _ => destruct x as [fr| | | | |] eqn:E end; try discriminate.
  revert E. apply result_all_not_Ok with (a := t); [apply in_seq; lia|].
  intros out. assert (Ef : forall A (l : list A), filter (fun r : index * individual => snd (fst r) =? t) df = [] /\
                             compress (rows_of_period df t) l = []).
  { intros A. clear - Hg. unfold rows_of_period, frame, index in *. induction df as [|[[id t'] x] df IH]; intros l; simpl; [auto|].
    assert (t' =? t = false).
    { apply Nat.eqb_neq. intros ->. exact (Hg id x (or_introl eq_refl)). }
    assert (Hg' : forall id x, ~ In ((id, t), x) df) by (intros i y Hi; exact (Hg i y (or_intror Hi))).
    destruct l as [|y l].
    - split; [|reflexivity]. rewrite H. apply (IH Hg' []).
    - rewrite H. apply (IH Hg' l). }
  cbv beta. pose proof (proj1 (Ef _ base)) as E1. unfold frame, index in *.
  rewrite E1, (proj2 (Ef _ base)), (proj2 (Ef _ (measurement_errors si base_wage))).
  apply empty_period_raises.
Qed.
