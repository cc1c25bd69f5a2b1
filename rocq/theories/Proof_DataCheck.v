(** Which data sets are accepted. *)
From Coq Require Import List ZArith Bool String Reals Lia Sorted Permutation.
From Verif Require Import Base Proof_Base Model_Choices Proof_Choices Model_Data Spec_Data Proof_Data.
Import ListNotations.
Open Scope Z_scope.

Definition ids_check (data : list row) : Prop := unique_ids data = map Z.of_nat (seq 0 (List.length (unique_ids data))).
Definition periods_check (m : info) (data : list row) : Prop := forall r, In r data -> r_period r <= i_periods m - 1.

Lemma panel_sound : forall m data, (forall r, In r data -> 0 <= r_period r) -> ids_check data -> periods_check m data ->
  NoDup (keys_of data) -> check_complete data = true -> complete_panel m data.
Proof.
  intros m data P I L N C. split; [|split].
  - exists (Z.of_nat (List.length (unique_ids data))). intros i. rewrite <- In_unique_ids, I, In_range, map_length, seq_length. reflexivity.
  - intros r R. pose proof (proj1 (check_complete_iff data N P) C) as C'. destruct (C' r R) as [k K]. exists k. split.
    + assert (X : In k (periods_of data (r_id r))).
      { apply K. assert (Y : 0 <= r_period r <= k) by (apply K; apply In_periods_of; eauto). lia. }
      apply In_periods_of in X. destruct X as [q [Q [_ E]]]. specialize (L q Q). lia.
    + intros t. rewrite <- K. rewrite In_periods_of. reflexivity.
  - apply NoDup_keys_iff. exact N.
Qed.

Lemma panel_complete : forall m data, individuals_in_order data -> complete_panel m data ->
  ids_check data /\ periods_check m data /\ NoDup (keys_of data) /\ check_complete data = true.
Proof.
  intros m data O C. pose proof (period_nonneg m data C) as P. pose proof C as [[n C1] [C2 C3]].
  assert (N : NoDup (keys_of data)) by (apply NoDup_keys_iff; exact C3).
  split; [|split; [|split; [exact N|]]].
  - assert (E : unique_ids data = map Z.of_nat (seq 0 (Z.to_nat n))).
    { apply sorted_unique; [apply sorted_ids; exact O | apply sorted_range |].
      intros i. rewrite In_unique_ids, C1, In_range. lia. }
    unfold ids_check. rewrite E. rewrite map_length, seq_length. reflexivity.
  - intros r R. destruct (C2 r R) as [k [K H]]. assert (Y : 0 <= r_period r <= k) by (apply H; eauto). lia.
  - apply (check_complete_iff data N P). intros r R. destruct (C2 r R) as [k [K H]]. exists k. intros t. rewrite In_periods_of. apply H.
Qed.

(** ** Lagged choices *)

Lemma NoDup_map_inj_on : forall A B (f : A -> B) l x y, NoDup (map f l) -> In x l -> In y l -> f x = f y -> x = y.
Proof.
  induction l as [|z l IH]; intros x y N X Y E; [destruct X|]. cbn in N. inversion N as [|? ? NI N']; subst.
  destruct X as [->|X], Y as [->|Y]; auto.
  - exfalso. apply NI. rewrite E. apply in_map. exact Y.
  - exfalso. apply NI. rewrite <- E. apply in_map. exact X.
Qed.

Section Compare.
  Context {X : Type}.
  Variables (label : X -> nat) (P : X -> bool) (F : X -> Z) (G : X -> option Z).
  Definition cmp_left (l : list X) : list (nat * Z) := map (fun x => (label x, F x)) (filter P l).
  Definition cmp_right (l : list X) : list (nat * Z) :=
    flat_map (fun x => match G x with Some v => [(label x, v)] | None => [] end) l.
  Lemma compare_same : forall l, (forall x, In x l -> (P x = true <-> G x <> None)) ->
    map fst (cmp_left l) = map fst (cmp_right l) /\
    (forallb (fun p => Z.eqb (snd (fst p)) (snd (snd p))) (combine (cmp_left l) (cmp_right l)) = true <->
     forall x v, In x l -> G x = Some v -> F x = v).
  Proof.
    unfold cmp_left, cmp_right. induction l as [|x l IH]; intros H; [split; [reflexivity|split; [intros _ x v []|reflexivity]]|].
    destruct (IH (fun y I => H y (or_intror I))) as [A B]. specialize (H x (or_introl eq_refl)). cbn [filter flat_map].
    destruct (P x); destruct (G x) as [v|] eqn:E.
    - cbn [map app combine forallb fst snd]. split; [f_equal; exact A|]. rewrite andb_true_iff, B, Z.eqb_eq. split.
      + intros [E1 E2] y w [<-|I] K; [congruence|auto].
      + intros K. split; [apply (K x v); auto; left; reflexivity|]. intros y w I. apply K. right. exact I.
    - exfalso. apply (proj1 H eq_refl). reflexivity.
    - exfalso. assert (Y : false = true) by (apply H; discriminate). discriminate.
    - cbn [app]. split; [exact A|]. rewrite B. split.
      + intros K y w [<-|I] Y; [congruence|eauto].
      + intros K y w I. apply K. right. exact I.
  Qed.
  Lemma compare_labels : forall l, NoDup (map label l) -> map fst (cmp_left l) = map fst (cmp_right l) ->
    forall x, In x l -> (P x = true <-> G x <> None).
  Proof.
    intros l N E x I.
    assert (L : In (label x) (map fst (cmp_left l)) <-> P x = true).
    { unfold cmp_left. rewrite map_map. cbn [fst]. rewrite in_map_iff. split.
      - intros [y [Y J]]. apply filter_In in J. destruct J as [J K].
        assert (y = x). { apply (NoDup_map_inj_on _ _ label l); auto. } subst y. exact K.
      - intros K. exists x. split; [reflexivity|]. apply filter_In. auto. }
    assert (R : In (label x) (map fst (cmp_right l)) <-> G x <> None).
    { unfold cmp_right. rewrite in_map_iff. split.
      - intros [[y v] [Y J]]. cbn in Y. subst y. apply in_flat_map in J. destruct J as [z [J K]].
        destruct (G z) as [w|] eqn:Gz; [|destruct K]. destruct K as [K|[]]. inversion K.
        assert (z = x). { apply (NoDup_map_inj_on _ _ label l); auto. } subst z. congruence.
      - intros K. destruct (G x) as [v|] eqn:Gx; [|contradiction]. exists (label x, v). split; [reflexivity|].
        apply in_flat_map. exists x. split; [exact I|]. rewrite Gx. left. reflexivity. }
    rewrite <- L, <- R, E. reflexivity.
  Qed.
End Compare.

Definition lag_value (categories : nat -> list string) (i : nat) (x : nat * row * option row) : option Z :=
  match snd x with
  | Some q => match choice_column i q with Some c => Some (code (categories i) (Some c)) | None => None end
  | None => None
  end.
Definition lag_code (categories : nat -> list string) (i : nat) (x : nat * row * option row) : Z :=
  code (categories (S i)) (choice_column (S i) (snd (fst x))).
Definition lag_later (i : nat) (x : nat * row * option row) : bool := negb (Z.leb (r_period (snd (fst x))) (Z.of_nat i)).

Lemma check_lag_eq : forall categories data i, check_lag categories data i =
  let l := with_shift [] 0 data in
  let left := cmp_left (fun x => fst (fst x)) (lag_later i) (lag_code categories i) l in
  let right := cmp_right (fun x => fst (fst x)) (lag_value categories i) l in
  if list_eq_dec Nat.eq_dec (map fst left) (map fst right) then
    check (forallb (fun p => Z.eqb (snd (fst p)) (snd (snd p))) (combine left right))
  else ValueError.
Proof.
  intros categories data i. unfold check_lag, cmp_left, cmp_right. cbv zeta.
  rewrite (flat_map_ext _ (fun x => match lag_value categories i x with Some v => [(fst (fst x), v)] | None => [] end)); [reflexivity|].
  intros [[k r] [q|]]; unfold lag_value; cbn; [|reflexivity]. destruct (choice_column i q); reflexivity.
Qed.

Lemma labels_with_shift : forall data before label, map (fun x => fst (fst x)) (with_shift before label data) = seq label (List.length data).
Proof. induction data as [|r data IH]; intros before label; cbn; [reflexivity|]. rewrite IH. reflexivity. Qed.

Lemma code_in : forall categories c, In c categories -> exists n, nth_error categories n = Some c /\ code categories (Some c) = Z.of_nat n.
Proof.
  intros categories c I. unfold code. destruct (find (fun p => String.eqb (snd p) c) (enumerate categories)) as [[n d]|] eqn:F.
  - apply find_some in F. destruct F as [F E]. cbn in E. apply String.eqb_eq in E. subst d. apply In_enumerate in F. exists n. auto.
  - exfalso. apply In_nth_error in I. destruct I as [n N]. pose proof (find_none _ _ F (n, c)) as H.
    cbn in H. rewrite String.eqb_refl in H. assert (Y : true = false) by (apply H; apply In_enumerate; exact N). discriminate.
Qed.
Lemma code_inj : forall categories a b, In a categories -> In b categories ->
  code categories (Some a) = code categories (Some b) -> a = b.
Proof.
  intros categories a b A B E. destruct (code_in categories a A) as [n [N1 N2]]. destruct (code_in categories b B) as [k [K1 K2]].
  assert (n = k) by lia. subst k. congruence.
Qed.

(** The columns of choices have known values. *)
Definition columns_known (m : info) (data : list row) (i : nat) : Prop :=
  forall r, In r data -> exists c, In c (i_choices m) /\ choice_column i r = Some c.

Section Lag.
  Variables (m : info) (data : list row) (categories : nat -> list string).
  Hypothesis C : complete_panel m data.
  Hypothesis O : in_order data.

  Lemma lag_0 : columns_known m data 0 -> columns_known m data 1 ->
    categories 1%nat = categories 0%nat -> incl (i_choices m) (categories 0%nat) ->
    (check_lag categories data 0 = Ok tt <-> first_lag_follows data).
  Proof.
    intros K0 K1 SAME INC. rewrite check_lag_eq. cbv zeta.
    assert (H : forall x, In x (with_shift [] 0 data) -> (lag_later 0 x = true <-> lag_value categories 0 x <> None)).
    { intros x I. apply In_with_shift in I. destruct I as [k [r [K ->]]]. unfold lag_later, lag_value. cbn [fst snd].
      assert (Ir : In r data) by (apply (nth_error_In _ k); exact K). pose proof (period_nonneg m data C r Ir) as NN.
      rewrite negb_true_iff, Z.leb_gt. pose proof (shifted_is_none m data C O k r K) as SN.
      destruct (shifted (rev (firstn k data)) r) as [q|] eqn:S.
      - assert (Z0 : r_period r <> 0) by (intros Z0; apply SN in Z0; discriminate).
        apply (shifted_is m data C O k r K) in S. destruct S as [Iq _].
        destruct (K0 q Iq) as [c [_ ->]]. split; [discriminate|]. intros _. cbn. lia.
      - assert (Z0 : r_period r = 0) by (apply SN; reflexivity). rewrite Z0. cbn. split; [lia|intros X; contradiction]. }
    destruct (compare_same (fun x => fst (fst x)) (lag_later 0) (lag_code categories 0) (lag_value categories 0) _ H) as [A B].
    destruct (list_eq_dec Nat.eq_dec _ _) as [_|NE]; [|contradiction]. rewrite check_ok, B. split.
    - intros V r q NX. pose proof NX as [Ir [Iq _]]. apply In_nth_error in Iq. destruct Iq as [k Kq].
      apply (shifted_is m data C O k q Kq) in NX.
      destruct (K0 r Ir) as [c [Ic Ec]]. destruct (K1 q (nth_error_In _ _ Kq)) as [d [Id Ed]].
      specialize (V (k, q, Some r) (code (categories 0%nat) (Some c))). rewrite Ed. cbn in Ec. rewrite Ec. f_equal.
      apply (code_inj (categories 0%nat)); [auto|auto|].
      unfold lag_code, lag_value in V. cbn [fst snd] in V. rewrite Ed, SAME in V. apply V.
      + apply In_with_shift. exists k, q. rewrite NX. auto.
      + cbn. rewrite Ec. reflexivity.
    - intros V x v I E. apply In_with_shift in I. destruct I as [k [r [K ->]]]. unfold lag_code, lag_value in *. cbn [fst snd] in *.
      destruct (shifted (rev (firstn k data)) r) as [q|] eqn:S; [|discriminate]. apply (shifted_is m data C O k r K) in S.
      specialize (V q r S). cbn [choice_column] in E. rewrite V, SAME. destruct (r_choice q); [|discriminate]. congruence.
  Qed.

  (** Whatever the order of the rows. *)
  Lemma lag_1_rejects : columns_known m data 0 -> columns_known m data 1 ->
    check_lag categories data 0 = Ok tt -> check_lag categories data 1 = Ok tt ->
    forall r, In r data -> r_period r = 0.
  Proof.
    intros K0 K1 A B.
    assert (N : NoDup (map (fun x => fst (fst x)) (with_shift [] 0 data))) by (rewrite labels_with_shift; apply seq_NoDup).
    assert (H : forall i, check_lag categories data i = Ok tt -> forall x, In x (with_shift [] 0 data) ->
                (lag_later i x = true <-> lag_value categories i x <> None)).
    { intros i Hi. rewrite check_lag_eq in Hi. cbv zeta in Hi. destruct (list_eq_dec Nat.eq_dec _ _) as [E|]; [|discriminate].
      apply (compare_labels _ _ _ _ _ N E). }
    assert (S : forall x, In x (with_shift [] 0 data) -> (lag_value categories 0 x <> None <-> lag_value categories 1 x <> None)).
    { intros x I. apply In_with_shift in I. destruct I as [k [r [K ->]]]. unfold lag_value. cbn [snd].
      destruct (shifted (rev (firstn k data)) r) as [q|] eqn:S; [|reflexivity].
      destruct (shifted_some data k r q K S) as [a [_ [Na _]]]. apply nth_error_In in Na.
      destruct (K0 q Na) as [c [_ ->]]. destruct (K1 q Na) as [d [_ ->]]. split; discriminate. }
    intros r I. pose proof (period_nonneg m data C r I) as NN. destruct (Z.eq_dec (r_period r) 0) as [|NZ]; [assumption|exfalso].
    pose proof C as [_ [C2 _]]. destruct (C2 r I) as [k [_ Hk]]. assert (X : 0 <= r_period r <= k) by (apply Hk; eauto).
    destruct (proj2 (Hk 1) ltac:(lia)) as [q [Iq [_ P1]]]. apply In_nth_error in Iq. destruct Iq as [n Nq].
    set (x := (n, q, shifted (rev (firstn n data)) q)).
    assert (Ix : In x (with_shift [] 0 data)) by (apply In_with_shift; exists n, q; auto).
    assert (L0 : lag_later 0 x = true) by (unfold lag_later, x; cbn [fst snd]; rewrite P1; reflexivity).
    apply (H _ A x Ix), (S x Ix), (H _ B x Ix) in L0. unfold lag_later, x in L0. cbn [fst snd] in L0. rewrite P1 in L0. discriminate.
  Qed.
End Lag.

(** ** Experience and values *)

Lemma nth_None : forall A (l : list (option A)) j x, nth j l None = Some x <-> nth_error l j = Some (Some x).
Proof.
  intros A l j x. destruct (nth_error l j) as [y|] eqn:E.
  - rewrite (nth_error_nth l j None E). split; intros H; [subst; reflexivity|inversion H; reflexivity].
  - apply nth_error_None in E. rewrite nth_overflow by exact E. split; discriminate.
Qed.
Lemma present_iff : forall A (l : list (option A)) j, present (nth j l None) = true <-> exists x, nth_error l j = Some (Some x).
Proof.
  intros A l j. destruct (nth j l None) as [x|] eqn:E.
  - apply nth_None in E. split; [eauto|reflexivity].
  - split; [discriminate|]. intros [x X]. apply nth_None in X. congruence.
Qed.

Definition choice_dec : forall x y : option string, {x = y} + {x <> y}.
Proof. decide equality. apply string_dec. Defined.

Section Exp.
  Variables (m : info) (data : list row).
  Hypothesis C : complete_panel m data.
  Hypothesis O : in_order data.

  Lemma check_experience_iff : forall j c,
    (forall r, In r data -> exists e, nth_error (r_exps r) j = Some (Some e)) ->
    (check_experience data j c = true <->
     forall r q, next_period data r q -> exists e, nth_error (r_exps r) j = Some (Some e) /\
      ((r_choice r = Some c -> nth_error (r_exps q) j = Some (Some (e + 1))) /\
       (r_choice r <> Some c -> nth_error (r_exps q) j = Some (Some e)))).
  Proof.
    intros j c P. unfold check_experience. rewrite forallb_forall.
    assert (IS : forall o : option string, match o with Some d => if String.eqb d c then 1 else 0 | None => 0 end =
                 if choice_dec o (Some c) then 1 else 0).
    { intros [d|].
      - destruct (choice_dec (Some d) (Some c)) as [E|E].
        + inversion E. rewrite String.eqb_refl. reflexivity.
        + destruct (String.eqb_spec d c) as [->|]; [contradiction|reflexivity].
      - destruct (choice_dec None (Some c)); [discriminate|reflexivity]. }
    split.
    - intros H r q NX. pose proof NX as [Ir [Iq _]]. apply In_nth_error in Iq. destruct Iq as [k Kq].
      apply (shifted_is m data C O k q Kq) in NX.
      assert (Ix : In (k, q, Some r) (with_shift [] 0 data)) by (apply In_with_shift; exists k, q; rewrite NX; auto).
      specialize (H _ Ix). cbn [fst snd] in H.
      destruct (P r Ir) as [e E]. destruct (P q (nth_error_In _ _ Kq)) as [f F]. exists e. split; [exact E|].
      apply nth_None in E, F. rewrite E, F, IS in H. apply nth_None in F. rewrite F. apply Z.eqb_eq in H.
      destruct (choice_dec (r_choice r) (Some c)) as [Y|Y]; split; intros W; try contradiction; do 2 f_equal; lia.
    - intros H x Ix. apply In_with_shift in Ix. destruct Ix as [k [q [Kq ->]]]. cbn [fst snd].
      destruct (shifted (rev (firstn k data)) q) as [r|] eqn:S; [|reflexivity]. apply (shifted_is m data C O k q Kq) in S.
      destruct (H r q S) as [e [E [Y N]]]. apply nth_None in E. rewrite E, IS.
      destruct (choice_dec (r_choice r) (Some c)) as [W|W].
      + specialize (Y W). apply nth_None in Y. rewrite Y. apply Z.eqb_refl.
      + specialize (N W). apply nth_None in N. rewrite N. apply Z.eqb_eq. lia.
  Qed.
End Exp.

Lemma In_somes : forall A (l : list (option A)) x, In x (somes l) <-> In (Some x) l.
Proof.
  intros A l x. unfold somes. rewrite in_flat_map. split.
  - intros [[y|] [I J]]; [|destruct J]. destruct J as [->|[]]. exact I.
  - intros I. exists (Some x). split; [exact I|left; reflexivity].
Qed.
Lemma nunique_le : forall A eqd (l : list (option A)) n, (nunique eqd l <= n)%nat <->
  forall levels, NoDup levels -> (forall x, In x levels -> In (Some x) l) -> (List.length levels <= n)%nat.
Proof.
  intros A eqd l n. unfold nunique. split.
  - intros H levels N I. apply Nat.le_trans with (List.length (drop_duplicates eqd (somes l))); [|exact H].
    apply NoDup_incl_length; [exact N|]. intros x X. apply In_drop_duplicates, In_somes. auto.
  - intros H. apply H; [apply NoDup_drop_duplicates|]. intros x X. apply In_drop_duplicates, In_somes in X. exact X.
Qed.
Lemma known_iff : forall choices c, known choices c = true <-> exists d, In d choices /\ c = Some d.
Proof.
  intros choices [c|]; cbn.
  - rewrite mem_iff. split; [eauto|]. intros [d [I E]]. inversion E; subst. exact I.
  - split; [discriminate|]. intros [d [_ E]]. discriminate.
Qed.

(** All checks in readable form. *)
Lemma check_data_iff : forall m categories data, check_estimation_data m categories data = Ok tt <->
  values_ok m data /\ ids_check data /\ periods_check m data /\
  (1 < i_periods m -> forall i, (S i < i_lags m)%nat -> check_lag categories data i = Ok tt) /\
  (forall j c, nth_error (i_exp_choices m) j = Some c -> check_experience data j c = true) /\
  NoDup (keys_of data) /\ check_complete data = true.
Proof.
  intros m categories data. unfold check_estimation_data. cbv zeta.
  rewrite !all_checks_app, !all_checks_map. fold (unique_ids data). fold (keys_of data).
  rewrite (all_checks_ok [_; _; _; _]), (all_checks_ok [check (forallb _ data)]), (all_checks_ok [_; _]).
  assert (L : all_checks (if (1 <? i_periods m) && Nat.ltb 0 (i_lags m) then map (check_lag categories data) (seq 0 (i_lags m - 1)) else []) = Ok tt <->
              (1 < i_periods m -> forall i, (S i < i_lags m)%nat -> check_lag categories data i = Ok tt)).
  { destruct (Z.ltb_spec 1 (i_periods m)) as [P|P]; cbn [andb].
    - destruct (Nat.ltb_spec 0 (i_lags m)) as [Q|Q].
      + rewrite all_checks_map. split.
        * intros H _ i I. apply H. apply in_seq. lia.
        * intros H i I. apply H; [exact P|]. apply in_seq in I. lia.
      + split; [intros _ _ i I; lia|reflexivity].
    - split; [intros _ H; lia|reflexivity]. }
  rewrite L. clear L.
  assert (K : (if list_eq_dec pair_dec (drop_duplicates pair_dec (keys_of data)) (keys_of data) then true else false) = true <-> NoDup (keys_of data)).
  { destruct (list_eq_dec _ _ _) as [E|E]; split; intros H; try reflexivity; try discriminate.
    - rewrite <- E. apply NoDup_drop_duplicates.
    - exfalso. apply E. apply drop_duplicates_NoDup_id. exact H. }
  assert (D : (if list_eq_dec Z.eq_dec (unique_ids data) (map Z.of_nat (seq 0 (List.length (unique_ids data)))) then true else false) = true <-> ids_check data).
  { unfold ids_check. destruct (list_eq_dec Z.eq_dec _ _) as [E|E].
    - split; [intros _; exact E|reflexivity].
    - split; [discriminate|intros H; exfalso; apply E; exact H]. }
  assert (W : forall r, match r_wage r with Some w => if Rlt_dec 0 w then true else false | None => true end = true <->
                        forall w, r_wage r = Some w -> (0 < w)%R).
  { intros r. destruct (r_wage r) as [w|]; [|split; [discriminate|reflexivity]].
    destruct (Rlt_dec 0 w) as [P|P]; split; intros H; try reflexivity; try discriminate.
    - intros v E. inversion E; subst. exact P.
    - exfalso. apply P. apply H. reflexivity. }
  split.
  - intros [A [LK [LG [OB [PR [EX ED]]]]]].
    assert (A1 := A _ (or_introl eq_refl)). assert (A2 := A _ (or_intror (or_introl eq_refl))).
    assert (A3 := A _ (or_intror (or_intror (or_introl eq_refl)))). assert (A4 := A _ (or_intror (or_intror (or_intror (or_introl eq_refl))))).
    assert (E1 := ED _ (or_introl eq_refl)). assert (E2 := ED _ (or_intror (or_introl eq_refl))).
    specialize (PR _ (or_introl eq_refl)). clear A ED.
    rewrite check_ok in *. rewrite D in A1. rewrite K in E1. rewrite forallb_forall in A2, A3, A4, PR.
    split; [|split; [exact A1|split; [|split; [exact LG|split; [|split; [exact E1|exact E2]]]]]].
    + split.
      * intros r I. specialize (PR r I). apply andb_true_iff in PR. destruct PR as [PE PO]. rewrite forallb_forall in PE, PO.
        split; [apply known_iff; apply A3; exact I|]. split; [apply W; apply A4; exact I|]. split; [|split].
        -- intros i Hi. specialize (LK i ltac:(apply in_seq; lia)). rewrite check_ok, forallb_forall in LK. apply known_iff. apply LK. exact I.
        -- intros j Hj. apply present_iff. apply PE. apply in_seq. lia.
        -- intros j Hj. apply present_iff. apply PO. apply in_seq. lia.
      * intros j n N levels ND IN. specialize (OB (j, n) ltac:(apply In_enumerate; exact N)). cbn [fst snd] in OB.
        rewrite check_ok in OB. apply Nat.leb_le in OB. apply (proj1 (nunique_le _ _ _ _) OB); [exact ND|].
        intros x X. destruct (IN x X) as [r [Ir E]]. apply in_map_iff. exists r. split; [apply nth_None; exact E|exact Ir].
    + intros r I. specialize (A2 r I). apply Z.leb_le in A2. exact A2.
    + intros j c N. specialize (EX (j, c) ltac:(apply In_enumerate; exact N)). cbn [fst snd] in EX. apply check_ok in EX. exact EX.
  - intros [[V OB] [A1 [A2 [LG [EX [E1 E2]]]]]].
    split; [|split; [|split; [exact LG|split; [|split; [|split]]]]].
    + intros x [<-|[<-|[<-|[<-|[]]]]]; apply check_ok.
      * apply D. exact A1.
      * apply forallb_forall. intros r I. apply Z.leb_le. apply A2. exact I.
      * apply forallb_forall. intros r I. apply known_iff. apply V. exact I.
      * apply forallb_forall. intros r I. apply W. apply V. exact I.
    + intros i Hi. apply in_seq in Hi. apply check_ok, forallb_forall. intros r I. apply known_iff. apply V; [exact I|lia].
    + intros [j n] I. apply In_enumerate in I. cbn [fst snd]. apply check_ok, Nat.leb_le, nunique_le.
      intros levels ND IN. apply (OB j n I levels ND). intros x X. specialize (IN x X). apply in_map_iff in IN.
      destruct IN as [r [E Ir]]. apply nth_None in E. eauto.
    + intros x [<-|[]]. apply check_ok, forallb_forall. intros r I. apply andb_true_iff. split; apply forallb_forall; intros j J; apply in_seq in J; apply present_iff; apply V; auto; lia.
    + intros [j c] I. apply In_enumerate in I. cbn [fst snd]. apply check_ok. apply EX. exact I.
    + intros x [<-|[<-|[]]]; apply check_ok; [apply K; exact E1|exact E2].
Qed.

(** ** Accepted data *)

Lemma values_columns : forall m data i, values_ok m data -> (i <= i_lags m)%nat -> columns_known m data i.
Proof.
  intros m data i [V _] L r I. destruct (V r I) as [V0 [_ [V1 _]]]. destruct i as [|i]; [exact V0|]. apply V1. lia.
Qed.

Theorem accepted_complete : forall m categories data, (forall r, In r data -> 0 <= r_period r) ->
  check_estimation_data m categories data = Ok tt -> complete_panel m data /\ values_ok m data.
Proof.
  intros m categories data NN H. apply check_data_iff in H. destruct H as [V [A1 [A2 [_ [_ [E1 E2]]]]]].
  split; [apply panel_sound; auto|exact V].
Qed.

Theorem three_lags : forall m categories data, (forall r, In r data -> 0 <= r_period r) ->
  check_estimation_data m categories data = Ok tt -> (3 <= i_lags m)%nat -> forall r, In r data -> r_period r = 0.
Proof.
  intros m categories data NN H L r I. destruct (accepted_complete m categories data NN H) as [C V].
  apply check_data_iff in H. destruct H as [_ [_ [P [G _]]]].
  destruct (Z.le_gt_cases (i_periods m) 1) as [S|S].
  - specialize (P r I). specialize (NN r I). lia.
  - apply (lag_1_rejects m data categories C); try (apply (values_columns m data); [exact V|lia]); auto; apply G; auto; lia.
Qed.

Theorem accepted_iff : forall m categories data,
  (forall r, In r data -> 0 <= r_period r) -> individuals_in_order data -> in_order data ->
  categories 1%nat = categories 0%nat -> incl (i_choices m) (categories 0%nat) ->
  (check_estimation_data m categories data = Ok tt <->
   values_ok m data /\ complete_panel m data /\ experience_follows m data /\
   ((2 <= i_lags m)%nat -> first_lag_follows data) /\
   ((3 <= i_lags m)%nat -> forall r, In r data -> r_period r = 0)).
Proof.
  intros m categories data NN IO O SAME INC. split.
  - intros H. destruct (accepted_complete m categories data NN H) as [C V]. pose proof (three_lags m categories data NN H) as T3.
    apply check_data_iff in H. destruct H as [_ [A1 [A2 [LG [EX [E1 E2]]]]]].
    split; [exact V|]. split; [exact C|]. split; [|split].
    + intros r q j c NX N.
      assert (Hj : (j < List.length (i_exp_choices m))%nat) by (apply nth_error_Some; congruence).
      apply (proj1 (check_experience_iff m data C O j c (fun r I => proj1 (proj2 (proj2 (proj2 (proj1 V r I)))) j Hj)) (EX j c N) r q NX).
    + intros L. destruct (Z.le_gt_cases (i_periods m) 1) as [S|S].
      * intros r q [Ir [Iq [_ E]]]. specialize (A2 q Iq). specialize (NN r Ir). lia.
      * apply (lag_0 m data categories C O); auto; try (apply (values_columns m data); [exact V|lia]).
    + exact T3.
  - intros [V [C [E [L2 L3]]]]. destruct (panel_complete m data IO C) as [A1 [A2 [E1 E2]]].
    apply check_data_iff. split; [exact V|]. split; [exact A1|]. split; [exact A2|]. split; [|split; [|split; [exact E1|exact E2]]].
    + intros P i Hi. destruct i as [|i].
      * apply (lag_0 m data categories C O); auto; try (apply (values_columns m data); [exact V|lia]).
      * assert (ZERO : forall r, In r data -> r_period r = 0) by (apply L3; lia).
        rewrite check_lag_eq. cbv zeta.
        assert (X : forall x, In x (with_shift [] 0 data) -> lag_later (S i) x = false /\ lag_value categories (S i) x = None).
        { intros x Ix. apply In_with_shift in Ix. destruct Ix as [k [r [K ->]]]. unfold lag_later, lag_value. cbn [fst snd].
          assert (Z0 : r_period r = 0) by (apply ZERO; apply (nth_error_In _ k); exact K).
          apply (shifted_is_none m data C O k r K) in Z0 as S. rewrite S, Z0. split; [|reflexivity].
          apply negb_false_iff, Z.leb_le. lia. }
        destruct (compare_same (fun x => fst (fst x)) (lag_later (S i)) (lag_code categories (S i)) (lag_value categories (S i)) (with_shift [] 0 data)) as [A B].
        { intros x Ix. destruct (X x Ix) as [-> ->]. split; [discriminate|intros W; contradiction]. }
        destruct (list_eq_dec Nat.eq_dec _ _) as [_|NE]; [|contradiction]. apply check_ok, B.
        intros x v Ix G. destruct (X x Ix) as [_ G']. congruence.
    + intros j c N. apply (check_experience_iff m data C O j c).
      * assert (Hj : (j < List.length (i_exp_choices m))%nat) by (apply nth_error_Some; congruence).
        intros r I. exact (proj1 (proj2 (proj2 (proj2 (proj1 V r I)))) j Hj).
      * intros r q NX. exact (E r q j c NX N).
Qed.

(** ** Simulated data *)

Lemma nunique_one : forall A eqd (l : list (option A)), (forall x, In x l -> x <> None) -> l <> [] ->
  (nunique eqd l = 1%nat <-> forall x y, In x l -> In y l -> x = y).
Proof.
  intros A eqd l P NE. unfold nunique. split.
  - intros H x y X Y. destruct x as [x|]; [|exfalso; apply (P None X); reflexivity].
    destruct y as [y|]; [|exfalso; apply (P None Y); reflexivity].
    apply In_somes, (In_drop_duplicates _ eqd) in X. apply In_somes, (In_drop_duplicates _ eqd) in Y.
    destruct (drop_duplicates eqd (somes l)) as [|a [|b r]]; try discriminate. destruct X as [<-|[]], Y as [<-|[]]. reflexivity.
  - intros H. destruct l as [|[a|] l]; [contradiction| |exfalso; apply (P None (or_introl eq_refl)); reflexivity].
    assert (S : forall x, In x (drop_duplicates eqd (somes (Some a :: l))) -> x = a).
    { intros x X. apply In_drop_duplicates, In_somes in X. assert (E : Some x = Some a) by (apply H; [exact X|left; reflexivity]). congruence. }
    assert (IA : In a (drop_duplicates eqd (somes (Some a :: l)))) by (apply In_drop_duplicates, In_somes; left; reflexivity).
    pose proof (NoDup_drop_duplicates _ eqd (somes (Some a :: l))) as N.
    destruct (drop_duplicates eqd (somes (Some a :: l))) as [|b [|c r]]; [destruct IA|reflexivity|].
    exfalso. inversion N as [|? ? NI _]; subst. apply NI. rewrite (S b), (S c); [left; reflexivity| |]; cbn; auto.
Qed.

Theorem simulated_iff : forall m categories data, data <> [] ->
  (check_simulated_data m categories data = Ok tt <->
   check_estimation_data m categories data = Ok tt /\ types_ok m data /\ wages_ok m data).
Proof.
  intros m categories data NE. unfold check_simulated_data.
  destruct (check_estimation_data m categories data) as [[]| | | | |]; cbn [result_bind];
    try (split; [discriminate|intros [H _]; discriminate]).
  rewrite all_checks_app.
  assert (W : all_checks
     [ check (forallb (fun r => if known (i_wage_choices m) (r_choice r) then present (r_wage r) else true) data);
      check (forallb (fun r => if known (i_wage_choices m) (r_choice r) then true else negb (present (r_wage r))) data) ] = Ok tt <-> wages_ok m data).
  { assert (K : forall r, (exists c, In c (i_wage_choices m) /\ r_choice r = Some c) <-> known (i_wage_choices m) (r_choice r) = true).
    { intros r. symmetry. apply known_iff. }
    rewrite all_checks_ok. split.
    - intros H r I. assert (A := H _ (or_introl eq_refl)). assert (B := H _ (or_intror (or_introl eq_refl))).
      rewrite check_ok, forallb_forall in A, B. specialize (A r I). specialize (B r I). rewrite K.
      destruct (known _ _); destruct (r_wage r) as [w|]; try discriminate; split; intros X; eauto; try discriminate; destruct X; discriminate.
    - intros H x [<-|[<-|[]]]; apply check_ok, forallb_forall; intros r I; specialize (H r I); rewrite K in H;
        destruct (known _ _); destruct (r_wage r) as [w|]; cbn; try reflexivity.
      + destruct (proj2 H eq_refl). discriminate.
      + destruct (proj1 H ltac:(eauto)). reflexivity. }
  rewrite W. clear W.
  assert (T : all_checks (if Z.leb 2 (i_types m) then
       [ check (match somes (map r_type data) with [] => false | t :: ts => Z.leb (fold_left Z.max ts t) (i_types m - 1) end);
         check (forallb (fun r => present (r_type r)) data);
         check (forallb (fun i => Nat.eqb (nunique Z.eq_dec (map r_type (filter (fun r => Z.eqb (r_id r) i) data))) 1) (map r_id data)) ]
     else []) = Ok tt <-> types_ok m data).
  { unfold types_ok. destruct (Z.leb_spec 2 (i_types m)) as [L|L].
    2:{ split; [intros _ H; lia|reflexivity]. }
    rewrite all_checks_ok.
    assert (MX : forall ts, ts <> [] -> ((match ts with [] => false | t :: ts => Z.leb (fold_left Z.max ts t) (i_types m - 1) end) = true <-> forall t, In t ts -> t < i_types m)).
    { intros [|t ts] N; [contradiction|]. destruct (fold_max ts t) as [A B]. rewrite Z.leb_le. split.
      - intros H s S. specialize (B s S). lia.
      - intros H. specialize (H _ A). lia. }
    assert (PR : (forall r, In r data -> r_type r <> None) ->
      (forallb (fun i => Nat.eqb (nunique Z.eq_dec (map r_type (filter (fun r => Z.eqb (r_id r) i) data))) 1) (map r_id data) = true <->
       forall r q, In r data -> In q data -> r_id r = r_id q -> r_type r = r_type q)).
    { intros P. rewrite forallb_forall.
      assert (U : forall r, In r data -> (nunique Z.eq_dec (map r_type (filter (fun q => Z.eqb (r_id q) (r_id r)) data)) = 1%nat <->
         forall x y, In x (map r_type (filter (fun q => Z.eqb (r_id q) (r_id r)) data)) ->
                     In y (map r_type (filter (fun q => Z.eqb (r_id q) (r_id r)) data)) -> x = y)).
      { intros r I. apply nunique_one.
        - intros x X. apply in_map_iff in X. destruct X as [q [<- Q]]. apply filter_In in Q. apply P. apply Q.
        - intros E. assert (X : In (r_type r) (map r_type (filter (fun q => Z.eqb (r_id q) (r_id r)) data))).
          { apply in_map. apply filter_In. split; [exact I|apply Z.eqb_refl]. }
          rewrite E in X. destruct X. }
      split.
      - intros H r q R Q E. specialize (H (r_id q) (in_map r_id data q Q)). apply Nat.eqb_eq in H.
        apply (proj1 (U q Q) H); apply in_map; apply filter_In; (split; [assumption|]); apply Z.eqb_eq; congruence.
      - intros H i I. apply in_map_iff in I. destruct I as [r [<- R]]. apply Nat.eqb_eq. apply (U r R).
        intros x y X Y. apply in_map_iff in X, Y. destruct X as [a [<- A]], Y as [b [<- B]]. apply filter_In in A, B.
        destruct A as [A1 A2], B as [B1 B2]. apply Z.eqb_eq in A2, B2. apply H; auto; congruence. }
    split.
    - intros H _. assert (A := H _ (or_introl eq_refl)). assert (B := H _ (or_intror (or_introl eq_refl))).
      assert (D := H _ (or_intror (or_intror (or_introl eq_refl)))). rewrite check_ok in A, B, D. rewrite forallb_forall in B.
      assert (P : forall r, In r data -> r_type r <> None).
      { intros r I E. specialize (B r I). rewrite E in B. discriminate. }
      split; [|apply PR; assumption].
      intros r I. destruct (r_type r) as [t|] eqn:E; [|exfalso; apply (P r I E)]. exists t. split; [reflexivity|].
      assert (It : In t (somes (map r_type data))) by (apply In_somes; rewrite <- E; apply in_map; exact I).
      apply (proj1 (MX (somes (map r_type data)) ltac:(intros Z; rewrite Z in It; destruct It)) A t It).
    - intros H. specialize (H L). destruct H as [H1 H2].
      assert (P : forall r, In r data -> r_type r <> None) by (intros r I E; destruct (H1 r I) as [t [T _]]; congruence).
      intros x [<-|[<-|[<-|[]]]]; apply check_ok.
      + apply MX.
        * destruct data as [|r data]; [contradiction|]. destruct (H1 r (or_introl eq_refl)) as [t [T _]]. cbn. rewrite T. discriminate.
        * intros t I. apply In_somes, in_map_iff in I. destruct I as [r [E I]]. destruct (H1 r I) as [s [S X]]. congruence.
      + apply forallb_forall. intros r I. destruct (H1 r I) as [t [-> _]]. reflexivity.
      + apply PR; assumption. }
  rewrite T. tauto.
Qed.
