(** Proofs: draws of the likelihood and other individuals. *)
From Coq Require Import List Arith ZArith Bool Reals Lra Lia Sorting.Permutation Sorting.Sorted.
From Verif Require Import Base Proof_Base Model_CoreStateSpace Model_StateSpace Proof_StateSpace Model_Parallel Model_Solve Spec_Solve
  Model_ConditionalDraws Model_Likelihood Spec_Likelihood Proof_Likelihood Proof_LikelihoodRows Proof_LikelihoodPanel
  Model_LikelihoodDraws Spec_LikelihoodDraws.
Import ListNotations.
Open Scope nat_scope.

(** ** Lists *)
Lemma sorted_app : forall l1 l2, StronglySorted (fun a b => Nat.leb a b = true) l1 ->
  StronglySorted (fun a b => Nat.leb a b = true) l2 -> (forall a b, In a l1 -> In b l2 -> a <= b) ->
  StronglySorted (fun a b => Nat.leb a b = true) (l1 ++ l2).
Proof.
  induction l1 as [|x l1 IH]; intros l2 S1 S2 H; [exact S2|]. inversion S1 as [|? ? S1' F]; subst. cbn [app]. constructor.
  - apply IH; [exact S1'|exact S2|]. intros a b Ha Hb. apply H; [right; exact Ha|exact Hb].
  - apply Forall_app. split; [exact F|]. rewrite Forall_forall. intros b Hb. apply Nat.leb_le. apply H; [left; reflexivity|exact Hb].
Qed.

Lemma sorted_nat : forall l, StronglySorted (fun a b => Nat.leb a b = true) (isort Nat.leb l).
Proof.
  intros l. apply Sorted_isort.
  - intros x y. destruct (Nat.le_ge_cases x y); [left|right]; apply Nat.leb_le; assumption.
  - intros x y z H1 H2. apply Nat.leb_le in H1, H2. apply Nat.leb_le. lia.
Qed.

Lemma sorted_eq : forall l1 l2, StronglySorted (fun a b => Nat.leb a b = true) l1 ->
  StronglySorted (fun a b => Nat.leb a b = true) l2 -> Permutation l1 l2 -> l1 = l2.
Proof.
  intros l1 l2. apply sorted_perm_eq. intros x y H1 H2. apply Nat.leb_le in H1, H2. lia.
Qed.

Lemma isort_app : forall l1 l2, (forall a b, In a l1 -> In b l2 -> a < b) ->
  isort Nat.leb (l1 ++ l2) = isort Nat.leb l1 ++ isort Nat.leb l2.
Proof.
  intros l1 l2 H. apply sorted_eq.
  - apply sorted_nat.
  - apply sorted_app; try apply sorted_nat. intros a b Ha Hb. apply In_isort in Ha, Hb. specialize (H a b Ha Hb). lia.
  - rewrite !Permutation_isort. reflexivity.
Qed.

Lemma sorted_split : forall l l', (forall a, In a l -> In a l') ->
  (forall b, In b l' -> In b l \/ forall a, In a l -> a < b) ->
  exists s, isort Nat.leb (drop_duplicates Nat.eq_dec l') = isort Nat.leb (drop_duplicates Nat.eq_dec l) ++ s.
Proof.
  intros l l' H1 H2.
  set (rest := filter (fun b => if in_dec Nat.eq_dec b l then false else true) (drop_duplicates Nat.eq_dec l')).
  exists (isort Nat.leb rest).
  assert (R : forall b, In b rest <-> In b l' /\ ~ In b l).
  { intros b. unfold rest. rewrite filter_In, In_drop_duplicates. destruct (in_dec Nat.eq_dec b l); intuition congruence. }
  rewrite <- isort_app.
  - apply sorted_eq; try apply sorted_nat. rewrite !Permutation_isort. apply NoDup_Permutation.
    + apply NoDup_drop_duplicates.
    + apply NoDup_app_intro.
      * apply NoDup_drop_duplicates.
      * apply NoDup_filter, NoDup_drop_duplicates.
      * intros b Hb Hr. apply In_drop_duplicates in Hb. apply R in Hr. tauto.
    + intros b. rewrite in_app_iff, !In_drop_duplicates, R. specialize (H1 b). destruct (in_dec Nat.eq_dec b l); tauto.
  - intros a b Ha Hb. apply In_drop_duplicates in Ha. apply R in Hb. destruct Hb as [Hb N].
    destruct (H2 b Hb) as [X|X]; [contradiction|]. apply X. exact Ha.
Qed.

Lemma flat_map_one : forall A (f g : nat -> list A) ts, NoDup ts ->
  (forall t t', In t ts -> In t' ts -> f t ++ g t <> [] -> f t' ++ g t' <> [] -> t = t') ->
  exists s, flat_map (fun t => f t ++ g t) ts = flat_map f ts ++ s.
Proof.
  intros A f g. induction ts as [|t ts IH]; intros ND H; [exists []; reflexivity|].
  inversion ND as [|? ? Nt ND']; subst. cbn [flat_map].
  assert (D : f t ++ g t = [] \/ f t ++ g t <> []) by (destruct (f t ++ g t); [left; reflexivity|right; discriminate]).
  destruct D as [D|D].
  - apply app_eq_nil in D. destruct D as [D1 D2]. rewrite D1, D2. cbn [app].
    apply IH; [exact ND'|]. intros a b Ha Hb. apply H; right; assumption.
  - assert (E : forall t', In t' ts -> f t' ++ g t' = []).
    { intros t' Ht'. destruct (f t' ++ g t') eqn:X; [reflexivity|]. exfalso. apply Nt.
      rewrite (H t t'); [exact Ht'|left; reflexivity|right; exact Ht'|exact D|rewrite X; discriminate]. }
    exists (g t). assert (Z1 : flat_map (fun t0 => f t0 ++ g t0) ts = [] /\ flat_map f ts = []).
    { clear - E. induction ts as [|t' ts IH]; [split; reflexivity|]. cbn [flat_map].
      pose proof (E t' (or_introl eq_refl)) as X. rewrite X. apply app_eq_nil in X. destruct X as [X1 X2]. rewrite X1.
      apply IH. intros u Hu. apply E. right. exact Hu. }
    destruct Z1 as [Z1 Z2]. rewrite Z1, Z2, !app_nil_r. reflexivity.
Qed.

Lemma result_all_app : forall A (l1 l2 : list (result A)) xs, result_all (l1 ++ l2) = Ok xs ->
  exists ys zs, xs = ys ++ zs /\ result_all l1 = Ok ys /\ result_all l2 = Ok zs.
Proof.
  intros A. induction l1 as [|a l1 IH]; intros l2 xs H; [exists [], xs; auto|].
  cbn [app result_all] in *. destruct a as [a| | | | |]; try discriminate. cbn [result_bind] in *.
  destruct (result_all (l1 ++ l2)) as [r| | | | |] eqn:E; try discriminate. cbn [result_bind] in H. injection H as <-.
  destruct (IH l2 r E) as [ys [zs [-> [E1 E2]]]]. exists (a :: ys), zs. rewrite E1. auto.
Qed.

Lemma repeated_app : forall (u v : list nat) (ts : list nat),
  Permutation (flat_map (fun _ => u ++ v) ts) (flat_map (fun _ => u) ts ++ flat_map (fun _ => v) ts).
Proof.
  intros u v. induction ts as [|t ts IH]; [reflexivity|]. cbn [flat_map]. rewrite IH.
  rewrite <- !app_assoc. apply Permutation_app_head. rewrite !app_assoc. apply Permutation_app_tail. apply Permutation_app_comm.
Qed.

(** ** Rows *)
Section Two.
  Variables (generate : Z -> nat -> nat -> list (list (list R))) (seed : Z).
  Variables (rc qr : nat -> matrix -> matrix) (lk : like_spec).
  Variables (locate : index -> obs -> nat -> result (nat * nat)) (env : like_env) (n_types : nat).
  Variables (data extra : frame obs).
  Hypothesis GEN : extendable generate.
  Hypothesis SEP : types_separated locate n_types.
  Hypothesis NT : 1 <= n_types.
  Hypothesis ND : NoDup (map fst (data ++ extra)).
  Hypothesis LI : later_individuals data extra.
  Hypothesis LK : later_keys locate n_types data extra.

  Definition row_of (t : nat) (d : index * obs) : lrow :=
    match locate (fst d) (snd d) t with
    | Ok kp => mkLrow (fst d) t (snd d) (fst kp) (snd kp)
    | _ => mkLrow (fst d) t (snd d) 0 0
    end.

  Lemma types_count : (if Nat.leb 2 n_types then n_types else 1) = n_types.
  Proof. destruct (Nat.leb 2 n_types) eqn:E; [reflexivity|]. apply Nat.leb_gt in E. lia. Qed.

  Lemma rows_are : forall df rows, duplicate_for_types locate n_types df = Ok rows ->
    rows = flat_map (fun t => map (row_of t) df) (seq 0 n_types) /\
    forall t d, t < n_types -> In d df -> exists k p, locate (fst d) (snd d) t = Ok (k, p).
  Proof.
    intros df rows H. unfold duplicate_for_types in H. rewrite types_count in H.
    assert (G : forall ts rows, result_all
      (flat_map (fun t => map (fun r => result_bind (locate (fst r) (snd r) t)
                             (fun kp => Ok (mkLrow (fst r) t (snd r) (fst kp) (snd kp)))) df) ts) = Ok rows ->
      rows = flat_map (fun t => map (row_of t) df) ts /\
      forall t d, In t ts -> In d df -> exists k p, locate (fst d) (snd d) t = Ok (k, p)).
    { clear H rows. induction ts as [|t ts IH]; intros rows H.
      - injection H as <-. split; [reflexivity|]. intros t d [].
      - cbn [flat_map] in *. apply result_all_app in H. destruct H as [ys [zs [-> [H1 H2]]]].
        destruct (IH zs H2) as [-> L]. clear IH H2.
        assert (F : ys = map (row_of t) df /\ forall d, In d df -> exists k p, locate (fst d) (snd d) t = Ok (k, p)).
        { clear L. revert ys H1. induction df as [|d df' IH]; intros ys H1; [injection H1 as <-; split; [reflexivity|intros d []]|].
          cbn [map result_all] in H1.
          destruct (locate (fst d) (snd d) t) as [[k p]| | | | |] eqn:E; try discriminate. cbn [result_bind fst snd] in *.
          destruct (result_all _) as [r| | | | |] eqn:E2 in H1; try discriminate. cbn [result_bind] in H1. injection H1 as <-.
          destruct (IH r E2) as [-> L]. split.
          - cbn [map]. f_equal. unfold row_of. rewrite E. reflexivity.
          - intros d' [<-|Hd]; [eauto|]. apply L. exact Hd. }
        destruct F as [-> L']. split; [reflexivity|]. intros t' d [<-|Ht] Hd; [apply L'; exact Hd|apply L; assumption]. }
    destruct (G _ _ H) as [E L]. split; [exact E|]. intros t d Ht Hd. apply L; [apply in_seq; lia|exact Hd].
  Qed.

  Variables (rows rows' : list lrow).
  Hypothesis DR : duplicate_for_types locate n_types data = Ok rows.
  Hypothesis DR' : duplicate_for_types locate n_types (data ++ extra) = Ok rows'.

  Definition of_key (k : nat) (l : list lrow) : list lrow := filter (fun r => Nat.eqb (lr_key r) k) l.

  Lemma key_of_row : forall t d, t < n_types -> In d (data ++ extra) ->
    exists p, locate (fst d) (snd d) t = Ok (lr_key (row_of t d), p).
  Proof.
    intros t d Ht Hd. destruct (proj2 (rows_are _ _ DR') t d Ht Hd) as [k [p E]]. exists p. unfold row_of. rewrite E. reflexivity.
  Qed.

  Lemma rows_extended : forall k, exists s, of_key k rows' = of_key k rows ++ s.
  Proof.
    intros k. rewrite (proj1 (rows_are _ _ DR)), (proj1 (rows_are _ _ DR')). unfold of_key.
    assert (FM : forall (f : nat -> list lrow) ts, filter (fun r => Nat.eqb (lr_key r) k) (flat_map f ts) =
                 flat_map (fun t => filter (fun r => Nat.eqb (lr_key r) k) (f t)) ts).
    { intros f ts. induction ts as [|t ts IH]; [reflexivity|]. cbn [flat_map]. rewrite filter_app, IH. reflexivity. }
    rewrite !FM.
    destruct (flat_map_one lrow (fun t => filter (fun r => Nat.eqb (lr_key r) k) (map (row_of t) data))
                (fun t => filter (fun r => Nat.eqb (lr_key r) k) (map (row_of t) extra)) (seq 0 n_types) (seq_NoDup _ _)) as [s E].
    - intros t t' Ht Ht' N N'. apply in_seq in Ht, Ht'.
      assert (X : forall u, u < n_types -> filter (fun r => Nat.eqb (lr_key r) k) (map (row_of u) data) ++
                    filter (fun r => Nat.eqb (lr_key r) k) (map (row_of u) extra) <> [] ->
                    exists i o p, locate i o u = Ok (k, p)).
      { intros u Hu Nu. rewrite <- filter_app, <- map_app in Nu.
        destruct (filter _ (map (row_of u) (data ++ extra))) as [|r l] eqn:F; [congruence|].
        assert (I : In r (filter (fun r => Nat.eqb (lr_key r) k) (map (row_of u) (data ++ extra)))) by (rewrite F; left; reflexivity).
        apply filter_In in I. destruct I as [I K]. apply Nat.eqb_eq in K. apply in_map_iff in I. destruct I as [d [<- Hd]].
        destruct (key_of_row u d Hu Hd) as [p E]. rewrite K in E. eauto. }
      destruct (X t) as [i [o [p E1]]]; [lia|exact N|]. destruct (X t') as [i' [o' [p' E2]]]; [lia|exact N'|].
      exact (SEP _ _ _ _ _ _ _ _ _ (proj2 Ht) (proj2 Ht') E1 E2).
    - exists s. rewrite <- E. apply flat_map_ext. intros t. rewrite map_app, filter_app. reflexivity.
  Qed.

  Lemma In_numbered : forall l k j r, In ((k, j), r) (number_rows l) <-> nth_error (of_key k l) j = Some r.
  Proof.
    intros l k j r. unfold number_rows. rewrite in_flat_map. split.
    - intros [k' [Hk H]]. apply in_map_iff in H. destruct H as [jr [E H]]. injection E as -> <- <-.
      destruct jr as [a b]. apply In_enumerate in H. exact H.
    - intros H. exists k. split.
      + apply In_isort, In_drop_duplicates. apply nth_error_In in H. apply filter_In in H. destruct H as [H K].
        apply Nat.eqb_eq in K. rewrite <- K. apply in_map. exact H.
      + apply in_map_iff. exists (j, r). split; [reflexivity|]. apply In_enumerate. exact H.
  Qed.

  Lemma numbered_extended : forall n, In n (number_rows rows) -> In n (number_rows rows').
  Proof.
    intros [[k j] r] H. apply In_numbered in H. apply In_numbered. destruct (rows_extended k) as [s E]. rewrite E.
    rewrite nth_error_app1; [exact H|]. apply nth_error_Some. rewrite H. discriminate.
  Qed.

  Lemma keys_in : forall df l, (forall d, In d df -> In d (data ++ extra)) -> duplicate_for_types locate n_types df = Ok l ->
    forall k, In k (map lr_key l) <-> key_in locate n_types df k.
  Proof.
    intros df l S H k. destruct (rows_are _ _ H) as [E L]. rewrite E. rewrite in_map_iff. split.
    - intros [r [K I]]. apply in_flat_map in I. destruct I as [t [Ht I]]. apply in_map_iff in I. destruct I as [d [<- Hd]].
      apply in_seq in Ht. destruct (key_of_row t d) as [p E2]; [lia|apply S; exact Hd|]. rewrite K in E2.
      exists (fst d), (snd d), t, p. split; [destruct d; exact Hd|]. split; [lia|exact E2].
    - intros [i [o [t [p [Hd [Ht E2]]]]]]. exists (row_of t (i, o)). split.
      + unfold row_of. cbn [fst snd]. rewrite E2. reflexivity.
      + apply in_flat_map. exists t. split; [apply in_seq; lia|]. apply in_map. exact Hd.
  Qed.

  Lemma keys_extended : exists s, observed_keys rows' = observed_keys rows ++ s.
  Proof.
    apply sorted_split.
    - intros k H. apply (keys_in data rows) in H; [|intros d Hd; apply in_or_app; left; exact Hd|exact DR].
      apply (keys_in (data ++ extra) rows' (fun d H => H) DR').
      destruct H as [i [o [t [p [Hd X]]]]]. exists i, o, t, p. split; [apply in_or_app; left; exact Hd|exact X].
    - intros b H. apply (keys_in (data ++ extra) rows' (fun d H => H) DR') in H.
      destruct H as [i [o [t [p [Hd [Ht X]]]]]].
      assert (K : forall a, In a (map lr_key rows) <-> key_in locate n_types data a).
      { intros a. apply (keys_in data rows); [intros d Hd'; apply in_or_app; left; exact Hd'|exact DR]. }
      apply in_app_or in Hd. destruct Hd as [Hd|Hd].
      + left. apply K. exists i, o, t, p. auto.
      + assert (KE : key_in locate n_types extra b) by (exists i, o, t, p; auto).
        destruct (in_dec Nat.eq_dec b (map lr_key rows)) as [I|I]; [left; exact I|right].
        intros a Ha. apply K in Ha. destruct (LK a b Ha KE) as [Y|Y]; [exfalso; apply I, K; exact Y|exact Y].
  Qed.

  Lemma find_app : forall A (f : A -> bool) l1 l2 x, find f l1 = Some x -> find f (l1 ++ l2) = Some x.
  Proof.
    intros A f l1 l2 x. induction l1 as [|a l1 IH]; intros H; [discriminate|]. cbn [find app] in *.
    destruct (f a); [exact H|apply IH; exact H].
  Qed.

  Lemma draws_extended : forall nc k j r, In ((k, j), r) (number_rows rows) ->
    base_draws_est generate seed nc rows' k j = base_draws_est generate seed nc rows k j.
  Proof.
    intros nc k j r H. apply In_numbered in H.
    assert (Ik : In k (observed_keys rows)).
    { unfold observed_keys. apply In_isort, In_drop_duplicates. apply nth_error_In in H. apply filter_In in H.
      destruct H as [H K]. apply Nat.eqb_eq in K. rewrite <- K. apply in_map. exact H. }
    unfold base_draws_est.
    destruct (find (fun p => Nat.eqb (snd p) k) (enumerate (observed_keys rows))) as [q|] eqn:F.
    - destruct keys_extended as [s E]. rewrite E. unfold enumerate in *. rewrite enumerate_from_app.
      rewrite (find_app _ _ _ _ _ F). destruct (rows_extended k) as [s' E']. unfold of_key in *. rewrite E', app_length.
      set (n := length (filter (fun r0 => Nat.eqb (lr_key r0) k) rows)) in *.
      assert (Hj : j < n) by (apply nth_error_Some; rewrite H; discriminate).
      destruct (GEN (seed + Z.of_nat (fst q))%Z n (n + length s') (nc k)) as [G1 G2]; [lia|].
      rewrite G1. rewrite <- (firstn_skipn n (generate (seed + Z.of_nat (fst q))%Z (n + length s') (nc k))) at 1.
      rewrite app_nth1; [reflexivity|]. rewrite <- G1, G2. exact Hj.
    - exfalso. apply In_nth_error in Ik. destruct Ik as [i Hi].
      assert (I : In (i, k) (enumerate (observed_keys rows))) by (apply In_enumerate; exact Hi).
      eapply find_none in F; [|exact I]. cbn [snd] in F. rewrite Nat.eqb_refl in F. discriminate.
  Qed.

  (** ** Contributions of rows *)
  Let nc := fun k => count_true (le_choice_set env k).
  Let e := with_draws env (base_draws_est generate seed nc rows).
  Let e' := with_draws env (base_draws_est generate seed nc rows').

  Lemma same_contribution : forall n, In n (number_rows rows) ->
    contributions_of_row rc qr lk e' (snd (fst n)) (snd n) = contributions_of_row rc qr lk e (snd (fst n)) (snd n).
  Proof.
    intros [[k j] r] H. pose proof (number_rows_key _ _ H) as K. cbn [fst snd] in *.
    unfold contributions_of_row, e, e', with_draws. cbn [le_choice_set le_wages le_nonpec le_cont le_draws].
    rewrite <- K. rewrite (draws_extended nc k j r H). reflexivity.
  Qed.

  Variables (computed computed' : list (lrow * (R * R))).
  Hypothesis CC : compute_contributions rc qr lk e rows = Ok computed.
  Hypothesis CC' : compute_contributions rc qr lk e' rows' = Ok computed'.

  Lemma nodup_rows : forall df l, NoDup (map fst df) -> duplicate_for_types locate n_types df = Ok l ->
    NoDup (map (fun r => (lr_index r, lr_type r)) l).
  Proof.
    intros df l N H. destruct (duplicate_rows locate n_types df l NT H) as [E _].
    pose proof (NoDup_flat_types df n_types N) as X. rewrite <- E, map_map in X. exact X.
  Qed.

  Lemma nd_data : NoDup (map fst data).
  Proof.
    pose proof ND as N. rewrite map_app in N. revert N. generalize (map fst data) (map fst extra). clear.
    induction l as [|a l IH]; intros l0 N; [constructor|]. cbn [app] in N. inversion N as [|? ? Na N']; subst. constructor.
    - intros I. apply Na. apply in_or_app. left. exact I.
    - exact (IH l0 N').
  Qed.

  Lemma computed_unique : forall en df l c, NoDup (map fst df) -> duplicate_for_types locate n_types df = Ok l ->
    compute_contributions rc qr lk en l = Ok c -> unique_rows c.
  Proof.
    intros en df l c N D C. destruct (computed_rows _ _ _ _ _ _ C) as [E _]. unfold unique_rows.
    assert (X : map (fun r : lrow * (R * R) => (lr_index (fst r), lr_type (fst r))) c =
                map (fun r => (lr_index r, lr_type r)) (map fst c)) by (rewrite map_map; reflexivity).
    rewrite X, E. eapply Permutation_NoDup; [|apply (nodup_rows df l N D)].
    apply Permutation_map, Permutation_sym, number_rows_perm.
  Qed.

  Lemma row_in_rows : forall r, In r rows' -> (exists o p, In ((fst (lr_index r), p), o) data) -> In r rows.
  Proof.
    intros r H [o [p Hd]]. rewrite (proj1 (rows_are _ _ DR')) in H. rewrite (proj1 (rows_are _ _ DR)).
    apply in_flat_map in H. destruct H as [t [Ht H]]. apply in_map_iff in H. destruct H as [d [<- Hd']].
    apply in_flat_map. exists t. split; [exact Ht|]. apply in_map. apply in_app_or in Hd'. destruct Hd' as [X|X]; [exact X|].
    exfalso. assert (I : lr_index (row_of t d) = fst d) by (unfold row_of; destruct (locate _ _ _); reflexivity).
    rewrite I in Hd. destruct d as [i o']. cbn [fst] in Hd. specialize (LI _ _ _ _ Hd X). cbn [fst] in LI. lia.
  Qed.

  Lemma computed_In : forall en l c x, compute_contributions rc qr lk en l = Ok c ->
    (In x c <-> exists n, In n (number_rows l) /\ contributions_of_row rc qr lk en (snd (fst n)) (snd n) = Ok x).
  Proof.
    intros en l c x C. destruct (computed_rows _ _ _ _ _ _ C) as [_ F]. split.
    - intros H. apply (Forall2_In_r _ _ _ _ _ _ F H).
    - intros [n [Hn E]]. destruct (Forall2_In_l _ _ _ _ _ _ F Hn) as [y [Hy E2]]. congruence.
  Qed.

  Definition of_individual (id : nat) (c : lrow * (R * R)) : bool := Nat.eqb (fst (lr_index (fst c))) id.

  Lemma computed_extended : forall id, (exists o p, In ((id, p), o) data) ->
    Permutation (filter (of_individual id) computed') (filter (of_individual id) computed).
  Proof.
    intros id Hid. apply NoDup_Permutation.
    - apply NoDup_filter. eapply NoDup_map_inv. exact (computed_unique _ _ _ _ ND DR' CC').
    - apply NoDup_filter. eapply NoDup_map_inv. exact (computed_unique _ _ _ _ nd_data DR CC).
    - intros x. rewrite !filter_In. rewrite (computed_In _ _ _ x CC), (computed_In _ _ _ x CC'). split.
      + intros [[n [Hn E]] Hx]. split; [|exact Hx]. unfold of_individual in Hx. apply Nat.eqb_eq in Hx.
        pose proof (contributions_row_Ok _ _ _ _ _ _ _ E) as [Ex _].
        assert (R' : In (snd n) rows').
        { eapply Permutation_in; [apply number_rows_perm|]. apply in_map. exact Hn. }
        assert (R0 : In (snd n) rows) by (apply row_in_rows; [exact R'|rewrite <- Ex, Hx; exact Hid]).
        eapply Permutation_in in R0; [|apply Permutation_sym, number_rows_perm].
        apply in_map_iff in R0. destruct R0 as [m [Em Hm]].
        assert (m = n).
        { pose proof (numbered_extended m Hm) as Hm'.
          assert (N : NoDup (map snd (number_rows rows'))).
          { eapply Permutation_NoDup; [apply Permutation_sym, number_rows_perm|].
            eapply NoDup_map_inv. exact (nodup_rows _ _ ND DR'). }
          clear - Em Hm' Hn N. induction (number_rows rows') as [|a l IH]; [contradiction|].
          cbn [map] in N. inversion N as [|? ? Na N']; subst. destruct Hm' as [->|Hm'], Hn as [->|Hn]; auto.
          - exfalso. apply Na. rewrite Em. apply in_map. exact Hn.
          - exfalso. apply Na. rewrite <- Em. apply in_map. exact Hm'. }
        subst m. exists n. split; [exact Hm|]. rewrite <- (same_contribution n Hm). exact E.
      + intros [[n [Hn E]] Hx]. split; [|exact Hx]. exists n. split; [apply numbered_extended; exact Hn|].
        rewrite (same_contribution n Hn). exact E.
  Qed.

  Variables (order order' : list (lrow * (R * R)) -> list (lrow * (R * R))).
  Hypothesis PO : forall l, Permutation (order l) l.
  Hypothesis PO' : forall l, Permutation (order' l) l.

  Lemma filter_perm : forall A (f : A -> bool) l l', Permutation l l' -> Permutation (filter f l) (filter f l').
  Proof.
    intros A f l l' P. induction P; cbn [filter].
    - reflexivity.
    - destruct (f x); [apply perm_skip|]; assumption.
    - destruct (f x), (f y); try reflexivity. apply perm_swap.
    - etransitivity; eassumption.
  Qed.

  Lemma ordered_extended : forall id, (exists o p, In ((id, p), o) data) ->
    Permutation (filter (of_individual id) (order' computed')) (filter (of_individual id) (order computed)).
  Proof.
    intros id H. rewrite (filter_perm _ _ _ _ (PO' computed')), (filter_perm _ _ _ _ (PO computed)). apply computed_extended. exact H.
  Qed.

  Lemma individual_extended : forall id, (exists o p, In ((id, p), o) data) ->
    per_individual (order' computed') id = per_individual (order computed) id.
  Proof.
    intros id H. unfold per_individual. apply rsum_perm. apply Permutation_map. exact (ordered_extended id H).
  Qed.

  Lemma type_extended : forall id t, (exists o p, In ((id, p), o) data) ->
    per_individual_and_type (order' computed') id t = per_individual_and_type (order computed) id t.
  Proof.
    intros id t H. rewrite !per_type_sum.
    - apply rsum_perm. apply Permutation_map.
      assert (FF : forall l : list (lrow * (R * R)), filter (of_ind id t) l = filter (fun c => Nat.eqb (lr_type (fst c)) t) (filter (of_individual id) l)).
      { induction l as [|c l IH]; [reflexivity|]. cbn [filter]. unfold of_ind at 1, of_individual at 1.
        destruct (Nat.eqb (fst (lr_index (fst c))) id); cbn [andb filter].
        - destruct (Nat.eqb (lr_type (fst c)) t); rewrite IH; reflexivity.
        - exact IH. }
      rewrite !FF. apply filter_perm. exact (ordered_extended id H).
    - eapply unique_rows_perm; [apply Permutation_sym, PO|]. exact (computed_unique _ _ _ _ nd_data DR CC).
    - eapply unique_rows_perm; [apply Permutation_sym, PO'|]. exact (computed_unique _ _ _ _ ND DR' CC').
  Qed.

  Lemma ids_of : forall en df l c o id, (forall l, Permutation (o l) l) -> duplicate_for_types locate n_types df = Ok l ->
    compute_contributions rc qr lk en l = Ok c ->
    (In id (map (fun r : lrow * (R * R) => fst (lr_index (fst r))) (o c)) <-> exists ob p, In ((id, p), ob) df).
  Proof.
    intros en df l c o id Po D C. destruct (computed_rows _ _ _ _ _ _ C) as [E _].
    destruct (duplicate_rows locate n_types df l NT D) as [E2 _].
    assert (P : Permutation (map (fun r : lrow * (R * R) => fst (lr_index (fst r))) (o c))
                            (map (fun x => fst (fst (fst x))) (flat_map (fun t => map (fun d : index * obs => (fst d, t, snd d)) df) (seq 0 n_types)))).
    { rewrite (Permutation_map _ (Po c)). rewrite <- E2, map_map. cbn [fst].
      rewrite <- (map_map fst (fun r => fst (lr_index r))), E. apply Permutation_map, number_rows_perm. }
    split; intros H.
    - eapply Permutation_in in H; [|exact P]. apply in_map_iff in H. destruct H as [x [<- H]]. apply In_types in H.
      destruct H as [_ H]. destruct x as [[[a b] t] o0]. cbn [fst snd] in *. eauto.
    - destruct H as [ob [p H]]. eapply Permutation_in; [apply Permutation_sym; exact P|]. apply in_map_iff.
      exists ((id, p), 0, ob). split; [reflexivity|]. apply in_flat_map. exists 0. split; [apply in_seq; lia|].
      apply in_map_iff. exists ((id, p), ob). auto.
  Qed.

  Variables (params : list (list (nat * R))) (x : nat -> nat -> nat -> R).

  Lemma contributions_extended : forall cs cs',
    contributions n_types params x (isort Nat.leb (type_rows data n_types)) (order computed) = Ok cs ->
    contributions n_types params x (isort Nat.leb (type_rows (data ++ extra) n_types)) (order' computed') = Ok cs' ->
    exists more, cs' = cs ++ more.
  Proof.
    intros cs cs' H H'. unfold contributions in *. destruct (Nat.leb 2 n_types).
    - assert (T : forall df id, In id (type_rows df n_types) -> exists o p, In ((id, p), o) df).
      { intros df id I. unfold type_rows in I. apply in_flat_map in I. destruct I as [_ [_ I]].
        apply in_map_iff in I. destruct I as [[[a b] o] [<- I]]. apply filter_In in I. exists o, b. apply I. }
      assert (S : isort Nat.leb (type_rows (data ++ extra) n_types) =
                  isort Nat.leb (type_rows data n_types) ++ isort Nat.leb (type_rows extra n_types)).
      { rewrite <- isort_app.
        - apply isort_perm_eq.
          + intros a b. destruct (Nat.le_ge_cases a b); [left|right]; apply Nat.leb_le; assumption.
          + intros a b c A B. apply Nat.leb_le in A, B. apply Nat.leb_le. lia.
          + intros a b A B. apply Nat.leb_le in A, B. lia.
          + unfold type_rows. rewrite filter_app, map_app. apply repeated_app.
        - intros a b Ha Hb. apply T in Ha, Hb. destruct Ha as [o [p Ha]], Hb as [o' [p' Hb]]. exact (LI _ _ _ _ Ha Hb). }
      rewrite S, map_app in H'. apply result_all_app in H'. destruct H' as [ys [zs [-> [H1 _]]]].
      exists zs. f_equal. rewrite (map_ext_in _ (type_contribution params x (order computed))) in H1; [congruence|].
      intros id I. apply In_isort, T in I. unfold type_contribution.
      destruct (log_type_probabilities (type_x_betas params (x id))) as [lps| | | | |]; try reflexivity. cbn [result_bind].
      f_equal. f_equal. apply map_ext. intros tl. rewrite (type_extended id (fst tl) I). reflexivity.
    - injection H as <-. injection H' as <-.
      destruct (sorted_split (map (fun r => fst (lr_index (fst r))) (order computed)) (map (fun r => fst (lr_index (fst r))) (order' computed'))) as [s E].
      + intros id I. apply (ids_of _ _ _ _ _ id PO DR CC) in I. apply (ids_of _ _ _ _ _ id PO' DR' CC').
        destruct I as [o [p I]]. exists o, p. apply in_or_app. left. exact I.
      + intros id I. apply (ids_of _ _ _ _ _ id PO' DR' CC') in I. destruct I as [o [p I]]. apply in_app_or in I.
        destruct I as [I|I].
        * left. apply (ids_of _ _ _ _ _ id PO DR CC). eauto.
        * right. intros a Ha. apply (ids_of _ _ _ _ _ a PO DR CC) in Ha. destruct Ha as [o' [p' Ha]]. exact (LI _ _ _ _ Ha I).
      + rewrite E, map_app. eexists. f_equal. apply map_ext_in. intros id I.
        apply In_isort, In_drop_duplicates in I. apply (ids_of _ _ _ _ _ id PO DR CC) in I.
        rewrite (individual_extended id I). reflexivity.
  Qed.
End Two.

Lemma estimate_extended : forall generate seed rc qr lk locate env n_types params x order order' data extra v cs v' cs',
  extendable generate -> types_separated locate n_types -> 1 <= n_types -> NoDup (map fst (data ++ extra)) ->
  later_individuals data extra -> later_keys locate n_types data extra ->
  (forall l, Permutation (order l) l) -> (forall l, Permutation (order' l) l) ->
  estimate generate seed rc qr lk locate env n_types params x order data = Ok (v, cs) ->
  estimate generate seed rc qr lk locate env n_types params x order' (data ++ extra) = Ok (v', cs') ->
  exists more, cs' = cs ++ more.
Proof.
  intros generate seed rc qr lk locate env n_types params x order order' data extra v cs v' cs' G S NT ND LI LK PO PO' H H'.
  unfold estimate in *.
  destruct (duplicate_for_types locate n_types data) as [rows| | | | |] eqn:D; try discriminate. cbn [result_bind] in H.
  destruct (duplicate_for_types locate n_types (data ++ extra)) as [rows'| | | | |] eqn:D'; try discriminate. cbn [result_bind] in H'.
  unfold log_like in *. rewrite D in H. rewrite D' in H'. cbn [result_bind] in *.
  destruct (compute_contributions _ _ _ _ rows) as [c| | | | |] eqn:C in H; try discriminate. cbn [result_bind] in H.
  destruct (compute_contributions _ _ _ _ rows') as [c'| | | | |] eqn:C' in H'; try discriminate. cbn [result_bind] in H'.
  destruct (contributions n_types params x (isort Nat.leb (type_rows data n_types)) (order c)) as [z| | | | |] eqn:Z; try discriminate.
  destruct (contributions n_types params x (isort Nat.leb (type_rows (data ++ extra) n_types)) (order' c')) as [z'| | | | |] eqn:Z'; try discriminate.
  cbn [result_bind] in *. injection H as _ <-. injection H' as _ <-.
  exact (contributions_extended generate seed rc qr lk locate env n_types data extra G S NT ND LI LK rows rows' D D' c c' C C'
           order order' PO PO' params x z z' Z Z').
Qed.

(** ** Success *)
Lemma contributions_same_env : forall rc qr lk env d d' rows,
  (forall k j r, In ((k, j), r) (number_rows rows) -> d k j = d' k j) ->
  compute_contributions rc qr lk (with_draws env d) rows = compute_contributions rc qr lk (with_draws env d') rows.
Proof.
  intros rc qr lk env d d' rows H. unfold compute_contributions. f_equal. apply map_ext_in. intros [[k j] r] I.
  pose proof (number_rows_key _ _ I) as K. cbn [fst snd] in *. subst k. specialize (H _ _ _ I).
  unfold contributions_of_row, with_draws. cbn [le_choice_set le_wages le_nonpec le_cont le_draws]. rewrite H. reflexivity.
Qed.

Lemma base_draws_nonempty : forall generate seed nc rows k j r,
  (forall s n c, length (generate s n c) = n /\ forall d, In d (generate s n c) -> d <> []) ->
  In ((k, j), r) (number_rows rows) -> base_draws_est generate seed nc rows k j <> [].
Proof.
  intros generate seed nc rows k j r G H. apply In_numbered in H. unfold base_draws_est.
  assert (Ik : In k (observed_keys rows)).
  { unfold observed_keys. apply In_isort, In_drop_duplicates. apply nth_error_In in H. apply filter_In in H.
    destruct H as [H K]. apply Nat.eqb_eq in K. rewrite <- K. apply in_map. exact H. }
  destruct (find (fun p => Nat.eqb (snd p) k) (enumerate (observed_keys rows))) as [q|] eqn:F.
  - destruct (G (seed + Z.of_nat (fst q))%Z (length (filter (fun r0 => Nat.eqb (lr_key r0) k) rows)) (nc k)) as [L N].
    apply N. apply nth_In. rewrite L. apply nth_error_Some. unfold of_key in H. rewrite H. discriminate.
  - exfalso. apply In_nth_error in Ik. destruct Ik as [i Hi].
    assert (I : In (i, k) (enumerate (observed_keys rows))) by (apply In_enumerate; exact Hi).
    eapply find_none in F; [|exact I]. cbn [snd] in F. rewrite Nat.eqb_refl in F. discriminate.
Qed.

Lemma estimate_succeeds : forall generate seed rc qr lk locate env n_types params x order data,
  (forall s n c, length (generate s n c) = n /\ forall d, In d (generate s n c) -> d <> []) ->
  1 <= n_types -> length params = n_types -> lk_tau lk <> 0%R -> lk_nwages lk <= length (lk_meas lk) ->
  (forall idx ob t, In (idx, ob) data -> t < n_types ->
     exists k pos, locate idx ob t = Ok (k, pos) /\ evaluable lk (with_draws env (fun _ _ => [[]])) k pos ob) ->
  exists v cs, estimate generate seed rc qr lk locate env n_types params x order data = Ok (v, cs).
Proof.
  intros generate seed rc qr lk locate env n_types params x order data G Hn Lp Ht Hm EV.
  assert (D : exists rows, duplicate_for_types locate n_types data = Ok rows).
  { destruct (log_like_succeeds rc qr lk locate (with_draws env (fun _ _ => [[]])) n_types params x order (isort Nat.leb) data)
      as [v [cs E]]; auto. unfold log_like in E. destruct (duplicate_for_types locate n_types data) as [rows| | | | |]; try discriminate. eauto. }
  destruct D as [rows D]. unfold estimate. rewrite D. cbn [result_bind].
  set (b := base_draws_est generate seed (fun k => count_true (le_choice_set env k)) rows).
  set (b' := fun k j => match b k j with [] => [[]] | l => l end).
  destruct (log_like_succeeds rc qr lk locate (with_draws env b') n_types params x order (isort Nat.leb) data) as [v [cs E]]; auto.
  - intros idx ob t I T. destruct (EV idx ob t I T) as [k [pos [E1 E2]]]. exists k, pos. split; [exact E1|].
    unfold evaluable, with_draws in *. cbn [le_choice_set le_wages le_nonpec le_cont le_draws] in *.
    destruct E2 as [A [B [C [A' [B' [C' _]]]]]]. repeat (split; [assumption|]).
    intros j. unfold b'. destruct (b k j); discriminate.
  - exists v, cs. rewrite <- E. unfold log_like. rewrite D. cbn [result_bind].
    rewrite (contributions_same_env rc qr lk env b b' rows); [reflexivity|].
    intros k j r I. unfold b'. pose proof (base_draws_nonempty generate seed (fun k => count_true (le_choice_set env k)) rows k j r G I) as N.
    fold b in N. destruct (b k j); [contradiction|reflexivity].
Qed.
