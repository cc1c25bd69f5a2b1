(** Groups of parameters and types. *)
From Coq Require Import List Arith Bool String Ascii Reals Lra Lia Permutation Sorted.
From Verif Require Import Base Proof_Base Model_Strings Proof_Strings Model_Choices Spec_Choices Proof_Regex Proof_Choices
  Spec_Solve Proof_Exogenous Proof_Likelihood Proof_LikelihoodPanel Model_Params Spec_Params.
Import ListNotations.
Open Scope string_scope.

(** ** The order of levels *)

Lemma level_leb_total : forall a b, level_leb a b = true \/ level_leb b a = true.
Proof.
  intros [a|a] [b|b]; cbn; auto; [apply leb_total_s|].
  destruct (Nat.leb_spec a b); [auto|right; apply Nat.leb_le; lia].
Qed.
Lemma level_leb_trans : forall a b c, level_leb a b = true -> level_leb b c = true -> level_leb a c = true.
Proof.
  intros [a|a] [b|b] [c|c]; cbn; try discriminate; auto; [apply leb_trans_s|].
  rewrite !Nat.leb_le. lia.
Qed.
Lemma sorted_levels : forall l, NoDup l -> StronglySorted level_lt (isort level_leb l).
Proof.
  intros l N. pose proof (Sorted_isort level_leb level_leb_total level_leb_trans l) as S.
  pose proof (NoDup_isort level_leb l N) as N'.
  induction S as [|x r S IH F]; constructor.
  - inversion N'; subst. auto.
  - inversion N' as [|? ? NI N'']; subst. rewrite Forall_forall in F |- *. intros y Y. split; [auto|].
    intros ->. contradiction.
Qed.

(** ** Rows of a group *)

Section Group.
  Variable ext : string -> option string.
  Variable params : list param.

  Definition in_group (p : param) : bool := match ext (p_category p) with Some _ => true | None => false end.

  Lemma In_group_rows : forall s n v, In (s, (n, v)) (group_rows ext params) <->
    exists p, describes ext params p s /\ n = p_name p /\ v = snd p.
  Proof.
    intros s n v. unfold group_rows, describes. rewrite in_flat_map. split.
    - intros [p [I J]]. destruct (ext (p_category p)) as [t|] eqn:E; [|destruct J].
      destruct J as [J|[]]. inversion J; subst. exists p. auto.
    - intros [p [[I E] [-> ->]]]. exists p. split; [exact I|]. rewrite E. left. reflexivity.
  Qed.

  Definition lv (s : string) : level :=
    if forallb all_digits (map fst (group_rows ext params)) then Number (digits_value 0 s) else Label s.
  Lemma to_numeric_lv : to_numeric (map fst (group_rows ext params)) = map lv (map fst (group_rows ext params)).
  Proof. unfold to_numeric, lv. destruct (forallb _ _); reflexivity. Qed.

  Lemma numeric_iff : forallb all_digits (map fst (group_rows ext params)) = true <-> numeric_levels ext params.
  Proof.
    rewrite forallb_forall. unfold numeric_levels. split.
    - intros H p s D. apply H. apply in_map_iff. exists (s, (p_name p, snd p)). split; [reflexivity|].
      apply In_group_rows. exists p. auto.
    - intros H s I. apply in_map_iff in I. destruct I as [[t [n v]] [E I]]. cbn in E. subst t.
      apply In_group_rows in I. destruct I as [p [D _]]. exact (H p s D).
  Qed.
  Lemma level_of_iff : forall s l, level_of ext params s l <-> l = lv s.
  Proof.
    intros s l. unfold lv. destruct (forallb all_digits (map fst (group_rows ext params))) eqn:F.
    - apply numeric_iff in F. split; [intros [H|H]; [reflexivity|contradiction] | intros ->; constructor; exact F].
    - assert (NN : ~ numeric_levels ext params) by (rewrite <- numeric_iff, F; discriminate).
      split; [intros [H|H]; [contradiction|reflexivity] | intros ->; constructor; exact NN].
  Qed.
End Group.

Lemma NoDup_levels_aux : forall (ext : string -> option string) (f : string -> level) params,
  (forall i j p q s t, nth_error params i = Some p -> nth_error params j = Some q ->
     ext (p_category p) = Some s -> ext (p_category q) = Some t -> f s = f t -> i = j) ->
  NoDup (map f (map fst (group_rows ext params))).
Proof.
  intros ext f params. induction params as [|p r IH]; intros H; [constructor|].
  unfold group_rows. cbn [flat_map]. fold (group_rows ext r).
  assert (IHr : NoDup (map f (map fst (group_rows ext r)))).
  { apply IH. intros i j a b s t I J A B E.
    assert (S i = S j) by (apply (H (S i) (S j) a b s t); auto). lia. }
  destruct (ext (p_category p)) as [s|] eqn:E; [|exact IHr]. cbn [app map fst]. constructor; [|exact IHr].
  intros I. rewrite map_map in I. apply in_map_iff in I. destruct I as [[t [n v]] [F I]]. cbn [fst] in F.
  apply In_group_rows in I. destruct I as [q [[I D] _]]. apply In_nth_error in I. destruct I as [j J].
  assert (0%nat = S j) by (apply (H 0%nat (S j) p q s t); auto). discriminate.
Qed.
Lemma NoDup_levels : forall ext params, distinct_levels ext params ->
  NoDup (map (lv ext params) (map fst (group_rows ext params))).
Proof.
  intros ext params D. apply NoDup_levels_aux. intros i j p q s t I J A B E.
  apply (D i j p q s t (lv ext params s) I J A B); apply level_of_iff; auto.
Qed.

Lemma select_nth : forall A levels (rows : list A) k l r, NoDup levels -> List.length rows = List.length levels ->
  nth_error levels k = Some l -> nth_error rows k = Some r -> select levels l rows = [r].
Proof.
  intros A levels. induction levels as [|x ls IH]; intros rows k l r N L K1 K2; [destruct k; discriminate|].
  destruct rows as [|y rs]; [discriminate|]. inversion N as [|? ? NI N']; subst.
  unfold select. cbn [combine filter fst]. destruct k as [|k].
  - inversion K1; subst x. inversion K2; subst y. destruct (level_eq_dec l l) as [_|n]; [|contradiction].
    cbn [map snd]. f_equal.
    assert (Z : forall p, In p (combine ls rs) -> (if level_eq_dec (fst p) l then true else false) = false).
    { intros [a b] I. cbn [fst]. apply in_combine_l in I. destruct (level_eq_dec a l); [subst; contradiction|reflexivity]. }
    clear - Z. induction (combine ls rs) as [|p q IH]; [reflexivity|]. cbn [filter]. rewrite Z by (left; reflexivity).
    apply IH. intros; apply Z; right; assumption.
  - cbn in K1, K2. destruct (level_eq_dec x l) as [->|n].
    + exfalso. apply NI. eapply nth_error_In. exact K1.
    + apply (IH rs k l r N'); auto.
Qed.

Lemma removelast_last : forall (q : list R), q <> [] -> q = (removelast q ++ [last q 0%R])%list.
Proof. intros. apply app_removelast_last. assumption. Qed.
Lemma normalize_ok : forall p, p <> [] -> rsum p <> 0%R -> normalize_probabilities p = map (fun x => (x / rsum p)%R) p.
Proof.
  intros p NE Z. unfold normalize_probabilities. change (total p) with (rsum p).
  set (q := map (fun x => (x / rsum p)%R) p).
  assert (Q : q <> []) by (unfold q; destruct p; [contradiction|discriminate]).
  assert (T : rsum q = 1%R).
  { unfold q. rewrite (rsum_map_ext _ _ (fun x => (/ rsum p * x)%R)) by (intros; unfold Rdiv; ring).
    rewrite (rsum_map_scal _ (fun x => x)), map_id. field. exact Z. }
  pose proof (removelast_last q Q) as E.
  assert (T2 : rsum q = (rsum (removelast q) + last q 0)%R).
  { rewrite E at 1. rewrite rsum_app. cbn. ring. }
  change (total (removelast q)) with (rsum (removelast q)).
  replace (1 - rsum (removelast q))%R with (last q 0%R) by lra. symmetry. exact E.
Qed.

Lemma tiny_pos : (0 < 1 / MAX_FLOAT)%R.
Proof. unfold MAX_FLOAT. apply Rdiv_lt_0_compat; [lra|]. apply pow_lt. lra. Qed.

Lemma filter_length_all : forall A (f : A -> bool) l, (forall x, In x l -> f x = true) -> List.length (filter f l) = List.length l.
Proof.
  intros A f l H. induction l as [|x r IH]; [reflexivity|]. cbn. rewrite H by (left; reflexivity). cbn.
  rewrite IH; [reflexivity|]. intros; apply H; right; assumption.
Qed.
Lemma filter_length_lt : forall A (f : A -> bool) l x, In x l -> f x = false -> (List.length (filter f l) < List.length l)%nat.
Proof.
  intros A f l x I F. induction l as [|y r IH]; [destruct I|].
  assert (LE : (List.length (filter f r) <= List.length r)%nat) by (clear; induction r as [|z r IH]; cbn; [lia|destruct (f z); cbn; lia]).
  cbn. destruct I as [->|I]; [rewrite F; lia|]. specialize (IH I). destruct (f y); cbn; lia.
Qed.
Lemma drop_duplicates_le : forall (l : list level), (List.length (drop_duplicates level_eq_dec l) <= List.length l)%nat.
Proof.
  intros l. apply NoDup_incl_length; [apply NoDup_drop_duplicates|]. intros x. apply In_drop_duplicates.
Qed.
Lemma drop_duplicates_full : forall (l : list level), List.length (drop_duplicates level_eq_dec l) = List.length l -> NoDup l.
Proof.
  intros l E. apply (NoDup_incl_NoDup (l := drop_duplicates level_eq_dec l)); [apply NoDup_drop_duplicates|lia|].
  intros x. apply In_drop_duplicates.
Qed.

Lemma list_eq_nth_error : forall A (l l' : list A), (forall k, nth_error l k = nth_error l' k) -> l = l'.
Proof.
  intros A l. induction l as [|x r IH]; intros [|y r'] H; auto; try (specialize (H 0%nat); discriminate).
  pose proof (H 0%nat) as H0. inversion H0; subst. f_equal. apply IH. intros k. exact (H (S k)).
Qed.

(** The container of a group in which each level has one row. *)
Section Single.
  Variables (levels : list level) (rows : list (string * R)).
  Hypothesis N : NoDup levels.
  Hypothesis L : List.length rows = List.length levels.
  Definition single_container : container := map (fun l => (l, select levels l rows)) (isort level_leb levels).

  Lemma single_keys : map fst single_container = isort level_leb levels.
  Proof. unfold single_container. rewrite map_map. cbn. apply map_id. Qed.
  Lemma single_get : forall k l r, nth_error levels k = Some l -> nth_error rows k = Some r ->
    dict_get level_eq_dec l single_container = Some [r].
  Proof.
    intros k l r K1 K2. apply dict_get_In_NoDup.
    - change (NoDup (map fst single_container)). rewrite single_keys. apply NoDup_isort. exact N.
    - unfold single_container. apply in_map_iff. exists l. split.
      + f_equal. apply (select_nth _ levels rows k l r); auto.
      + apply In_isort. eapply nth_error_In. exact K1.
  Qed.
  Lemma single_sum : forall F : list (string * R) -> R,
    rsum (map (fun lr => F (snd lr)) single_container) = rsum (map (fun r => F [r]) rows).
  Proof.
    intros F. unfold single_container. rewrite map_map. cbn [snd].
    rewrite (rsum_perm _ (map (fun l => F (select levels l rows)) levels)).
    2:{ apply Permutation_map. apply Permutation_isort. }
    f_equal. apply list_eq_nth_error. intros k. rewrite !nth_error_map.
    destruct (nth_error levels k) as [l|] eqn:K1; destruct (nth_error rows k) as [r|] eqn:K2; cbn [option_map].
    - rewrite (select_nth _ levels rows k l r); auto.
    - exfalso. apply nth_error_None in K2. assert (k < List.length levels)%nat by (apply nth_error_Some; congruence). lia.
    - exfalso. apply nth_error_None in K1. assert (k < List.length rows)%nat by (apply nth_error_Some; congruence). lia.
    - reflexivity.
  Qed.
End Single.

Lemma group_total_rows : forall ext params, group_total ext params = rsum (map (fun r => snd (snd r)) (group_rows ext params)).
Proof.
  intros ext params. unfold group_total, group_rows. induction params as [|p r IH]; [reflexivity|].
  cbn [filter flat_map]. destruct (ext (p_category p)); cbn; [f_equal|]; exact IH.
Qed.

Definition constants (values : list R) : list (string * R) :=
  map (fun p => ("constant", ln (Rmax p (1 / MAX_FLOAT)))) values.
Definition rescaled (values : list R) : list R :=
  if Req_EM_T (total values) 1 then values else normalize_probabilities values.

Lemma combine_constants : forall (names : list string) (values : list R),
  (forall n, In n names -> n = "probability") -> List.length names = List.length values ->
  combine (map (fun n => if String.eqb n "probability" then "constant" else n) names)
          (map (fun p => ln (Rmax p (1 / MAX_FLOAT))) values) = constants values.
Proof.
  intros names. induction names as [|n r IH]; intros [|v vs] H L; try discriminate; [reflexivity|].
  unfold constants. cbn [map combine]. rewrite (H n) by (left; reflexivity). cbn. f_equal.
  apply IH; [intros; apply H; right; assumption | cbn in L; lia].
Qed.

Lemma normalize_length : forall p, p <> [] -> List.length (normalize_probabilities p) = List.length p.
Proof.
  intros p NE. unfold normalize_probabilities. set (q := map _ p).
  assert (Q : q <> []) by (unfold q; destruct p; [contradiction|discriminate]).
  pose proof (removelast_last q Q) as E. rewrite app_length. cbn [List.length].
  assert (List.length q = List.length p) by (unfold q; apply map_length).
  rewrite E, app_length in H. cbn [List.length] in H. exact H.
Qed.
Lemma rescaled_length : forall p, p <> [] -> List.length (rescaled p) = List.length p.
Proof. intros p NE. unfold rescaled. destruct (Req_EM_T _ _); [reflexivity | apply normalize_length; exact NE]. Qed.
Lemma rescaled_ok : forall p, p <> [] -> rsum p <> 0%R -> rescaled p = map (fun x => (x / rsum p)%R) p.
Proof.
  intros p NE Z. unfold rescaled. destruct (Req_EM_T _ _) as [E|_]; [|apply normalize_ok; assumption].
  change (total p) with (rsum p) in E. rewrite E. rewrite <- (map_id p) at 1. apply map_ext. intros. field.
Qed.

Lemma logit_index_constant : forall x, logit_index [("constant", x)] = x.
Proof. intros x. unfold logit_index. cbn. apply Rplus_0_r. Qed.

Section Probabilities.
  Variable ext : string -> option string.
  Variable params : list param.
  Hypothesis NE : exists p s, describes ext params p s.
  Hypothesis ALL : forall p s, describes ext params p s -> p_name p = "probability".
  Hypothesis D : distinct_levels ext params.

  Definition the_levels := map (lv ext params) (map fst (group_rows ext params)).
  Definition the_values := map (fun r => snd (snd r)) (group_rows ext params).

  Lemma rows_nonempty : group_rows ext params <> [].
  Proof.
    destruct NE as [p [s H]]. intros E.
    assert (I : In (s, (p_name p, snd p)) (group_rows ext params)) by (apply In_group_rows; exists p; auto).
    rewrite E in I. exact I.
  Qed.
  Lemma values_nonempty : the_values <> [].
  Proof. unfold the_values. pose proof rows_nonempty. destruct (group_rows ext params); [contradiction|discriminate]. Qed.

  Lemma parse_probabilities : parse_group ext params =
    Ok (Some (single_container the_levels (constants (rescaled the_values)))).
  Proof.
    assert (ND : NoDup the_levels) by (apply NoDup_levels; exact D).
    unfold parse_group. rewrite to_numeric_lv. fold the_levels.
    destruct (Nat.eqb_spec (List.length (group_rows ext params)) 0) as [Z|_];
      [exfalso; apply rows_nonempty; destruct (group_rows ext params); [reflexivity|discriminate]|].
    assert (NM : forall n, In n (map (fun r => fst (snd r)) (group_rows ext params)) -> n = "probability").
    { intros n I. apply in_map_iff in I. destruct I as [[s [m v]] [E I]]. cbn in E. subst m.
      apply In_group_rows in I. destruct I as [p [H [-> _]]]. exact (ALL p s H). }
    pose proof rows_nonempty as RN. pose proof values_nonempty as VN.
    fold the_values.
    rewrite drop_duplicates_NoDup_id by exact ND.
    rewrite (filter_length_all _ _ (map (fun r => fst (snd r)) (group_rows ext params))).
    2:{ intros n I. rewrite (NM n I). reflexivity. }
    rewrite length_isort.
    assert (LL : List.length the_levels = List.length (group_rows ext params))
      by (unfold the_levels; rewrite !map_length; reflexivity).
    rewrite LL, map_length, Nat.eqb_refl. cbn [andb].
    fold (rescaled the_values).
    rewrite combine_constants.
    2: exact NM.
    2:{ rewrite rescaled_length by exact VN. unfold the_values. rewrite !map_length. reflexivity. }
    reflexivity.
  Qed.

  Lemma the_lengths : List.length (constants (rescaled the_values)) = List.length the_levels.
  Proof.
    unfold constants. rewrite map_length, rescaled_length by apply values_nonempty.
    unfold the_values, the_levels. rewrite !map_length. reflexivity.
  Qed.

  Hypothesis POS : (0 < group_total ext params)%R.
  Hypothesis LARGE : forall p s, describes ext params p s -> (group_total ext params / MAX_FLOAT <= snd p)%R.

  Lemma large_value : forall v, In v the_values -> (1 / MAX_FLOAT <= v / group_total ext params)%R.
  Proof.
    intros v I. unfold the_values in I. apply in_map_iff in I. destruct I as [[s [m w]] [E I]]. cbn in E. subst w.
    apply In_group_rows in I. destruct I as [p [H [_ ->]]]. pose proof (LARGE p s H) as B.
    assert (M : (0 < MAX_FLOAT)%R) by (unfold MAX_FLOAT; apply pow_lt; lra).
    apply (Rmult_le_reg_r (group_total ext params)); [exact POS|].
    replace (snd p / group_total ext params * group_total ext params)%R with (snd p) by (field; lra).
    replace (1 / MAX_FLOAT * group_total ext params)%R with (group_total ext params / MAX_FLOAT)%R by (field; lra).
    exact B.
  Qed.
  Lemma rescaled_values : rescaled the_values = map (fun x => (x / group_total ext params)%R) the_values.
  Proof.
    rewrite rescaled_ok; [|apply values_nonempty|]; unfold the_values; rewrite <- group_total_rows; [reflexivity|lra].
  Qed.

  Lemma get_level : forall p s l, describes ext params p s -> level_of ext params s l ->
    dict_get level_eq_dec l (single_container the_levels (constants (rescaled the_values))) =
      Some [("constant", ln (snd p / group_total ext params))].
  Proof.
    intros p s l H E. apply level_of_iff in E. subst l.
    assert (I : In (s, (p_name p, snd p)) (group_rows ext params)) by (apply In_group_rows; exists p; auto).
    apply In_nth_error in I. destruct I as [k K].
    apply (single_get the_levels _ (NoDup_levels _ _ D) the_lengths k).
    - unfold the_levels. rewrite map_map, nth_error_map, K. reflexivity.
    - rewrite rescaled_values. unfold constants, the_values. rewrite !nth_error_map, K. cbn [option_map snd].
      rewrite Rmax_left; [reflexivity|]. apply large_value. unfold the_values. apply in_map_iff.
      exists (s, (p_name p, snd p)). split; [reflexivity|]. apply nth_error_In in K. exact K.
  Qed.

  Lemma exp_sum : rsum (map (fun lr => exp (logit_index (snd lr)))
                            (single_container the_levels (constants (rescaled the_values)))) = 1%R.
  Proof.
    rewrite (single_sum the_levels _ (NoDup_levels _ _ D) the_lengths (fun r => exp (logit_index r))).
    rewrite rescaled_values. unfold constants. rewrite !map_map.
    rewrite (rsum_map_ext _ _ (fun v => (/ group_total ext params * v)%R)).
    - rewrite (rsum_map_scal _ (fun v => v)), map_id. unfold the_values. rewrite <- group_total_rows.
      apply Rinv_l. lra.
    - intros v I. rewrite logit_index_constant. pose proof (large_value v I) as B. pose proof tiny_pos as T.
      rewrite Rmax_left by lra. rewrite exp_ln by lra. unfold Rdiv. ring.
  Qed.
End Probabilities.

Lemma positive_quotient : forall ext params p s, (0 < group_total ext params)%R ->
  (forall p s, describes ext params p s -> (group_total ext params / MAX_FLOAT <= snd p)%R) ->
  describes ext params p s -> (0 < snd p / group_total ext params)%R.
Proof.
  intros ext params p s POS LARGE H. pose proof (LARGE p s H) as B.
  assert (M : (0 < group_total ext params / MAX_FLOAT)%R).
  { apply Rdiv_lt_0_compat; [exact POS|]. unfold MAX_FLOAT. apply pow_lt. lra. }
  apply Rdiv_lt_0_compat; lra.
Qed.

Lemma probabilities_ok : forall ext params,
  (exists p s, describes ext params p s) ->
  (forall p s, describes ext params p s -> p_name p = "probability") ->
  distinct_levels ext params ->
  (0 < group_total ext params)%R ->
  (forall p s, describes ext params p s -> (group_total ext params / MAX_FLOAT <= snd p)%R) ->
  exists c, parse_group ext params = Ok (Some c) /\
    StronglySorted level_lt (map fst c) /\
    (forall l, In l (map fst c) <-> exists p s, describes ext params p s /\ level_of ext params s l) /\
    (forall p s l, describes ext params p s -> level_of ext params s l ->
       logit_probability c l = (snd p / group_total ext params)%R).
Proof.
  intros ext params NE ALL D POS LARGE. eexists. split; [apply parse_probabilities; assumption|].
  split; [|split].
  - rewrite single_keys. apply sorted_levels. apply NoDup_levels. exact D.
  - intros l. rewrite single_keys, In_isort. unfold the_levels. rewrite in_map_iff. split.
    + intros [s [E I]]. apply in_map_iff in I. destruct I as [[t [n v]] [Et I]]. cbn in Et. subst t.
      apply In_group_rows in I. destruct I as [p [H _]]. exists p, s. split; [exact H|]. apply level_of_iff. auto.
    + intros [p [s [H E]]]. apply level_of_iff in E. exists s. split; [auto|].
      apply in_map_iff. exists (s, (p_name p, snd p)). split; [reflexivity|]. apply In_group_rows. exists p. auto.
  - intros p s l H E. unfold logit_probability.
    rewrite (get_level ext params NE D POS LARGE p s l H E).
    rewrite (exp_sum ext params NE D POS LARGE).
    rewrite logit_index_constant. rewrite exp_ln; [field; lra|].
    apply (positive_quotient ext params p s POS LARGE H).
Qed.

(** Mixing probabilities and coefficients. *)
Lemma filter_length_iff : forall A (f : A -> bool) l, List.length (filter f l) = List.length l <-> forall x, In x l -> f x = true.
Proof.
  intros A f l. split; [|apply filter_length_all]. intros E x I. destruct (f x) eqn:F; [reflexivity|].
  pose proof (filter_length_lt A f l x I F). lia.
Qed.
Lemma filter_length_pos : forall A (f : A -> bool) l, (0 < List.length (filter f l))%nat <-> exists x, In x l /\ f x = true.
Proof.
  intros A f l. split.
  - intros H. destruct (filter f l) as [|x r] eqn:E; [cbn in H; lia|]. exists x. apply filter_In. rewrite E. left. reflexivity.
  - intros [x H]. apply filter_In in H. destruct (filter f l); [destruct H | cbn; lia].
Qed.

Lemma distinct_of_NoDup : forall ext params, NoDup (map (lv ext params) (map fst (group_rows ext params))) ->
  distinct_levels ext params.
Proof.
  intros ext params N i j p q s t l I J A B E F. apply level_of_iff in E. apply level_of_iff in F. subst l. symmetry in F.
  revert N F. generalize (lv ext params) as f. intros f N F.
  revert i j I J N. induction params as [|x r IH]; intros i j I J N; [destruct i; discriminate|].
  unfold group_rows in N. cbn [flat_map] in N. fold (group_rows ext r) in N.
  assert (IN : forall k y u, nth_error r k = Some y -> ext (p_category y) = Some u ->
            In (f u) (map f (map fst (group_rows ext r)))).
  { intros k y u K U. apply nth_error_In in K. apply in_map. apply in_map_iff. exists (u, (p_name y, snd y)).
    split; [reflexivity|]. apply In_group_rows. exists y. split; [split; assumption|auto]. }
  destruct i as [|i], j as [|j]; [reflexivity| | |].
  - cbn in I, J. inversion I; subst x. rewrite A in N. inversion N as [|? ? NI _]; subst.
    exfalso. apply NI. cbn [fst]. rewrite <- F. exact (IN j q t J B).
  - cbn in I, J. inversion J; subst x. rewrite B in N. inversion N as [|? ? NI _]; subst.
    exfalso. apply NI. cbn [fst]. rewrite F. exact (IN i p s I A).
  - f_equal. cbn in I, J. apply (IH i j I J).
    destruct (ext (p_category x)); [inversion N; assumption | exact N].
Qed.

Lemma mixing : forall ext params, parse_group ext params = ValueError <->
  (exists p s, describes ext params p s /\ p_name p = "probability") /\
  ((exists p s, describes ext params p s /\ p_name p <> "probability") \/ ~ distinct_levels ext params).
Proof.
  intros ext params.
  set (names := map (fun r : string * (string * R) => fst (snd r)) (group_rows ext params)).
  assert (PN : (exists n, In n names /\ String.eqb "probability" n = true) <->
               exists p s, describes ext params p s /\ p_name p = "probability").
  { unfold names. split.
    - intros [n [I E]]. apply String.eqb_eq in E. subst n. apply in_map_iff in I. destruct I as [[s [m v]] [Em I]].
      cbn in Em. subst m. apply In_group_rows in I. destruct I as [p [H [E _]]]. exists p, s. auto.
    - intros [p [s [H E]]]. exists "probability". split; [|reflexivity]. apply in_map_iff.
      exists (s, (p_name p, snd p)). split; [exact E|]. apply In_group_rows. exists p. auto. }
  assert (AN : (forall n, In n names -> String.eqb "probability" n = true) <->
               ~ exists p s, describes ext params p s /\ p_name p <> "probability").
  { unfold names. split.
    - intros H [p [s [I E]]]. apply E. symmetry. apply String.eqb_eq. apply H. apply in_map_iff.
      exists (s, (p_name p, snd p)). split; [reflexivity|]. apply In_group_rows. exists p. auto.
    - intros H n I. apply in_map_iff in I. destruct I as [[s [m v]] [Em I]]. cbn in Em. subst m.
      apply In_group_rows in I. destruct I as [p [Hp [E _]]]. apply String.eqb_eq. subst n.
      destruct (string_dec "probability" (p_name p)) as [e|e]; [exact e|]. exfalso. apply H. exists p, s. auto. }
  assert (LN : List.length names = List.length (group_rows ext params)) by (unfold names; apply map_length).
  unfold parse_group. rewrite to_numeric_lv. set (levels := map (lv ext params) (map fst (group_rows ext params))).
  assert (LL : List.length levels = List.length (group_rows ext params)) by (unfold levels; rewrite !map_length; reflexivity).
  fold names. rewrite length_isort.
  set (k := List.length (filter (String.eqb "probability") names)).
  set (u := List.length (drop_duplicates level_eq_dec levels)).
  assert (U : u = List.length (group_rows ext params) <-> distinct_levels ext params).
  { split.
    - intros E. apply distinct_of_NoDup. apply drop_duplicates_full. fold levels. fold u. lia.
    - intros H. unfold u. rewrite drop_duplicates_NoDup_id by (apply NoDup_levels; exact H). exact LL. }
  assert (KP : (0 < k)%nat <-> exists p s, describes ext params p s /\ p_name p = "probability")
    by (unfold k; rewrite filter_length_pos; exact PN).
  assert (KA : k = List.length (group_rows ext params) <-> ~ exists p s, describes ext params p s /\ p_name p <> "probability")
    by (unfold k; rewrite <- LN, filter_length_iff; exact AN).
  assert (KL : (k <= List.length (group_rows ext params))%nat).
  { rewrite <- LN. unfold k. clear. induction names as [|z r IH]; cbn [filter List.length]; [lia|]. destruct (String.eqb "probability" z); cbn [List.length]; lia. }
  destruct (Nat.eqb_spec (List.length (group_rows ext params)) 0) as [G|G].
  - split; [discriminate|]. intros [P _]. apply KP in P. lia.
  - destruct (Nat.eqb_spec k u) as [E1|E1].
    + destruct (Nat.eqb_spec u (List.length (group_rows ext params))) as [E2|E2]; cbn [andb].
      * split; [discriminate|]. intros [_ [H|H]]; exfalso.
        -- assert (K : k = List.length (group_rows ext params)) by congruence. apply KA in K. contradiction.
        -- apply H. apply U. exact E2.
      * destruct (Nat.ltb_spec 0 k) as [K|K].
        -- split; [|reflexivity]. intros _. split; [apply KP; exact K|]. right. intros H. apply E2. apply U. exact H.
        -- split; [discriminate|]. intros [P _]. apply KP in P. lia.
    + cbn [andb]. destruct (Nat.ltb_spec 0 k) as [K|K].
      * split; [|reflexivity]. intros _. split; [apply KP; exact K|].
        destruct (Nat.eq_dec u (List.length (group_rows ext params))) as [E2|E2].
        -- left. destruct (Nat.eq_dec k (List.length (group_rows ext params))) as [E3|E3]; [congruence|].
           assert (X : ~ (forall n, In n names -> String.eqb "probability" n = true)).
           { intros H. apply E3. apply KA. apply AN. exact H. }
           assert (Y : existsb (fun n => negb (String.eqb "probability" n)) names = true).
           { destruct (existsb _ names) eqn:Y; [reflexivity|]. exfalso. apply X. intros n I.
             destruct (String.eqb "probability" n) eqn:Z; [reflexivity|].
             assert (existsb (fun n => negb (String.eqb "probability" n)) names = true)
               by (apply existsb_exists; exists n; rewrite Z; auto). congruence. }
           apply existsb_exists in Y. destruct Y as [n [I Z]]. unfold names in I.
           apply in_map_iff in I. destruct I as [[s [m v]] [Em I]]. cbn [fst snd] in Em. subst m.
           apply In_group_rows in I. destruct I as [p [Hp [E _]]]. exists p, s. split; [exact Hp|].
           intros E'. rewrite E, E' in Z. discriminate.
        -- right. intros H. apply E2. apply U. exact H.
      * split; [discriminate|]. intros [P _]. apply KP in P. lia.
Qed.
