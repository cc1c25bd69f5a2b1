(** Names of observables, levels, shocks and measurement errors. *)
From Coq Require Import List Arith Bool String Ascii Reals Lia Permutation Sorted.
From Verif Require Import Base Proof_Base Model_Strings Proof_Strings Model_Cache Model_Choices Spec_Choices Proof_Regex Proof_Choices
  Spec_Solve Model_Params Spec_Params Proof_Params.
Import ListNotations.
Open Scope string_scope.
Local Open Scope nat_scope.

(** ** Underscores *)

Lemma has_underscore_iff : forall s, has_underscore s = true <-> substring "_" s.
Proof.
  induction s as [|c r IH]; cbn.
  - split; [discriminate|]. intros [x [y E]]. destruct x; discriminate.
  - rewrite orb_true_iff, IH. split.
    + intros [E|[x [y ->]]]; [apply Ascii.eqb_eq in E; subst; exists "", r; reflexivity | exists (String c x), y; reflexivity].
    + intros [x [y E]]. destruct x as [|d x]; cbn in E; inversion E; subst; [left; reflexivity | right; exists x, y; reflexivity].
Qed.
Lemma has_underscore_app : forall a b, has_underscore (a ++ b) = has_underscore a || has_underscore b.
Proof. induction a as [|c a IH]; intros b; cbn; [reflexivity|]. rewrite IH, orb_assoc. reflexivity. Qed.
Lemma before_last : forall n l, has_underscore l = false -> before_last_underscore (n ++ "_" ++ l) = n.
Proof.
  induction n as [|c n IH]; intros l H.
  - cbn. rewrite H. reflexivity.
  - cbn [append before_last_underscore]. rewrite has_underscore_app. cbn [append has_underscore].
    change (Ascii.eqb "_" "_") with true. cbn [orb]. rewrite orb_true_r. f_equal. apply IH. exact H.
Qed.
Lemma rstrip_cases : forall s, exists t, s = rstrip_underscores s ++ t.
Proof.
  induction s as [|c r [t E]]; [exists ""; reflexivity|]. cbn.
  destruct (String.eqb (rstrip_underscores r) "" && Ascii.eqb c "_") eqn:B.
  - exists (String c r). reflexivity.
  - exists t. cbn. rewrite <- E. reflexivity.
Qed.
Lemma rstrip_proper : forall s, proper_name s -> rstrip_underscores s = s.
Proof.
  intros s [NE H]. assert (X : forall m, s = m ++ "_" -> False) by (intros m E; apply H; exists m; exact E). clear H.
  induction s as [|c r IH]; [contradiction|]. cbn.
  destruct r as [|d r].
  - cbn. destruct (Ascii.eqb_spec c "_") as [->|_]; [exfalso; apply (X ""); reflexivity|reflexivity].
  - rewrite IH; [|discriminate|intros m E; apply (X (String c m)); cbn; rewrite E; reflexivity]. reflexivity.
Qed.

(** ** Common prefixes *)

Lemma common_prefix_l : forall a b, exists t, a = common_prefix a b ++ t.
Proof.
  induction a as [|x a IH]; intros [|y b]; cbn; try (eexists; reflexivity).
  destruct (Ascii.eqb x y); [|eexists; reflexivity].
  destruct (IH b) as [t E]. exists t. cbn. rewrite <- E. reflexivity.
Qed.
Lemma common_prefix_r : forall a b, exists t, b = common_prefix a b ++ t.
Proof.
  induction a as [|x a IH]; intros [|y b]; cbn; try (eexists; reflexivity).
  destruct (Ascii.eqb_spec x y) as [->|_]; [|eexists; reflexivity].
  destruct (IH b) as [t E]. exists t. cbn. rewrite <- E. reflexivity.
Qed.
Lemma common_prefix_same : forall a, common_prefix a a = a.
Proof. induction a as [|x a IH]; cbn; [reflexivity|]. rewrite Ascii.eqb_refl, IH. reflexivity. Qed.

Lemma In_pairs : forall A (l : list A) a b, In (a, b) (pairs l) -> In a l /\ In b l.
Proof.
  intros A l a b. induction l as [|x r IH]; [intros []|]. cbn [pairs]. rewrite in_app_iff, in_map_iff.
  intros [[y [E I]]|I]; [inversion E; subst; cbn; auto|]. destruct (IH I). cbn; auto.
Qed.
Lemma pairs_count : forall l a, 2 <= count_occ string_dec l a -> In (a, a) (pairs l).
Proof.
  induction l as [|x r IH]; intros a C; [cbn in C; lia|]. cbn [pairs]. apply in_app_iff. cbn [count_occ] in C.
  destruct (string_dec x a) as [->|n].
  - left. apply in_map_iff. exists a. split; [reflexivity|]. apply (count_occ_In string_dec). lia.
  - right. apply IH. exact C.
Qed.

Lemma substring_contains : forall a b, contains a b = true <-> substring a b.
Proof. intros. rewrite contains_iff. reflexivity. Qed.
Lemma prefix_substring : forall p t, substring p (p ++ t).
Proof. intros. exists "", t. reflexivity. Qed.
Lemma substring_length : forall a b, substring a b -> String.length a <= String.length b.
Proof. intros a b [x [y ->]]. rewrite !length_append. lia. Qed.
Lemma substring_trans : forall a b c, substring a b -> substring b c -> substring a c.
Proof. intros a b c [x [y ->]] [x' [y' ->]]. exists (x' ++ x), (y ++ y'). rewrite !append_assoc_s. reflexivity. Qed.
Lemma substring_antisym : forall a b, substring a b -> substring b a -> a = b.
Proof.
  intros a b [x [y ->]] H. apply substring_length in H. rewrite !length_append in H.
  destruct x; [|cbn in H; lia]. destruct y; [|cbn in H; lia]. cbn. rewrite append_nil_r. reflexivity.
Qed.

(** ** Names *)

Section Names.
  Variable keyword : string.
  Variable categories : list string.
  Variable rows : list (string * string).
  Hypothesis CATS : filter (prefix (keyword ++ "_")) categories = map (observable_category keyword) rows.
  Hypothesis SIMPLE : simple_rows rows.

  Definition cats (all_categories : list string) : list string :=
    flat_map (fun c => match after_prefix (keyword ++ "_") c with
                       | Some r => [before_last_underscore r]
                       | None => []
                       end) all_categories.

  Lemma cats_filter : forall l, cats l = cats (filter (prefix (keyword ++ "_")) l).
  Proof.
    intros l. unfold cats. induction l as [|c l IH]; [reflexivity|]. cbn [filter flat_map].
    destruct (prefix (keyword ++ "_") c) eqn:P.
    - cbn [flat_map]. rewrite IH. reflexivity.
    - destruct (after_prefix (keyword ++ "_") c) as [r|] eqn:A; [|exact IH].
      apply after_prefix_iff in A. assert (prefix (keyword ++ "_") c = true) by (apply prefix_iff; eauto). congruence.
  Qed.
  Lemma cats_names : cats categories = map fst rows.
  Proof.
    rewrite cats_filter, CATS. clear CATS.
    assert (S' : forall n l, In (n, l) rows -> has_underscore l = false).
    { intros n l I. destruct (SIMPLE n l I) as [_ [U _]]. destruct (has_underscore l) eqn:E; [|reflexivity].
      apply has_underscore_iff in E. contradiction. }
    clear SIMPLE. induction rows as [|[n l] r IH]; [reflexivity|]. unfold cats. cbn [map flat_map].
    assert (A : after_prefix (keyword ++ "_") (observable_category keyword (n, l)) = Some (n ++ "_" ++ l)).
    { apply after_prefix_iff. unfold observable_category. rewrite append_assoc_s. reflexivity. }
    rewrite A. cbn [app fst]. rewrite before_last by (apply (S' n l); left; reflexivity). f_equal.
    apply IH. intros m k I. apply (S' m k). right. exact I.
  Qed.

  Definition prefs : list string :=
    drop_duplicates string_dec
      (map rstrip_underscores (filter (fun p => negb (String.eqb p ""))
        (map (fun ab => common_prefix (fst ab) (snd ab)) (pairs (map fst rows))))).
  Definition is_sub (a : string) : bool := existsb (fun b => negb (String.eqb a b) && contains a b) prefs.
  Definition found : list string := sorted_set (filter (fun a => negb (is_sub a)) prefs).

  Lemma name_row : forall n, In n (map fst rows) -> proper_name n /\ 2 <= count_occ string_dec (map fst rows) n.
  Proof.
    intros n I. apply in_map_iff in I. destruct I as [[m l] [E I]]. cbn in E. subst m.
    destruct (SIMPLE n l I) as [P [_ C]]. auto.
  Qed.
  Lemma names_in_prefs : forall n, In n (map fst rows) -> In n prefs.
  Proof.
    intros n I. destruct (name_row n I) as [P C]. apply In_drop_duplicates. apply in_map_iff. exists n.
    split; [apply rstrip_proper; exact P|]. apply filter_In. split.
    - apply in_map_iff. exists (n, n). split; [apply common_prefix_same|]. apply pairs_count. exact C.
    - destruct P as [NE _]. apply String.eqb_neq in NE. rewrite NE. reflexivity.
  Qed.
  Lemma prefs_are_prefixes : forall p, In p prefs ->
    exists a b, In a (map fst rows) /\ In b (map fst rows) /\ p = rstrip_underscores (common_prefix a b).
  Proof.
    intros p I. apply In_drop_duplicates in I. apply in_map_iff in I. destruct I as [q [<- I]].
    apply filter_In in I. destruct I as [I _]. apply in_map_iff in I. destruct I as [[a b] [<- I]].
    apply In_pairs in I. exists a, b. cbn. tauto.
  Qed.
  Lemma rstrip_substring : forall p, substring (rstrip_underscores p) p.
  Proof. intros p. destruct (rstrip_cases p) as [t E]. exists "", t. exact E. Qed.

  Lemma In_found : forall p, In p found <-> In p prefs /\ forall b, In b prefs -> substring p b -> p = b.
  Proof.
    intros p. unfold found. rewrite (proj2 (sorted_set_lists _)), filter_In, negb_true_iff. unfold is_sub. split.
    - intros [I H]. split; [exact I|]. intros b B S. destruct (string_dec p b) as [e|n]; [exact e|].
      assert (X : existsb (fun b => negb (String.eqb p b) && contains p b) prefs = true).
      { apply existsb_exists. exists b. split; [exact B|]. apply String.eqb_neq in n. rewrite n.
        apply substring_contains in S. rewrite S. reflexivity. }
      congruence.
    - intros [I H]. split; [exact I|]. destruct (existsb _ prefs) eqn:X; [|reflexivity].
      apply existsb_exists in X. destruct X as [b [B E]]. apply andb_true_iff in E. destruct E as [E1 E2].
      apply negb_true_iff, String.eqb_neq in E1. apply substring_contains in E2. exfalso. apply E1. auto.
  Qed.

  Lemma parse_names_unfold : parse_names keyword categories =
    (if Nat.eqb (List.length (filter (fun c => existsb (fun p => prefix p c) found) (map fst rows))) (List.length (map fst rows))
     then Ok found else ValueError).
  Proof.
    unfold parse_names. fold (cats categories). rewrite cats_names. reflexivity.
  Qed.

  Lemma names_ok :
    (forall a b, In a (map fst rows) -> In b (map fst rows) -> substring a b -> a = b) ->
    exists r, parse_names keyword categories = Ok r /\ lists_alphabetically r (fun n => In n (map fst rows)).
  Proof.
    intros NS.
    assert (F : forall p, In p found <-> In p (map fst rows)).
    { intros p. rewrite In_found. split.
      - intros [I H]. destruct (prefs_are_prefixes p I) as [a [b [A [B E]]]].
        assert (SA : substring p a).
        { subst p. eapply substring_trans; [apply rstrip_substring|]. destruct (common_prefix_l a b) as [t Et].
          exists "", t. exact Et. }
        rewrite (H a (names_in_prefs a A) SA). exact A.
      - intros I. split; [apply names_in_prefs; exact I|]. intros b B S.
        destruct (prefs_are_prefixes b B) as [a [a' [A [A' E]]]].
        assert (SA : substring b a).
        { subst b. eapply substring_trans; [apply rstrip_substring|]. destruct (common_prefix_l a a') as [t Et].
          exists "", t. exact Et. }
        assert (p = a) by (apply NS; auto; eapply substring_trans; eassumption). subst a.
        apply substring_antisym; assumption. }
    exists found. rewrite parse_names_unfold. split.
    - rewrite filter_length_all; [rewrite Nat.eqb_refl; reflexivity|]. intros c I. apply existsb_exists. exists c.
      split; [apply F; exact I|]. apply prefix_iff. exists "". rewrite append_nil_r. reflexivity.
    - apply (lists_ext _ (fun c => In c (filter (fun a => negb (is_sub a)) prefs))).
      + intros c. rewrite <- F. unfold found. rewrite (proj2 (sorted_set_lists _)). reflexivity.
      + apply sorted_set_lists.
  Qed.

  Lemma substring_names_error : forall a b, In a (map fst rows) -> In b (map fst rows) -> a <> b -> substring a b ->
    parse_names keyword categories = ValueError.
  Proof.
    intros a b A B N S. rewrite parse_names_unfold.
    assert (L : List.length (filter (fun c => existsb (fun p => prefix p c) found) (map fst rows)) < List.length (map fst rows)).
    { apply (filter_length_lt _ _ _ a A). destruct (existsb _ found) eqn:E; [|reflexivity]. exfalso.
      apply existsb_exists in E. destruct E as [p [P Q]]. apply prefix_iff in Q. destruct Q as [t Q].
      apply In_found in P. destruct P as [_ H].
      assert (p = a) by (apply H; [apply names_in_prefs; exact A | exists "", t; exact Q]). subst p.
      apply N. apply H; [apply names_in_prefs; exact B | exact S]. }
    apply Nat.lt_neq in L. apply Nat.eqb_neq in L. rewrite L. reflexivity.
  Qed.
End Names.

(** ** Levels of exogenous processes *)

Definition levels_in (d : list (string * container)) (n : string) : option (list level) :=
  option_map (map fst) (dict_get string_dec n d).

Lemma merge_one_ok : forall obs e obs', merge_one (Ok obs) e = Ok obs' ->
  (forall n levels, levels_in obs n = Some levels -> levels_in obs' n = Some levels) /\
  (exists levels, levels_in obs' (fst e) = Some levels /\
     (levels_in obs (fst e) = None -> levels = map fst (snd e)) /\
     forall l, In l (map fst (snd e)) -> In l levels) /\
  (forall n, n <> fst e -> levels_in obs' n = levels_in obs n) /\
  (NoDup (dict_keys obs) -> NoDup (dict_keys obs')).
Proof.
  intros obs [e ec] obs' H. unfold merge_one in H. cbn [result_bind fst snd] in H. unfold levels_in. cbn [fst snd].
  destruct (dict_get string_dec e obs) as [levels|] eqn:G.
  - destruct (forallb _ ec) eqn:F; [|discriminate]. inversion H; subst. split; [auto|]. split; [|split; [auto|auto]].
    exists (map fst levels). rewrite G. split; [reflexivity|]. split; [discriminate|].
    intros l I. apply in_map_iff in I. destruct I as [lc [<- I]]. rewrite forallb_forall in F. specialize (F lc I).
    destruct (in_dec level_eq_dec (fst lc) (map fst levels)); [assumption|discriminate].
  - inversion H; subst. split; [|split; [|split]].
    + intros n levels E. destruct (string_dec n e) as [->|ne]; [rewrite G in E; discriminate|].
      rewrite dict_get_set_other by exact ne. exact E.
    + exists (map fst ec). rewrite dict_get_set_same. cbn. rewrite map_map. cbn. split; [reflexivity|]. auto.
    + intros n ne. rewrite dict_get_set_other by exact ne. reflexivity.
    + intros N. apply NoDup_keys_set. exact N.
Qed.
Lemma merge_fold_error : forall exog (r : result (list (string * container))), (forall x, r <> Ok x) ->
  fold_left merge_one exog r = r.
Proof.
  induction exog as [|e exog IH]; intros r H; [reflexivity|]. cbn.
  assert (E : merge_one r e = r) by (destruct r; try reflexivity; exfalso; exact (H _ eq_refl)).
  rewrite E. apply IH. exact H.
Qed.
Lemma merge_fold_ok : forall exog obs merged, fold_left merge_one exog (Ok obs) = Ok merged ->
  NoDup (map fst exog) -> NoDup (dict_keys obs) ->
  NoDup (dict_keys merged) /\
  (forall n levels, levels_in obs n = Some levels -> levels_in merged n = Some levels) /\
  (forall e ec, In (e, ec) exog -> exists levels, levels_in merged e = Some levels /\
     (levels_in obs e = None -> levels = map fst ec) /\ forall l, In l (map fst ec) -> In l levels) /\
  (forall n, ~ In n (map fst exog) -> levels_in merged n = levels_in obs n).
Proof.
  induction exog as [|e exog IH]; intros obs merged H N NO.
  - cbn in H. inversion H; subst. split; [exact NO|]. split; [auto|]. split; [intros e ec []|auto].
  - cbn [fold_left] in H.
    destruct (merge_one (Ok obs) e) as [obs'| | | | |] eqn:M;
      try (rewrite merge_fold_error in H by (intros; discriminate); discriminate).
    destruct (merge_one_ok obs e obs' M) as [A [[lv [B1 [B2 B3]]] [C ND]]]. inversion N as [|? ? NI N']; subst.
    destruct (IH obs' merged H N' (ND NO)) as [I0 [I1 [I2 I3]]]. split; [exact I0|]. split; [|split].
    + intros n levels L. apply I1. apply A. exact L.
    + intros e' ec [->|I].
      * exists lv. split; [apply I1; exact B1|]. auto.
      * destruct (I2 e' ec I) as [levels [L1 [L2 L3]]]. exists levels. split; [exact L1|]. split; [|exact L3].
        intros L. apply L2. rewrite C; [exact L|]. intros ->. apply NI. apply in_map_iff. exists (fst e, ec). auto.
    + intros n NI'. rewrite I3; [|intros I; apply NI'; right; exact I]. apply C. intros ->. apply NI'. left. reflexivity.
Qed.

Lemma leb_fst_total : forall a b : string * container, String.leb (fst a) (fst b) = true \/ String.leb (fst b) (fst a) = true.
Proof. intros. apply leb_total_s. Qed.
Lemma levels_in_sorted : forall d n, NoDup (dict_keys d) ->
  levels_in (isort (fun a b => String.leb (fst a) (fst b)) d) n = levels_in d n.
Proof.
  intros d n N. unfold levels_in. f_equal. pose proof (Permutation_isort (fun a b : string * container => String.leb (fst a) (fst b)) d) as P.
  assert (N' : NoDup (dict_keys (isort (fun a b : string * container => String.leb (fst a) (fst b)) d))).
  { unfold dict_keys. eapply Permutation_NoDup; [apply Permutation_map; symmetry; exact P | exact N]. }
  destruct (dict_get string_dec n d) as [c|] eqn:G.
  - apply dict_get_In_NoDup; [exact N'|]. apply In_isort. apply dict_get_Some_In in G. exact G.
  - apply dict_get_None in G. apply dict_get_None. intros I. apply G. unfold dict_keys in *.
    apply in_map_iff in I. destruct I as [x [E I]]. apply In_isort in I. apply in_map_iff. exists x. auto.
Qed.

Lemma strongly_sorted_levels_unique : forall l l', StronglySorted level_lt l -> StronglySorted level_lt l' ->
  (forall x, In x l <-> In x l') -> l = l'.
Proof.
  assert (AS : forall x y, level_lt x y -> level_lt y x -> False).
  { intros x y [A NE] [B _]. apply NE. destruct x as [x|x], y as [y|y]; cbn in A, B; try discriminate.
    - f_equal. apply leb_iff in A. apply leb_iff in B.
      destruct (String.compare x y) eqn:C; [apply String.compare_eq_iff; exact C| |congruence].
      rewrite String.compare_antisym, C in B. cbn in B. congruence.
    - f_equal. apply Nat.leb_le in A. apply Nat.leb_le in B. lia. }
  induction l as [|x l IH]; intros [|y l'] S S' E; auto.
  - destruct (proj2 (E y)); left; reflexivity.
  - destruct (proj1 (E x)); left; reflexivity.
  - inversion S as [|? ? S1 F1]; inversion S' as [|? ? S2 F2]; subst. rewrite Forall_forall in F1, F2.
    assert (x = y).
    { destruct (proj1 (E x) (or_introl eq_refl)) as [->|I]; [reflexivity|].
      destruct (proj2 (E y) (or_introl eq_refl)) as [->|J]; [reflexivity|].
      exfalso. apply (AS x y); auto. }
    subst y. f_equal. apply IH; auto. intros z. split; intros I.
    + destruct (proj1 (E z) (or_intror I)) as [<-|J]; [|exact J]. destruct (F1 x I) as [_ NE]. congruence.
    + destruct (proj2 (E z) (or_intror I)) as [<-|J]; [|exact J]. destruct (F2 x I) as [_ NE]. congruence.
Qed.

Lemma merge_ok : forall exog obs merged, merge_observables exog obs = Ok merged ->
  NoDup (map fst exog) -> NoDup (map fst obs) ->
  (forall e ec, In (e, ec) exog -> exists c, dict_get string_dec e merged = Some c /\
     (forall l, In l (map fst ec) -> In l (map fst c)) /\
     (~ In e (map fst obs) -> map fst c = map fst ec)) /\
  (forall o c, In (o, c) obs -> exists c', dict_get string_dec o merged = Some c' /\ map fst c' = map fst c).
Proof.
  intros exog obs merged H N NO. unfold merge_observables in H.
  destruct (fold_left merge_one exog (Ok obs)) as [m| | | | |] eqn:F; cbn in H; try discriminate. inversion H; subst. clear H.
  destruct (merge_fold_ok exog obs m F N NO) as [N1 [A [B _]]].
  assert (G : forall n levels, levels_in m n = Some levels ->
    exists c, dict_get string_dec n (isort (fun a b => String.leb (fst a) (fst b)) m) = Some c /\ map fst c = levels).
  { intros n levels L. rewrite <- (levels_in_sorted m n N1) in L. unfold levels_in in L.
    destruct (dict_get string_dec n _) as [c|]; [|discriminate]. exists c. cbn in L. inversion L. auto. }
  split.
  - intros e ec I. destruct (B e ec I) as [levels [L1 [L2 L3]]]. destruct (G e levels L1) as [c [C1 C2]].
    exists c. split; [exact C1|]. rewrite C2. split; [exact L3|]. intros NI. apply L2. unfold levels_in.
    assert (X : dict_get string_dec e obs = None) by (apply dict_get_None; exact NI). rewrite X. reflexivity.
  - intros o c I. apply G. apply A. unfold levels_in. rewrite (dict_get_In_NoDup string_dec o c obs NO I). reflexivity.
Qed.

Lemma merge_rejects : forall exog obs, NoDup (map fst exog) -> NoDup (map fst obs) ->
  (merge_observables exog obs = ValueError <->
   exists e ec c l, In (e, ec) exog /\ In (e, c) obs /\ In l (map fst ec) /\ ~ In l (map fst c)) /\
  (merge_observables exog obs = ValueError \/ exists merged, merge_observables exog obs = Ok merged).
Proof.
  intros exog obs N NO.
  assert (M : forall exog obs, NoDup (map fst exog) -> NoDup (map fst obs) ->
    (fold_left merge_one exog (Ok obs) = ValueError /\
       exists e ec c l, In (e, ec) exog /\ In (e, c) obs /\ In l (map fst ec) /\ ~ In l (map fst c)) \/
    (exists merged, fold_left merge_one exog (Ok obs) = Ok merged) /\
       ~ exists e ec c l, In (e, ec) exog /\ In (e, c) obs /\ In l (map fst ec) /\ ~ In l (map fst c)).
  { clear. induction exog as [|[e ec] exog IH]; intros obs N NO.
    - right. split; [exists obs; reflexivity|]. intros [e [ec [c [l [[] _]]]]].
    - inversion N as [|? ? NI N']; subst. cbn [fold_left].
      unfold merge_one at 2 4. cbn [result_bind fst snd].
      destruct (dict_get string_dec e obs) as [c|] eqn:G.
      + apply dict_get_Some_In in G.
        destruct (forallb _ ec) eqn:F.
        * rewrite forallb_forall in F.
          assert (FF : forall l, In l (map fst ec) -> In l (map fst c)).
          { intros l I. apply in_map_iff in I. destruct I as [lc [<- I]]. specialize (F lc I).
            destruct (in_dec level_eq_dec (fst lc) (map fst c)); [assumption|discriminate]. }
          destruct (IH obs N' NO) as [[E X]|[E X]]; [left|right]; (split; [exact E|]).
          -- destruct X as [e' [ec' [c' [l X]]]]. exists e', ec', c', l. cbn. tauto.
          -- intros [e' [ec' [c' [l [[I|I] [J [K L]]]]]]].
             ++ inversion I; subst e' ec'. assert (c' = c).
                { pose proof (dict_get_In_NoDup string_dec e c' obs NO J). pose proof (dict_get_In_NoDup string_dec e c obs NO G). congruence. }
                subst c'. apply L. apply FF. exact K.
             ++ apply X. exists e', ec', c', l. auto.
        * left. rewrite merge_fold_error by (intros; discriminate). split; [reflexivity|].
          assert (Y : exists lc, In lc ec /\ ~ In (fst lc) (map fst c)).
          { clear - F. induction ec as [|lc ec IH]; [discriminate|]. cbn in F.
            destruct (in_dec level_eq_dec (fst lc) (map fst c)) as [i|n]; [|exists lc; cbn; auto].
            destruct (IH F) as [x [I J]]. exists x. cbn; auto. }
          destruct Y as [lc [I J]]. exists e, ec, c, (fst lc). split; [left; reflexivity|]. split; [exact G|].
          split; [apply in_map; exact I|exact J].
      + apply dict_get_None in G. set (d := map (fun lc : level * list (string * R) => (fst lc, constant 0)) ec).
        assert (NO' : NoDup (map fst (dict_set string_dec e d obs))) by (apply (NoDup_keys_set string_dec); exact NO).
        assert (II : forall e' c', e' <> e -> (In (e', c') (dict_set string_dec e d obs) <-> In (e', c') obs)).
        { intros e' c' ne. rewrite dict_set_fresh by exact G. rewrite in_app_iff. cbn. split; [|auto].
          intros [I|[I|[]]]; [exact I|]. inversion I; subst. congruence. }
        destruct (IH _ N' NO') as [[E X]|[E X]]; [left|right]; (split; [exact E|]).
        * destruct X as [e' [ec' [c' [l [I [J [K L]]]]]]]. exists e', ec', c', l. split; [right; exact I|].
          split; [|auto]. apply II; [|exact J]. intros ->. apply NI. apply in_map_iff. exists (e, ec'). auto.
        * intros [e' [ec' [c' [l [[I|I] [J [K L]]]]]]].
          -- inversion I; subst e' ec'. apply G. apply in_map_iff. exists (e, c'). auto.
          -- apply X. exists e', ec', c', l. split; [exact I|]. split; [|auto]. apply II; [|exact J].
             intros ->. apply NI. apply in_map_iff. exists (e, ec'). auto. }
  unfold merge_observables. destruct (M exog obs N NO) as [[E X]|[[m E] X]]; rewrite E; cbn [result_bind].
  - split; [|auto]. split; auto.
  - split; [split; [discriminate|intros H; contradiction]|]. right. eauto.
Qed.
