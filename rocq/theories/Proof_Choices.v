(** Lemmas about choices. *)
From Coq Require Import List Arith Bool Lia String Ascii Sorted Permutation.
From Verif Require Import Base Proof_Base Model_Strings Proof_Strings Model_Cache Model_Choices Spec_Choices Proof_Regex.
Import ListNotations.
Open Scope string_scope.

(** ** Sorted sets *)

Lemma leb_total_s : forall a b, String.leb a b = true \/ String.leb b a = true.
Proof. intros a b. apply String.leb_total. Qed.

Lemma compare_refl_s : forall a, String.compare a a = Eq.
Proof.
  intros a. pose proof (String.compare_antisym a a) as H.
  destruct (String.compare a a); [reflexivity | discriminate | discriminate].
Qed.

Lemma leb_trans_s : forall a b c, String.leb a b = true -> String.leb b c = true -> String.leb a c = true.
Proof.
  intros a b c H1 H2. apply leb_iff in H1. apply leb_iff in H2. apply leb_iff.
  destruct (String.compare a b) eqn:AB; [| |congruence].
  - apply String.compare_eq_iff in AB. subst. exact H2.
  - destruct (String.compare b c) eqn:BC; [| |congruence].
    + apply String.compare_eq_iff in BC. subst. congruence.
    + rewrite (compare_trans _ _ _ AB BC). discriminate.
Qed.

Lemma alphabetical_of : forall l, StronglySorted (fun a b => String.leb a b = true) l -> NoDup l ->
  alphabetical l.
Proof.
  intros l S. induction S as [|a l S IH F]; intros N; [constructor|].
  inversion N; subst. constructor; [apply IH; assumption|].
  rewrite Forall_forall in F |- *. intros b B. specialize (F b B). apply leb_iff in F.
  destruct (String.compare a b) eqn:C; [|reflexivity|congruence].
  apply String.compare_eq_iff in C. subst. contradiction.
Qed.

Lemma sorted_set_lists : forall l, lists_alphabetically (sorted_set l) (fun c => In c l).
Proof.
  intros l. unfold sorted_set. split.
  - apply alphabetical_of.
    + apply Sorted_isort; [exact leb_total_s | exact leb_trans_s].
    + apply NoDup_isort, NoDup_drop_duplicates.
  - intros c. rewrite In_isort. apply In_drop_duplicates.
Qed.

Lemma alphabetical_NoDup : forall l, alphabetical l -> NoDup l.
Proof.
  intros l S. induction S as [|a l S IH F]; constructor; [|exact IH].
  intros I. rewrite Forall_forall in F. specialize (F a I). rewrite compare_refl_s in F. discriminate.
Qed.

Lemma lists_ext : forall l P Q, (forall c, P c <-> Q c) -> lists_alphabetically l P -> lists_alphabetically l Q.
Proof. intros l P Q E [A I]. split; [exact A|]. intros c. rewrite I. apply E. Qed.

Lemma alphabetical_sorted : forall l, alphabetical l -> StronglySorted (fun a b => String.leb a b = true) l.
Proof.
  intros l S. induction S as [|a l S IH F]; constructor; [exact IH|].
  rewrite Forall_forall in *. intros b B. apply leb_iff. rewrite (F b B). discriminate.
Qed.

(** There is only one such list. *)
Lemma lists_unique : forall l l' P, lists_alphabetically l P -> lists_alphabetically l' P -> l = l'.
Proof.
  intros l l' P [A I] [A' I'].
  apply (sorted_perm_eq String.leb); try (intros; apply String.leb_antisym; assumption);
    try (apply alphabetical_sorted; assumption).
  apply NoDup_Permutation; try (apply alphabetical_NoDup; assumption).
  intros c. rewrite I, I'. reflexivity.
Qed.

Lemma mem_iff : forall x l, mem x l = true <-> In x l.
Proof.
  intros x l. unfold mem. rewrite existsb_exists. split.
  - intros [y [I E]]. apply String.eqb_eq in E. subst. exact I.
  - intros I. exists x. split; [exact I | apply String.eqb_refl].
Qed.

(** ** Classification *)

Definition words (idx : index) : Prop := forall c, In c (map fst idx) -> word c.

Lemma prefix_lists : forall idx p, words idx -> all_chars is_word p = true ->
  lists_alphabetically (infer_choices_with_prefix idx p)
    (fun c => well_named c /\ In (p ++ "_" ++ c) (map fst idx)).
Proof.
  intros idx p W P. unfold infer_choices_with_prefix.
  apply (lists_ext _ (fun c => In c _)) with (2 := sorted_set_lists _). intros c. rewrite in_flat_map.
  assert (P1 : p ++ "_" <> "") by (destruct p; discriminate).
  assert (P2 : all_chars is_word (p ++ "_") = true) by (rewrite all_chars_append, P; reflexivity).
  split.
  - intros [[cat name] [I E]]. cbn [fst] in E.
    destruct (extract (p ++ "_") is_name cat) as [g|] eqn:X; [|destruct E].
    destruct E as [<-|[]].
    assert (Wc : word cat) by (apply W; apply in_map_iff; exists (cat, name); auto).
    apply (extract_word_iff _ _ P1 P2 name_is_word) in X; [|exact Wc].
    destruct X as [G E]. split; [exact G|]. rewrite append_assoc_s in E.
    apply in_map_iff. exists (cat, name). auto.
  - intros [G I]. apply in_map_iff in I. destruct I as [[cat name] [E I]]. cbn [fst] in E.
    exists (cat, name). split; [exact I|]. cbn [fst].
    assert (Wc : word cat) by (apply W; apply in_map_iff; exists (cat, name); auto).
    assert (X : extract (p ++ "_") is_name cat = Some c).
    { apply (extract_word_iff _ _ P1 P2 name_is_word); [exact Wc|]. split; [exact G|].
      rewrite append_assoc_s. exact E. }
    rewrite X. left. reflexivity.
Qed.

Lemma experience_lists : forall idx covariates,
  lists_alphabetically (infer_choices_with_experience idx covariates)
    (uses_experience idx covariates).
Proof.
  intros idx covariates. unfold infer_choices_with_experience, uses_experience.
  apply (lists_ext _ (fun c => In c _)) with (2 := sorted_set_lists _). intros c.
  assert (P1 : "exp_" <> "") by discriminate.
  assert (P2 : all_chars is_word "exp_" = true) by reflexivity.
  rewrite in_app_iff, !in_flat_map. split.
  - intros [[name [I F]]|[[name formula] [I F]]]; apply (findall_iff _ _ P1 P2 name_is_word) in F;
      destruct F as [G F]; split; try exact G.
    + left. eauto.
    + right. apply filter_In in I. destruct I as [I X]. cbn [fst] in X.
      apply mem_iff in X. exists name, formula. auto.
  - intros [G [[name [I F]]|[name [formula [I [X F]]]]]].
    + left. exists name. split; [exact I|]. apply (findall_iff _ _ P1 P2 name_is_word). auto.
    + right. exists (name, formula). split.
      * apply filter_In. split; [exact I|]. apply mem_iff. exact X.
      * apply (findall_iff _ _ P1 P2 name_is_word). auto.
Qed.

Lemma alphabetical_filter : forall f l, alphabetical l -> alphabetical (filter f l).
Proof.
  intros f l S. induction S as [|a l S IH F]; cbn [filter]; [constructor|].
  destruct (f a); [|exact IH]. constructor; [exact IH|].
  rewrite Forall_forall in *. intros b B. apply filter_In in B. apply F. apply B.
Qed.

Lemma keys_of_units_from : forall l (d : list (string * unit)), NoDup l ->
  dict_keys (dict_update string_dec d (map (fun c => (c, tt)) l)) =
  (dict_keys d ++ filter (fun c => negb (mem c (dict_keys d))) l)%list.
Proof.
  induction l as [|x l IH]; intros d N.
  - cbn. rewrite app_nil_r. reflexivity.
  - inversion N as [|? ? X N']; subst. unfold dict_update in *. cbn [map fold_left fst snd].
    rewrite IH by exact N'. rewrite dict_keys_set. cbn [filter].
    destruct (in_dec string_dec x (dict_keys d)) as [I|I].
    + apply mem_iff in I. rewrite I. reflexivity.
    + assert (M : mem x (dict_keys d) = false).
      { destruct (mem x (dict_keys d)) eqn:M; [|reflexivity]. apply mem_iff in M. contradiction. }
      rewrite M. cbn [negb]. rewrite <- app_assoc. cbn [app]. f_equal. f_equal.
      apply filter_ext_in. intros c C. f_equal.
      destruct (mem c (dict_keys d)) eqn:E.
      * apply mem_iff. apply in_or_app. left. apply mem_iff. exact E.
      * destruct (mem c (dict_keys d ++ [x])) eqn:F; [|reflexivity].
        apply mem_iff in F. apply in_app_or in F. destruct F as [F|[->|[]]]; [|contradiction].
        apply mem_iff in F. congruence.
Qed.

Lemma keys_of_units : forall l l', NoDup l -> NoDup l' ->
  dict_keys (dict_of_pairs string_dec (map (fun c => (c, tt)) (l ++ l'))) =
  (l ++ filter (fun c => negb (mem c l)) l')%list.
Proof.
  intros l l' N N'. unfold dict_of_pairs. rewrite map_app. unfold dict_update.
  rewrite fold_left_app.
  change (fold_left _ (map (fun c => (c, tt)) l) []) with (dict_update string_dec [] (map (fun c => (c, tt)) l)).
  assert (K : dict_keys (dict_update string_dec [] (map (fun c => (c, tt)) l)) = l).
  { rewrite (keys_of_units_from l [] N). change (filter (fun _ => true) l = l). clear.
    induction l as [|x l IH]; [reflexivity|]. cbn [filter]. rewrite IH. reflexivity. }
  pose proof (keys_of_units_from l' (dict_update string_dec [] (map (fun c => (c, tt)) l)) N') as K'.
  rewrite K in K'. exact K'.
Qed.

Lemma wage_lists : forall idx, words idx ->
  lists_alphabetically (infer_choices_with_prefix idx "wage") (has_wage idx).
Proof. intros idx W. apply (prefix_lists idx "wage" W). reflexivity. Qed.
Lemma nonpec_lists : forall idx, words idx ->
  lists_alphabetically (infer_choices_with_prefix idx "nonpec") (has_nonpec idx).
Proof. intros idx W. apply (prefix_lists idx "nonpec" W). reflexivity. Qed.

Lemma mem_false_iff : forall x l, mem x l = false <-> ~ In x l.
Proof. intros x l. rewrite <- mem_iff. destruct (mem x l); split; congruence. Qed.

Lemma parse_choices_order : forall idx covariates, words idx ->
  let pc := parse_choices idx covariates in
  lists_alphabetically (pc_choices_w_wage pc) (has_wage idx) /\
  (exists others, pc_choices_w_exp pc = (pc_choices_w_wage pc ++ others)%list /\
     lists_alphabetically others
       (fun c => uses_experience idx covariates c /\ has_nonpec idx c /\ ~ has_wage idx c)) /\
  lists_alphabetically (pc_choices_wo_exp pc)
    (fun c => has_nonpec idx c /\ ~ uses_experience idx covariates c) /\
  (exists rest, pc_choices pc = (pc_choices_w_exp pc ++ rest)%list /\
     lists_alphabetically rest
       (fun c => has_nonpec idx c /\ ~ uses_experience idx covariates c /\ ~ has_wage idx c)) /\
  NoDup (pc_choices pc).
Proof.
  intros idx covariates W pc.
  pose proof (wage_lists idx W) as LW. pose proof (nonpec_lists idx W) as LN.
  pose proof (experience_lists idx covariates) as LE.
  assert (LO : lists_alphabetically
    (sorted_set (filter (fun c => mem c (infer_choices_with_prefix idx "nonpec") &&
       negb (mem c (infer_choices_with_prefix idx "wage"))) (infer_choices_with_experience idx covariates)))
    (fun c => uses_experience idx covariates c /\ has_nonpec idx c /\ ~ has_wage idx c)).
  { apply (lists_ext _ (fun c => In c _)) with (2 := sorted_set_lists _). intros c.
    rewrite filter_In, andb_true_iff, negb_true_iff, mem_iff, mem_false_iff.
    rewrite (proj2 LW), (proj2 LN), (proj2 LE). tauto. }
  assert (LX : lists_alphabetically
    (sorted_set (filter (fun c => negb (mem c (infer_choices_with_experience idx covariates)))
       (infer_choices_with_prefix idx "nonpec")))
    (fun c => has_nonpec idx c /\ ~ uses_experience idx covariates c)).
  { apply (lists_ext _ (fun c => In c _)) with (2 := sorted_set_lists _). intros c.
    rewrite filter_In, negb_true_iff, mem_false_iff. rewrite (proj2 LN), (proj2 LE). tauto. }
  split; [exact LW|]. split; [eexists; split; [reflexivity | exact LO]|]. split; [exact LX|].
  assert (NE : NoDup (pc_choices_w_exp pc)).
  { unfold pc, parse_choices. cbn [pc_choices_w_exp]. apply NoDup_app_intro.
    - apply alphabetical_NoDup, LW.
    - apply alphabetical_NoDup, LO.
    - intros c A B. apply (proj2 LW) in A. apply (proj2 LO) in B. tauto. }
  assert (NX : NoDup (pc_choices_wo_exp pc)) by (apply alphabetical_NoDup, LX).
  assert (LR : lists_alphabetically
    (filter (fun c => negb (mem c (pc_choices_w_exp pc))) (pc_choices_wo_exp pc))
    (fun c => has_nonpec idx c /\ ~ uses_experience idx covariates c /\ ~ has_wage idx c)).
  { split; [apply alphabetical_filter, LX|]. intros c.
    rewrite filter_In, negb_true_iff, mem_false_iff. unfold pc, parse_choices.
    cbn [pc_choices_w_exp pc_choices_wo_exp]. rewrite in_app_iff.
    rewrite (proj2 LX), (proj2 LO), (proj2 LW). tauto. }
  assert (E : pc_choices pc = (pc_choices_w_exp pc ++
    filter (fun c => negb (mem c (pc_choices_w_exp pc))) (pc_choices_wo_exp pc))%list).
  { unfold pc, parse_choices. cbn [pc_choices pc_choices_w_exp pc_choices_wo_exp].
    apply keys_of_units; assumption. }
  split; [eexists; split; [exact E | exact LR]|].
  rewrite E. apply NoDup_app_intro; [exact NE | apply NoDup_filter; exact NX |].
  intros c A B. apply filter_In in B. destruct B as [_ B]. apply negb_true_iff, mem_false_iff in B. contradiction.
Qed.

(** ** The order of parameters *)

Lemma sorted_set_ext : forall l l', (forall x, In x l <-> In x l') -> sorted_set l = sorted_set l'.
Proof.
  intros l l' E. apply (lists_unique _ _ (fun c => In c l)).
  - apply sorted_set_lists.
  - apply (lists_ext _ (fun c => In c l')); [intros c; symmetry; apply E | apply sorted_set_lists].
Qed.

Lemma flat_map_ext_in_iff : forall A B (f : A -> list B) l l', (forall x, In x l <-> In x l') ->
  forall y, In y (flat_map f l) <-> In y (flat_map f l').
Proof.
  intros A B f l l' E y. rewrite !in_flat_map. split; intros [x [I F]]; exists x; split; auto; apply E; exact I.
Qed.

Lemma map_ext_in_iff : forall A B (f : A -> B) l l', (forall x, In x l <-> In x l') ->
  forall y, In y (map f l) <-> In y (map f l').
Proof.
  intros A B f l l' E y. rewrite !in_map_iff. split; intros [x [I F]]; exists x; split; auto; apply E; exact F.
Qed.

Lemma parse_choices_ext : forall idx idx' cov cov',
  (forall x, In x idx <-> In x idx') -> (forall x, In x cov <-> In x cov') ->
  parse_choices idx cov = parse_choices idx' cov'.
Proof.
  intros idx idx' cov cov' E F.
  assert (EP : forall p, infer_choices_with_prefix idx p = infer_choices_with_prefix idx' p).
  { intros p. unfold infer_choices_with_prefix. apply sorted_set_ext, flat_map_ext_in_iff, E. }
  assert (EX : infer_choices_with_experience idx cov = infer_choices_with_experience idx' cov').
  { unfold infer_choices_with_experience. apply sorted_set_ext. intros c. rewrite !in_app_iff.
    rewrite (flat_map_ext_in_iff _ _ _ _ _ (map_ext_in_iff _ _ snd _ _ E)).
    rewrite (flat_map_ext_in_iff _ _ _ (filter (fun cf => existsb (String.eqb (fst cf)) (map snd idx)) cov)
      (filter (fun cf => existsb (String.eqb (fst cf)) (map snd idx')) cov')); [reflexivity|].
    intros cf. rewrite !filter_In, F.
    change (existsb (String.eqb (fst cf)) (map snd idx)) with (mem (fst cf) (map snd idx)).
    change (existsb (String.eqb (fst cf)) (map snd idx')) with (mem (fst cf) (map snd idx')).
    rewrite !mem_iff. rewrite (map_ext_in_iff _ _ snd _ _ E). reflexivity. }
  unfold parse_choices. rewrite !EP, EX. reflexivity.
Qed.

Lemma choices_iff : forall idx covariates c, words idx ->
  (In c (pc_choices (parse_choices idx covariates)) <->
   well_named c /\ (In ("wage_" ++ c) (map fst idx) \/ In ("nonpec_" ++ c) (map fst idx))).
Proof.
  intros idx covariates c W.
  destruct (parse_choices_order idx covariates W) as [LW [[l2 [E2 [_ L2]]] [_ [[l3 [E3 [_ L3]]] _]]]].
  rewrite E3, E2, !in_app_iff, L3, L2, (proj2 LW).
  assert (D : {In ("wage_" ++ c) (map fst idx)} + {~ In ("wage_" ++ c) (map fst idx)}) by (apply in_dec, string_dec).
  pose proof (experience_lists idx covariates) as [_ LE].
  assert (X : uses_experience idx covariates c \/ ~ uses_experience idx covariates c).
  { rewrite <- LE. destruct (in_dec string_dec c (infer_choices_with_experience idx covariates)); auto. }
  unfold has_wage, has_nonpec in *. tauto.
Qed.
