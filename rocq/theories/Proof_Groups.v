(** Lemmas about groups of covariates and orders of definitions. *)
From Coq Require Import List Arith Bool Lia String Ascii Permutation.
From Verif Require Import Base Proof_Base Model_Strings Proof_Strings Model_Choices Spec_Choices Proof_Regex Proof_Choices
  Model_Covariates Spec_Covariates Proof_Covariates Proof_Separation Proof_Compute Model_Cache.
Import ListNotations.
Open Scope string_scope.

Lemma built_named : forall covs base x, built_from covs base x -> In x base \/ In x (map fst covs).
Proof.
  intros covs base x B. inversion B as [? I|c f y I]; subst; [left; exact I|]. right. apply in_map_iff. exists (x, f). auto.
Qed.

Section Groups.
  Variable covs : covariates.
  Variable core dense : list string.
  Hypothesis N : NoDup (map fst covs).
  Hypothesis NC : NoDup core.
  Hypothesis ND : NoDup dense.
  Hypothesis DIS : forall x, In x core -> ~ In x dense.

  Lemma separate_ok : exists r, separate_covariates covs core dense = Some (Ok r) /\
    (forall c, In c (map fst (sc_core r)) <-> In c (map fst covs) /\ ~ built_from covs dense c) /\
    (forall c, In c (map fst (sc_dense r)) <->
       In c (map fst covs) /\ built_from covs dense c /\ ~ built_from covs core c) /\
    (forall c, In c (map fst (sc_mixed r)) <-> built_from covs dense c /\ built_from covs core c) /\
    map fst (sc_all r) = map fst covs /\
    NoDup (map fst (sc_core r)) /\ NoDup (map fst (sc_dense r)) /\ NoDup (map fst (sc_mixed r)) /\
    (forall c f deps, In (c, (f, deps)) (sc_core r ++ sc_dense r ++ sc_mixed r ++ sc_all r) ->
       In (c, f) covs /\
       forall x, In x deps <-> (built_from covs core x \/ built_from covs dense x) /\ occurs x f).
  Proof.
    destruct (separate_sets_ok covs core dense N NC ND) as [s [E [B1 [B2 [DP [N1 N2]]]]]].
    unfold separate_covariates. rewrite E.
    assert (FB : forallb (fun c => mem c (map fst covs)) (set_inter (sp_core s) (sp_dense s)) = true).
    { apply forallb_forall. intros x X. apply In_set_inter in X. rewrite B1, B2 in X. destruct X as [X1 X2].
      apply mem_iff. apply built_named in X1. apply built_named in X2. destruct X1 as [X1|X1]; [|exact X1].
      destruct X2 as [X2|X2]; [|exact X2]. exfalso. apply (DIS x X1 X2). }
    rewrite FB. eexists. split; [reflexivity|]. cbn [sc_core sc_dense sc_mixed sc_all].
    rewrite !map_map. cbn [fst]. rewrite !map_id.
    assert (DEC : forall x, built_from covs core x \/ ~ built_from covs core x).
    { intros x. rewrite <- B1. destruct (in_dec string_dec x (sp_core s)); auto. }
    split; [|split; [|split; [|split; [|split; [|split; [|split]]]]]].
    - intros c. rewrite filter_In, mem_iff, In_set_union, !In_set_minus, B1, B2.
      destruct (DEC c); tauto.
    - intros c. rewrite filter_In, mem_iff, In_set_minus, B1, B2. tauto.
    - intros c. rewrite In_set_inter, B1, B2. tauto.
    - reflexivity.
    - apply NoDup_filter, NoDup_set_union. apply NoDup_filter. exact N1.
    - apply NoDup_filter, NoDup_filter. exact N2.
    - apply NoDup_filter. exact N1.
    - assert (DT : forall c f deps, In c (map fst covs) -> (c, (formula_of covs c, deps_of s c)) = (c, (f, deps)) ->
        In (c, f) covs /\ forall x, In x deps <-> (built_from covs core x \/ built_from covs dense x) /\ occurs x f).
      { intros c f deps C Q. inversion Q; subst. pose proof (formula_of_key covs c C) as K.
        split; [exact K | apply (DP c _ K)]. }
      intros c f deps I.
      assert (CN : In c (map fst covs) /\ (c, (formula_of covs c, deps_of s c)) = (c, (f, deps))).
      { rewrite !in_app_iff, !in_map_iff in I.
        destruct I as [[c' [Q I]]|[[c' [Q I]]|[[c' [Q I]]|[c' [Q I]]]]]; inversion Q; subst; (split; [|reflexivity]).
        - apply filter_In in I. apply mem_iff. apply I.
        - apply filter_In in I. apply mem_iff. apply I.
        - rewrite forallb_forall in FB. apply mem_iff. apply FB. exact I.
        - apply in_map_iff. exists c'. auto. }
      destruct CN as [C Q]. apply (DT c f deps C Q).
  Qed.

  Lemma words_ok :
    (forall x f, In x core \/ In x dense \/ In x (map fst covs) -> In f (map snd covs) -> occurs x f -> word_of x f) ->
    exists r, separate_covariates covs core dense = Some (Ok r) /\
    map fst (sc_all r) = map fst covs /\
    (forall c f deps, In (c, (f, deps)) (sc_core r ++ sc_dense r ++ sc_mixed r ++ sc_all r) ->
       In (c, f) covs /\
       forall x, In x deps <-> (built_from covs core x \/ built_from covs dense x) /\ word_of x f).
  Proof.
    intros W. destruct separate_ok as [r [E [_ [_ [_ [A [_ [_ [_ D]]]]]]]]]. exists r. split; [exact E|]. split; [exact A|].
    intros c f deps I. destruct (D c f deps I) as [CF X]. split; [exact CF|]. intros x. rewrite X. split.
    - intros [B O]. split; [exact B|]. apply W; [|apply in_map_iff; exists (c, f); auto | exact O].
      destruct B as [B|B]; apply built_named in B; destruct B; auto.
    - intros [B [a [b [K _]]]]. split; [exact B|]. exists a, b. exact K.
  Qed.
End Groups.

Lemma derives_perm : forall V eval no_nans check_nans defs defs' (df : frame V),
  (forall x, In x defs -> In x defs') -> forall x v, derives V eval no_nans check_nans defs df x v ->
  derives V eval no_nans check_nans defs' df x v.
Proof.
  intros V eval no_nans check_nans defs defs' df S x v H.
  induction H as [x v L|c f deps e v L I E1 E2 IH E3 EV]; [apply derives_given; exact L|].
  apply (derives_formula V eval no_nans check_nans defs' df c f deps e v L (S _ I) E1 IH E3 EV).
Qed.

Lemma dependencies_complete_perm : forall V eval defs defs', (forall x, In x defs' -> In x defs) ->
  dependencies_complete V eval defs -> dependencies_complete V eval defs'.
Proof.
  intros V eval defs defs' S [D1 D2]. split.
  - intros c f deps e1 e2 I. apply (D1 c f deps e1 e2). apply S. exact I.
  - intros c f deps e I. apply (D2 c f deps e). apply S. exact I.
Qed.

Lemma compute_order : forall V eval no_nans check_nans defs defs' (df : frame V),
  NoDup (map fst defs) -> dependencies_complete V eval defs ->
  (forall c, In c (map fst defs) -> dict_get string_dec c (fr_index V df) = None) ->
  Permutation defs defs' ->
  exists df1 df2, compute_covariates V eval no_nans check_nans false defs df = Some (Ok df1) /\
    compute_covariates V eval no_nans check_nans false defs' df = Some (Ok df2) /\
    (forall x, lookup V df1 x = lookup V df2 x) /\
    (compute_covariates V eval no_nans check_nans true defs df = Some OtherError <->
     compute_covariates V eval no_nans check_nans true defs' df = Some OtherError).
Proof.
  intros V eval no_nans check_nans defs defs' df N D X P.
  assert (N' : NoDup (map fst defs')) by (apply (Permutation_NoDup (Permutation_map fst P)); exact N).
  assert (D' : dependencies_complete V eval defs').
  { apply (dependencies_complete_perm V eval defs); [|exact D]. intros x I. apply (Permutation_in _ (Permutation_sym P)). exact I. }
  assert (X' : forall c, In c (map fst defs') -> dict_get string_dec c (fr_index V df) = None).
  { intros c C. apply X. apply (Permutation_in _ (Permutation_sym (Permutation_map fst P))). exact C. }
  destruct (compute_covariates_ok V eval no_nans check_nans defs df N D X) as [df1 [L1 [E1 [A1 B1]]]].
  destruct (compute_covariates_ok V eval no_nans check_nans defs' df N' D' X') as [df2 [L2 [E2 [A2 B2]]]].
  exists df1, df2. split; [exact E1|]. split; [exact E2|].
  assert (DD : forall x v, derives V eval no_nans check_nans defs df x v <-> derives V eval no_nans check_nans defs' df x v).
  { intros x v. split; apply derives_perm; intros y I.
    - apply (Permutation_in _ P). exact I.
    - apply (Permutation_in _ (Permutation_sym P)). exact I. }
  split.
  - intros x. destruct (lookup V df1 x) as [v|] eqn:A.
    + apply L1, DD, L2 in A. auto.
    + destruct (lookup V df2 x) as [v|] eqn:B; [|reflexivity]. apply L2, DD, L1 in B. congruence.
  - assert (G : forall d dfd, (forall x v, lookup V dfd x = Some v <-> derives V eval no_nans check_nans d df x v) ->
      ((forall c, In c (map fst d) -> exists v, derives V eval no_nans check_nans d df c v) \/
       (exists c, In c (map fst d) /\ ~ exists v, derives V eval no_nans check_nans d df c v))).
    { intros d dfd LL. clear - LL. generalize (map fst d). induction l as [|c l IH]; [left; intros c []|].
      destruct (lookup V dfd c) as [v|] eqn:C.
      - destruct IH as [IH|[c' [I K]]].
        + left. intros x [<-|I]; [exists v; apply LL; exact C | apply IH; exact I].
        + right. exists c'. split; [right; exact I | exact K].
      - right. exists c. split; [left; reflexivity|]. intros [v H]. apply LL in H. congruence. }
    assert (K : forall c, In c (map fst defs) <-> In c (map fst defs')).
    { intros c. split; apply Permutation_in; [|symmetry]; apply Permutation_map; exact P. }
    split; intros H.
    + destruct (G defs df1 L1) as [T|[c [C K']]]; [rewrite (A1 T) in H; discriminate|].
      apply B2. exists c. split; [apply K; exact C|]. intros [v W]. apply K'. exists v. apply DD. exact W.
    + destruct (G defs' df2 L2) as [T|[c [C K']]]; [rewrite (A2 T) in H; discriminate|].
      apply B1. exists c. split; [apply K; exact C|]. intros [v W]. apply K'. exists v. apply DD. exact W.
Qed.

Lemma core_variables_NoDup : forall choices n, NoDup (core_variables choices n).
Proof. intros choices n. apply NoDup_set_union. constructor. Qed.
Lemma dense_variables_NoDup : forall observables n, NoDup (dense_variables observables n).
Proof. intros observables n. apply NoDup_set_union, NoDup_set_union. constructor. Qed.

Lemma core_variables_iff : forall choices n x, In x (core_variables choices n) <->
  x = "period" \/ (exists c, In c choices /\ x = "exp_" ++ c) \/
  (exists i, 1 <= i /\ i <= n /\ x = "lagged_choice_" ++ dec i).
Proof.
  intros choices n x. unfold core_variables. rewrite In_set_union. simpl. rewrite in_app_iff, !in_map_iff.
  split.
  - intros [[]|[E|[[c [E H]]|[i [E H]]]]]; [left; auto|right; left; exists c; auto|].
    apply in_seq in H. right; right. exists i. repeat split; auto; lia.
  - intros [E|[[c [H E]]|[i [H1 [H2 E]]]]]; right; [left; auto|right; left; exists c; auto|].
    right; right. exists i. split; [auto|]. apply in_seq. lia.
Qed.
Lemma dense_variables_iff : forall observables n x, In x (dense_variables observables n) <->
  In x observables \/ (2 <= n /\ (x = "type" \/ exists i, 2 <= i /\ i <= n /\ x = "type_" ++ dec i)).
Proof.
  intros observables n x. unfold dense_variables. rewrite !In_set_union.
  destruct (Nat.leb 2 n) eqn:L.
  - apply Nat.leb_le in L. change (In x ("type" :: map (fun i => "type_" ++ dec i) (seq 2 (n - 1)))) with
      ("type" = x \/ In x (map (fun i => "type_" ++ dec i) (seq 2 (n - 1)))). rewrite in_map_iff. split.
    + intros [[[]|H]|[H|[i [E H]]]]; auto. apply in_seq in H. right. split; [exact L|]. right. exists i.
      repeat split; auto; lia.
    + intros [H|[_ [H|[i [H1 [H2 E]]]]]]; auto. right. right. exists i. split; [auto|]. apply in_seq. lia.
  - apply Nat.leb_gt in L. simpl. split.
    + intros [[[]|H]|[]]; auto.
    + intros [H|[H _]]; [auto|lia].
Qed.
