(** Lemmas about the separation of covariates. *)
From Coq Require Import List Arith Bool Lia String Ascii Permutation.
From Verif Require Import Base Proof_Base Model_Strings Proof_Strings Model_Choices Spec_Choices Proof_Choices
  Model_Covariates Spec_Covariates Proof_Covariates.
Import ListNotations.
Open Scope string_scope.

(** One of the two sets. *)
Definition side_one (s : list string) (cf : string * string) : list string :=
  match filter (fun i => contains i (snd cf)) s with [] => s | _ => set_add (fst cf) s end.

Lemma In_side_one : forall s cf x, In x (side_one s cf) <->
  In x s \/ (x = fst cf /\ exists i, In i s /\ contains i (snd cf) = true).
Proof.
  intros s cf x. unfold side_one. destruct (filter (fun i => contains i (snd cf)) s) as [|i l] eqn:F.
  - split; [auto|]. intros [H|[_ [i [I K]]]]; [exact H|]. exfalso.
    assert (X : In i (filter (fun i => contains i (snd cf)) s)) by (apply filter_In; auto).
    rewrite F in X. exact X.
  - rewrite In_set_add. assert (X : In i (filter (fun i => contains i (snd cf)) s)) by (rewrite F; left; reflexivity).
    apply filter_In in X. split.
    + intros [->|H]; [right; split; [reflexivity | exists i; exact X] | auto].
    + intros [H|[-> _]]; auto.
Qed.
Lemma NoDup_side_one : forall s cf, NoDup s -> NoDup (side_one s cf).
Proof. intros s cf H. unfold side_one. destruct (filter _ s); [exact H | apply NoDup_set_add; exact H]. Qed.

Definition side_pass (cs : covariates) (s : list string) : list string := fold_left side_one cs s.

Lemma side_grows : forall cs s x, In x s -> In x (side_pass cs s).
Proof.
  induction cs as [|cf cs IH]; intros s x H; [exact H|]. unfold side_pass in *. cbn [fold_left].
  apply IH. apply In_side_one. left. exact H.
Qed.
Lemma NoDup_side : forall cs s, NoDup s -> NoDup (side_pass cs s).
Proof.
  induction cs as [|cf cs IH]; intros s H; [exact H|]. unfold side_pass in *. cbn [fold_left].
  apply IH, NoDup_side_one, H.
Qed.
Lemma side_adds : forall cs s c f i, In (c, f) cs -> In i s -> contains i f = true -> In c (side_pass cs s).
Proof.
  induction cs as [|cf cs IH]; intros s c f i I S K; [destruct I|]. unfold side_pass in *. cbn [fold_left].
  destruct I as [->|I].
  - apply side_grows. apply In_side_one. right. split; [reflexivity | eauto].
  - apply (IH _ c f i I); [|exact K]. apply In_side_one. left. exact S.
Qed.
Lemma side_sound : forall covs base cs s, incl cs covs -> (forall x, In x s -> built_from covs base x) ->
  (forall x, In x s -> In x base \/ In x (map fst covs)) ->
  (forall x, In x (side_pass cs s) -> built_from covs base x /\ (In x base \/ In x (map fst covs))).
Proof.
  intros covs base. induction cs as [|[c f] cs IH]; intros s I B L x X; [auto|].
  unfold side_pass in *. cbn [fold_left] in X.
  apply (IH (side_one s (c, f))); [intros y Y; apply I; right; exact Y | | | exact X].
  - intros y Y. apply In_side_one in Y. destruct Y as [Y|[-> [i [S K]]]]; [auto|]. cbn [fst snd] in *.
    apply (built_cov covs base c f i); [apply I; left; reflexivity | apply B; exact S | apply occurs_iff; exact K].
  - intros y Y. apply In_side_one in Y. destruct Y as [Y|[-> _]]; [auto|]. right. apply in_map_iff.
    exists (c, f). split; [reflexivity | apply I; left; reflexivity].
Qed.

Lemma pass_core : forall cs s, sp_core (fold_left separate_one cs s) = side_pass cs (sp_core s).
Proof.
  induction cs as [|[c f] cs IH]; intros s; [reflexivity|]. unfold side_pass in *. cbn [fold_left].
  rewrite IH. reflexivity.
Qed.
Lemma pass_dense : forall cs s, sp_dense (fold_left separate_one cs s) = side_pass cs (sp_dense s).
Proof.
  induction cs as [|[c f] cs IH]; intros s; [reflexivity|]. unfold side_pass in *. cbn [fold_left].
  rewrite IH. reflexivity.
Qed.

Lemma deps_one : forall s c f c' x, In x (deps_of (separate_one s (c, f)) c') <->
  In x (deps_of s c') \/ (c' = c /\ (In x (sp_core s) \/ In x (sp_dense s)) /\ contains x f = true).
Proof.
  intros s c f c' x. unfold separate_one, deps_of at 1. cbn [sp_deps].
  destruct (string_dec c' c) as [->|NE].
  - rewrite dict_get_set_same, In_set_union, in_app_iff, !filter_In. tauto.
  - rewrite dict_get_set_other by exact NE. unfold deps_of. split; [auto|]. intros [H|[E _]]; [exact H | contradiction].
Qed.

Lemma deps_grow : forall cs s c x, In x (deps_of s c) -> In x (deps_of (fold_left separate_one cs s) c).
Proof.
  induction cs as [|[c f] cs IH]; intros s c' x H; [exact H|]. cbn [fold_left]. apply IH. apply deps_one. auto.
Qed.
Lemma deps_complete : forall cs s c f x, In (c, f) cs -> In x (sp_core s) \/ In x (sp_dense s) ->
  contains x f = true -> In x (deps_of (fold_left separate_one cs s) c).
Proof.
  induction cs as [|[c' f'] cs IH]; intros s c f x I S K; [destruct I|]. cbn [fold_left].
  destruct I as [E|I].
  - inversion E; subst. apply deps_grow. apply deps_one. auto.
  - apply (IH _ c f x I); [|exact K].
    destruct S as [S|S]; [left; apply (In_side_one (sp_core s) (c', f') x) | right; apply (In_side_one (sp_dense s) (c', f') x)]; auto.
Qed.
Lemma deps_sound : forall cs s c x, In x (deps_of (fold_left separate_one cs s) c) ->
  In x (deps_of s c) \/ exists f, In (c, f) cs /\ contains x f = true /\
    (In x (sp_core (fold_left separate_one cs s)) \/ In x (sp_dense (fold_left separate_one cs s))).
Proof.
  induction cs as [|[c' f'] cs IH]; intros s c x H; [auto|]. cbn [fold_left] in *.
  destruct (IH _ _ _ H) as [D|[f [I [K S]]]].
  - apply deps_one in D. destruct D as [D|[-> [S K]]]; [auto|]. right. exists f'.
    split; [left; reflexivity|]. split; [exact K|]. rewrite pass_core, pass_dense.
    destruct S as [S|S]; [left|right]; apply side_grows;
      [apply (In_side_one (sp_core s) (c', f') x) | apply (In_side_one (sp_dense s) (c', f') x)]; auto.
  - right. exists f. split; [right; exact I|]. auto.
Qed.

Section Separate.
  Variable covs : covariates.
  Variable core dense : list string.
  Hypothesis N : NoDup (map fst covs).
  Hypothesis NC : NoDup core.
  Hypothesis ND : NoDup dense.

  Definition sep_inv (s : separation) : Prop :=
    NoDup (sp_core s) /\ NoDup (sp_dense s) /\
    (forall x, In x (sp_core s) -> built_from covs core x /\ (In x core \/ In x (map fst covs))) /\
    (forall x, In x (sp_dense s) -> built_from covs dense x /\ (In x dense \/ In x (map fst covs))) /\
    incl core (sp_core s) /\ incl dense (sp_dense s) /\
    (forall c x, In x (deps_of s c) -> exists f, In (c, f) covs /\ contains x f = true /\
       (In x (sp_core s) \/ In x (sp_dense s))).

  Lemma length_bound : forall base l, NoDup l -> (forall x, In x l -> In x base \/ In x (map fst covs)) ->
    List.length l <= List.length base + List.length covs.
  Proof.
    intros base l H1 H2. rewrite <- (map_length fst covs), <- app_length. apply NoDup_incl_length; [exact H1|].
    intros x X. apply in_or_app. apply H2. exact X.
  Qed.

  Lemma separate_sets_ok : exists s, separate_sets covs core dense = Some s /\
    (forall x, In x (sp_core s) <-> built_from covs core x) /\
    (forall x, In x (sp_dense s) <-> built_from covs dense x) /\
    (forall c f, In (c, f) covs -> forall x, In x (deps_of s c) <->
       (built_from covs core x \/ built_from covs dense x) /\ occurs x f) /\
    NoDup (sp_core s) /\ NoDup (sp_dense s).
  Proof.
    set (s0 := mkSeparation core dense (map (fun cf => (fst cf, [])) covs)).
    assert (I0 : sep_inv s0).
    { split; [exact NC|]. split; [exact ND|].
      split; [intros x X; split; [apply built_base; exact X | left; exact X]|].
      split; [intros x X; split; [apply built_base; exact X | left; exact X]|].
      split; [apply incl_refl|]. split; [apply incl_refl|].
      intros c x X. exfalso. unfold deps_of, s0 in X. cbn [sp_deps] in X.
      destruct (dict_get string_dec c _) as [l|] eqn:G; [|destruct X].
      apply dict_get_Some_In in G. apply in_map_iff in G. destruct G as [cf [G _]]. inversion G; subst. destruct X. }
    assert (IB : forall s, sep_inv s -> sep_inv (separate_pass covs s)).
    { intros s [H1 [H2 [H3 [H4 [H5 [H6 H7]]]]]]. unfold separate_pass, sep_inv. rewrite pass_core, pass_dense.
      split; [apply NoDup_side; exact H1|]. split; [apply NoDup_side; exact H2|].
      split; [apply side_sound; [apply incl_refl | |]; intros x X; apply H3; exact X|].
      split; [apply side_sound; [apply incl_refl | |]; intros x X; apply H4; exact X|].
      split; [intros x X; apply side_grows, H5, X|]. split; [intros x X; apply side_grows, H6, X|].
      intros c x X. destruct (deps_sound _ _ _ _ X) as [D|D].
      - destruct (H7 c x D) as [f [F [K S]]]. exists f. split; [exact F|]. split; [exact K|].
        destruct S as [S|S]; [left|right]; apply side_grows; exact S.
      - rewrite pass_core, pass_dense in D. exact D. }
    destruct (until_stable_ok _
      (fun a b => negb (Nat.eqb (List.length (sp_core a)) (List.length (sp_core b))) ||
                  negb (Nat.eqb (List.length (sp_dense a)) (List.length (sp_dense b))))
      (separate_pass covs) sep_inv (fun s => List.length (sp_core s) + List.length (sp_dense s))
      ((List.length core + List.length covs) + (List.length dense + List.length covs)))
      with (fuel := S (2 * List.length covs)) (a := s0) as [s [I [E C]]].
    - exact IB.
    - intros s [H1 [H2 [H3 [H4 _]]]].
      pose proof (length_bound core _ H1 (fun x X => proj2 (H3 x X))).
      pose proof (length_bound dense _ H2 (fun x X => proj2 (H4 x X))). lia.
    - intros s [H1 [H2 _]] C. unfold separate_pass in *. rewrite pass_core, pass_dense in *.
      assert (L1 : List.length (sp_core s) <= List.length (side_pass covs (sp_core s)))
        by (apply NoDup_incl_length; [exact H1 | intros x X; apply side_grows; exact X]).
      assert (L2 : List.length (sp_dense s) <= List.length (side_pass covs (sp_dense s)))
        by (apply NoDup_incl_length; [exact H2 | intros x X; apply side_grows; exact X]).
      apply orb_true_iff in C. rewrite !negb_true_iff, !Nat.eqb_neq in C. lia.
    - exact I0.
    - cbn [s0 sp_core sp_dense]. lia.
    - exists (separate_pass covs s). split; [exact E|].
      pose proof (IB s I) as I'. destruct I as [H1 [H2 _]].
      destruct I' as [J1 [J2 [J3 [J4 [J5 [J6 J7]]]]]].
      unfold separate_pass in *. rewrite pass_core, pass_dense in *.
      apply orb_false_iff in C. rewrite !negb_false_iff, !Nat.eqb_eq in C. destruct C as [C1 C2].
      assert (S1 : incl (side_pass covs (sp_core s)) (sp_core s)).
      { apply NoDup_length_incl; [exact H1 | lia | intros x X; apply side_grows; exact X]. }
      assert (S2 : incl (side_pass covs (sp_dense s)) (sp_dense s)).
      { apply NoDup_length_incl; [exact H2 | lia | intros x X; apply side_grows; exact X]. }
      assert (B1 : forall x, In x (side_pass covs (sp_core s)) <-> built_from covs core x).
      { intros x. split; [intros X; apply (J3 x X)|]. intros B. induction B as [x X|c f x F B IHB O]; [apply J5; exact X|].
        apply (side_adds covs (sp_core s) c f x F); [apply S1; exact IHB | apply occurs_iff; exact O]. }
      assert (B2 : forall x, In x (side_pass covs (sp_dense s)) <-> built_from covs dense x).
      { intros x. split; [intros X; apply (J4 x X)|]. intros B. induction B as [x X|c f x F B IHB O]; [apply J6; exact X|].
        apply (side_adds covs (sp_dense s) c f x F); [apply S2; exact IHB | apply occurs_iff; exact O]. }
      split; [exact B1|]. split; [exact B2|]. split; [|split; assumption].
      intros c f F x. split.
      + intros X. destruct (J7 c x X) as [f' [F' [K S]]]. rewrite B1, B2 in S. split; [exact S|].
        assert (f' = f).
        { pose proof (formula_of_In covs c f N F). pose proof (formula_of_In covs c f' N F'). congruence. }
        subst. apply occurs_iff. exact K.
      + intros [B O]. apply (deps_complete covs s c f x F); [|apply occurs_iff; exact O].
        rewrite <- B1, <- B2 in B. destruct B as [B|B]; [left; apply S1 | right; apply S2]; exact B.
  Qed.
End Separate.
