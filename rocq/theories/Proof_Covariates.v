(** Lemmas about the selection and separation of covariates. *)
From Coq Require Import List Arith Bool Lia String Ascii Permutation.
From Verif Require Import Base Proof_Base Model_Strings Proof_Strings Model_Choices Spec_Choices Proof_Choices
  Model_Covariates Spec_Covariates.
Import ListNotations.
Open Scope string_scope.

Lemma until_stable_ok : forall A (changed : A -> A -> bool) (body : A -> A) (Inv : A -> Prop)
  (size : A -> nat) (bound : nat),
  (forall a, Inv a -> Inv (body a)) -> (forall a, Inv a -> size a <= bound) ->
  (forall a, Inv a -> changed a (body a) = true -> size a < size (body a)) ->
  forall fuel a, Inv a -> bound - size a < fuel ->
  exists b, Inv b /\ until_stable changed body fuel a = Some (body b) /\ changed b (body b) = false.
Proof.
  intros A changed body Inv size bound H1 H2 H3. induction fuel as [|k IH]; intros a I F; [lia|].
  cbn [until_stable]. destruct (changed a (body a)) eqn:C.
  - apply IH; [apply H1; exact I|]. pose proof (H3 a I C). pose proof (H2 _ (H1 a I)). lia.
  - exists a. auto.
Qed.

Lemma formula_of_In : forall covs c f, NoDup (map fst covs) -> In (c, f) covs -> formula_of covs c = f.
Proof.
  intros covs c f N I. unfold formula_of. rewrite (dict_get_In_NoDup string_dec c f covs N I). reflexivity.
Qed.
Lemma formula_of_key : forall covs c, In c (map fst covs) -> In (c, formula_of covs c) covs.
Proof.
  intros covs c I. unfold formula_of. destruct (dict_get string_dec c covs) as [f|] eqn:G.
  - apply dict_get_Some_In in G. exact G.
  - apply (dict_get_None string_dec) in G. contradiction.
Qed.
Lemma occurs_iff : forall x f, contains x f = true <-> occurs x f.
Proof. intros x f. apply contains_iff. Qed.

(** ** Relevant covariates *)
Section Relevant.
  Variable covs : covariates.
  Variable names : list string.
  Hypothesis N : NoDup (map fst covs).

  Lemma In_move_front : forall x c rel, In x (move_front c rel) <-> x = c \/ In x rel.
  Proof.
    intros x c rel. unfold move_front. cbn [In]. rewrite filter_In. split.
    - intros [->|[H _]]; auto.
    - intros [->|H]; [left; reflexivity|]. destruct (string_dec c x) as [E|E]; [left; exact E|].
      right. split; [exact H|]. reflexivity.
  Qed.
  Lemma NoDup_move_front : forall c rel, NoDup rel -> NoDup (move_front c rel).
  Proof.
    intros c rel H. constructor; [|apply NoDup_filter; exact H].
    rewrite filter_In. intros [_ E]. destruct (string_dec c c); [discriminate | contradiction].
  Qed.

  Definition added (rel l : list string) (c : string) : list string :=
    fold_left (fun rel' r => if contains c (formula_of covs r) then move_front c rel' else rel') l rel.
  Lemma In_added : forall c l rel x, In x (added rel l c) <->
    In x rel \/ (x = c /\ exists r, In r l /\ contains c (formula_of covs r) = true).
  Proof.
    intros c. induction l as [|r l IH]; intros rel x.
    - cbn. split; [auto|]. intros [H|[_ [r [[] _]]]]; exact H.
    - unfold added in *. cbn [fold_left]. rewrite IH. destruct (contains c (formula_of covs r)) eqn:C.
      + rewrite In_move_front. split.
        * intros [[->|H]|[-> [r' [I K]]]]; [right; split; [reflexivity | exists r; split; [left|]; auto] | auto |].
          right. split; [reflexivity|]. exists r'. split; [right; exact I | exact K].
        * intros [H|[-> _]]; auto.
      + split.
        * intros [H|[-> [r' [I K]]]]; [auto|]. right. split; [reflexivity|]. exists r'. split; [right; exact I | exact K].
        * intros [H|[-> [r' [[->|I] K]]]]; [auto | congruence |]. right. eauto.
  Qed.
  Lemma NoDup_added : forall c l rel, NoDup rel -> NoDup (added rel l c).
  Proof.
    intros c. induction l as [|r l IH]; intros rel H; [exact H|]. unfold added in *. cbn [fold_left].
    apply IH. destruct (contains c (formula_of covs r)); [apply NoDup_move_front|]; exact H.
  Qed.

  Definition passed (cs rel : list string) : list string := fold_left (add_if_mentioned covs) cs rel.

  Lemma passed_grows : forall cs rel x, In x rel -> In x (passed cs rel).
  Proof.
    induction cs as [|c cs IH]; intros rel x H; [exact H|]. unfold passed in *. cbn [fold_left].
    apply IH. apply (In_added c rel rel x). left. exact H.
  Qed.
  Lemma NoDup_passed : forall cs rel, NoDup rel -> NoDup (passed cs rel).
  Proof.
    induction cs as [|c cs IH]; intros rel H; [exact H|]. unfold passed in *. cbn [fold_left].
    apply IH. apply (NoDup_added c rel rel). exact H.
  Qed.
  Lemma passed_adds : forall cs rel c r, In c cs -> In r rel -> contains c (formula_of covs r) = true ->
    In c (passed cs rel).
  Proof.
    induction cs as [|c' cs IH]; intros rel c r I R K; [destruct I|]. unfold passed in *. cbn [fold_left].
    destruct I as [->|I].
    - apply passed_grows. apply (In_added c rel rel c). right. eauto.
    - apply (IH _ c r I); [|exact K]. apply (In_added c' rel rel r). left. exact R.
  Qed.
  Lemma passed_sound : forall (S : string -> Prop) cs rel, closed covs names S -> incl cs (map fst covs) ->
    incl rel (map fst covs) -> (forall x, In x rel -> S x) ->
    incl (passed cs rel) (map fst covs) /\ forall x, In x (passed cs rel) -> S x.
  Proof.
    intros S cs. induction cs as [|c cs IH]; intros rel C I R H; [split; assumption|].
    unfold passed in *. cbn [fold_left]. apply IH; [exact C | intros y Y; apply I; right; exact Y | |].
    - intros x X. apply (In_added c rel rel x) in X. destruct X as [X|[-> _]]; [apply R; exact X|].
      apply I. left. reflexivity.
    - intros x X. apply (In_added c rel rel x) in X. destruct X as [X|[-> [r [X K]]]]; [apply H; exact X|].
      destruct C as [_ C]. apply (C c (formula_of covs c) r (formula_of covs r)).
      + apply formula_of_key. apply I. left. reflexivity.
      + apply formula_of_key. apply R. exact X.
      + apply H. exact X.
      + apply occurs_iff. exact K.
  Qed.

  Lemma remove_irrelevant_ok : exists result, remove_irrelevant_covariates covs names = Some result /\
    NoDup (map fst result) /\ incl result covs /\
    closed covs names (fun c => In c (map fst result)) /\
    (forall S, closed covs names S -> forall c, In c (map fst result) -> S c).
  Proof.
    set (Inv := fun rel => NoDup rel /\ incl rel (map fst covs) /\
      (forall S, closed covs names S -> forall x, In x rel -> S x) /\
      (forall x, In x (relevant_initial covs names) -> In x rel)).
    assert (Itotal : closed covs names (fun c => In c (map fst covs))).
    { split; [intros c f I _|intros c f d g I _ _ _]; apply in_map_iff; exists (c, f); auto. }
    assert (I0 : Inv (relevant_initial covs names)).
    { unfold relevant_initial. split; [|split; [|split]].
      - clear Inv Itotal. induction covs as [|[c f] r IH]; [constructor|]. cbn [map filter fst].
        inversion N; subst. destruct (mem c names); [|apply IH; assumption]. cbn [map fst].
        constructor; [|apply IH; assumption]. intros I. apply in_map_iff in I. destruct I as [[c' f'] [E I]].
        cbn in E. subst. apply filter_In in I. apply H1. apply in_map_iff. exists (c, f'). split; [reflexivity | apply I].
      - intros x X. apply in_map_iff in X. destruct X as [[c f] [<- X]]. apply filter_In in X.
        apply in_map_iff. exists (c, f). split; [reflexivity | apply X].
      - intros S [C _] x X. apply in_map_iff in X. destruct X as [[c f] [<- X]]. apply filter_In in X.
        destruct X as [X M]. cbn [fst] in *. apply mem_iff in M. apply (C c f X M).
      - auto. }
    assert (IB : forall rel, Inv rel -> Inv (relevant_pass covs rel)).
    { intros rel [H1 [H2 [H3 H4]]]. change (relevant_pass covs rel) with (passed (map fst covs) rel).
      split; [apply NoDup_passed; exact H1|]. split; [|split].
      - apply (passed_sound _ (map fst covs) rel Itotal (incl_refl _) H2). exact H2.
      - intros S C. apply (passed_sound S (map fst covs) rel C (incl_refl _) H2). apply H3. exact C.
      - intros x X. apply passed_grows. apply H4. exact X. }
    destruct (until_stable_ok _ (fun a b => negb (Nat.eqb (List.length a) (List.length b)))
      (relevant_pass covs) Inv (@List.length string) (List.length covs)) with (fuel := S (List.length covs))
      (a := relevant_initial covs names) as [rel [I [E C]]].
    - exact IB.
    - intros rel [H1 [H2 _]]. rewrite <- (map_length fst covs). apply NoDup_incl_length; assumption.
    - intros rel I C. pose proof (IB rel I) as I'. apply negb_true_iff, Nat.eqb_neq in C.
      assert (List.length rel <= List.length (relevant_pass covs rel)); [|lia].
      apply NoDup_incl_length; [apply I|]. intros x X. apply passed_grows. exact X.
    - exact I0.
    - lia.
    - set (rel' := relevant_pass covs rel) in *.
      assert (I' : Inv rel') by (apply IB; exact I).
      assert (SAME : incl rel' rel).
      { apply negb_false_iff, Nat.eqb_eq in C. apply NoDup_length_incl.
        - apply I.
        - lia.
        - intros x X. apply passed_grows. exact X. }
      exists (map (fun c => (c, formula_of covs c)) rel').
      assert (K : map fst (map (fun c => (c, formula_of covs c)) rel') = rel').
      { rewrite map_map. apply map_id. }
      rewrite K. unfold remove_irrelevant_covariates. rewrite E. split; [reflexivity|].
      destruct I' as [J1 [J2 [J3 J4]]]. split; [exact J1|]. split; [|split].
      + intros x X. apply in_map_iff in X. destruct X as [c [<- X]]. apply formula_of_key. apply J2. exact X.
      + split.
        * intros c f X M. apply J4. unfold relevant_initial. apply in_map_iff. exists (c, f).
          split; [reflexivity|]. apply filter_In. split; [exact X|]. apply mem_iff. exact M.
        * intros c f d g X Y D O. apply (passed_adds (map fst covs) rel c d).
          -- apply in_map_iff. exists (c, f). auto.
          -- apply SAME. exact D.
          -- rewrite (formula_of_In covs d g N Y). apply occurs_iff. exact O.
      + exact J3.
  Qed.
End Relevant.

(** ** Sets *)
Lemma In_set_add : forall x y s, In y (set_add x s) <-> y = x \/ In y s.
Proof.
  intros x y s. unfold set_add. destruct (mem x s) eqn:M.
  - apply mem_iff in M. split; [auto|]. intros [->|H]; assumption.
  - rewrite in_app_iff. cbn. split; [intros [H|[H|[]]]; auto | intros [->|H]; auto].
Qed.
Lemma NoDup_set_add : forall x s, NoDup s -> NoDup (set_add x s).
Proof.
  intros x s H. unfold set_add. destruct (mem x s) eqn:M; [exact H|].
  apply NoDup_app_intro; [exact H | repeat constructor; intros [] |].
  intros y Y [<-|[]]. apply mem_false_iff in M. contradiction.
Qed.
Lemma In_set_union : forall t s y, In y (set_union s t) <-> In y s \/ In y t.
Proof.
  induction t as [|x t IH]; intros s y; cbn.
  - tauto.
  - unfold set_union in *. rewrite IH, In_set_add. split; intros H; intuition auto.
Qed.
Lemma NoDup_set_union : forall t s, NoDup s -> NoDup (set_union s t).
Proof.
  induction t as [|x t IH]; intros s H; [exact H|]. unfold set_union in *. cbn. apply IH, NoDup_set_add, H.
Qed.
Lemma In_set_minus : forall s t y, In y (set_minus s t) <-> In y s /\ ~ In y t.
Proof. intros s t y. unfold set_minus. rewrite filter_In, negb_true_iff, mem_false_iff. reflexivity. Qed.
Lemma In_set_inter : forall s t y, In y (set_inter s t) <-> In y s /\ In y t.
Proof. intros s t y. unfold set_inter. rewrite filter_In, mem_iff. reflexivity. Qed.
