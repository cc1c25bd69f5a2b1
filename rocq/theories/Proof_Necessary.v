(** Lemmas about covariates that cannot be computed, and about necessary covariates. *)
From Coq Require Import List Arith Bool Lia String Ascii Permutation.
From Verif Require Import Base Proof_Base Model_Strings Proof_Strings Model_Choices Spec_Choices Proof_Choices
  Model_Covariates Spec_Covariates Proof_Covariates Proof_Separation Proof_Compute.
Import ListNotations.
Open Scope string_scope.

(** ** A covariate that depends on itself *)
Section Own.
  Variable V : Type.
  Variable eval : string -> (string -> option V) -> result V.
  Variable no_nans : V -> bool.
  Variable check_nans : bool.
  Variable defs : list (string * definition).
  Variable c f : string.
  Variable deps : list string.
  Hypothesis G : dict_get string_dec c defs = Some (f, deps).
  Hypothesis O : In c deps.

  Definition missing (s : frame V * list string) : Prop := lookup V (fst s) c = None /\ In c (snd s).

  Lemma missing_column : forall df, lookup V df c = None -> has_column V df c = false.
  Proof.
    intros df L. unfold lookup in L. unfold has_column.
    destruct (dict_get string_dec c (fr_columns V df)); [discriminate | reflexivity].
  Qed.

  Lemma missing_one : forall s x s', missing s ->
    compute_one V eval no_nans check_nans defs (Ok s) x = Ok s' -> missing s'.
  Proof.
    intros [df l] x s' [L I] E. cbn [fst snd] in *. unfold compute_one in E. cbn [result_bind] in E.
    destruct (string_dec x c) as [->|NE].
    - rewrite (missing_column df L), G in E.
      match type of E with (if ?b then _ else _) = _ => destruct b eqn:P end.
      + rewrite forallb_forall in P. specialize (P c O). rewrite L in P. discriminate.
      + inversion E; subst. split; assumption.
    - destruct (has_column V df x).
      + inversion E; subst. split; [exact L|]. apply in_in_remove; auto.
      + destruct (dict_get string_dec x defs) as [[f' deps']|]; [|discriminate].
        match type of E with (if ?b then _ else _) = _ => destruct b end.
        * destruct (eval f' (lookup V df)) as [v| | | | |]; try discriminate. cbn in E. inversion E; subst.
          split; cbn [fst snd].
          -- rewrite lookup_set_other by auto. exact L.
          -- apply in_in_remove; auto.
        * inversion E; subst. split; assumption.
  Qed.

  Lemma fold_not_ok : forall cs (r : result (frame V * list string)),
    (forall s, r <> Ok s) -> forall s, fold_left (compute_one V eval no_nans check_nans defs) cs r <> Ok s.
  Proof.
    induction cs as [|x cs IH]; intros r H s; cbn [fold_left]; [apply H|]. apply IH. intros s'.
    unfold compute_one, result_bind. destruct r as [a| | | | |]; try discriminate. exfalso. apply (H a). reflexivity.
  Qed.

  Lemma missing_fold : forall cs s s', missing s ->
    fold_left (compute_one V eval no_nans check_nans defs) cs (Ok s) = Ok s' -> missing s'.
  Proof.
    induction cs as [|x cs IH]; intros s s' M E; cbn [fold_left] in E; [inversion E; subst; exact M|].
    destruct (compute_one V eval no_nans check_nans defs (Ok s) x) as [s1| | | | |] eqn:E1;
      try (exfalso; eapply fold_not_ok; [|exact E]; discriminate).
    apply (IH s1); [apply (missing_one s x); assumption | exact E].
  Qed.

  Lemma missing_loop : forall fuel df l df' l', missing (df, l) ->
    compute_loop V eval no_nans check_nans defs fuel df l = Some (Ok (df', l')) -> missing (df', l').
  Proof.
    induction fuel as [|k IH]; intros df l df' l' M E; cbn [compute_loop] in E; [discriminate|].
    unfold compute_pass in E.
    destruct (fold_left _ l (Ok (df, l))) as [[df1 l1]| | | | |] eqn:F; try discriminate.
    apply missing_fold in F; [|exact M].
    destruct (Nat.eqb (List.length l) (List.length l1)); [inversion E; subst; exact F | apply (IH df1 l1); assumption].
  Qed.

  Lemma own_never : forall df df', lookup V df c = None ->
    compute_covariates V eval no_nans check_nans true defs df <> Some (Ok df').
  Proof.
    intros df df' L E. unfold compute_covariates in E.
    destruct (compute_loop _ _ _ _ _ _ _ _) as [[[df1 l1]| | | | |]|] eqn:F; try discriminate.
    apply missing_loop in F.
    - destruct F as [_ F]. cbn [snd] in F. destruct l1; [destruct F | discriminate].
    - split; [exact L|]. cbn [snd]. apply dict_get_Some_In in G. apply in_map_iff. exists (c, (f, deps)). auto.
  Qed.
End Own.

(** ** Necessary covariates *)
Section Necessary.
  Variable definitions : list (string * list string).
  Variable order : list string -> list string.
  Hypothesis ORD : forall l x, In x (order l) <-> In x l.
  Variable requested : list string.

  Notation leaf d := (dependencies definitions d = []).

  Definition round_inv (dependents new todo : list string) : Prop :=
    (forall x, In x dependents \/ In x new \/ In x todo -> reachable definitions requested x) /\
    (forall x, In x dependents -> leaf x -> In x new \/ In x todo) /\
    (forall c, In c dependents -> ~ leaf c -> (In c new \/ In c todo) \/
       forall d, In d (dependencies definitions c) -> ~ leaf d -> In d dependents) /\
    (forall x, In x requested \/ In x new \/ In x todo -> ~ leaf x -> In x dependents).

  Lemma reachable_dependency : forall c d, reachable definitions requested c ->
    In d (dependencies definitions c) -> reachable definitions requested d.
  Proof.
    intros c d R I. unfold dependencies in I. destruct (dict_get string_dec c definitions) as [deps|] eqn:G; [|destruct I].
    apply (reach_dependency definitions requested c deps d R G I).
  Qed.

  Lemma round_step : forall dependents new d todo s, round_inv dependents new (d :: todo) ->
    necessary_one definitions (Ok (dependents, new)) d = Ok s -> round_inv (fst s) (snd s) todo.
  Proof.
    intros dependents new d todo s [H1 [H2 [H3 H4]]] E. unfold necessary_one in E. cbn [result_bind] in E.
    destruct (dependencies definitions d) as [|d0 deps] eqn:DD.
    - destruct (mem d dependents) eqn:M; [|discriminate]. inversion E; subst. cbn [fst snd].
      split; [|split; [|split]].
      + intros x [X|[X|X]]; apply H1; [left; apply In_set_minus in X; apply X | auto | right; right; right; exact X].
      + intros x X L. apply In_set_minus in X. destruct X as [X NE].
        destruct (H2 x X L) as [Y|[Y|Y]]; [auto | exfalso; apply NE; left; exact Y | auto].
      + intros c C L. apply In_set_minus in C. destruct C as [C NE].
        destruct (H3 c C L) as [[Y|[Y|Y]]|Y]; [auto | exfalso; apply NE; left; exact Y | auto |].
        right. intros x X XL. apply In_set_minus. split; [apply Y; assumption|].
        intros [<-|[]]. contradiction.
      + intros x X L. apply In_set_minus. split.
        * apply H4; [|exact L]. destruct X as [X|[X|X]]; [auto | auto | right; right; right; exact X].
        * intros [<-|[]]. contradiction.
    - remember (d0 :: deps) as deps' eqn:Ed. inversion E; subst s. cbn [fst snd].
      assert (RD : forall x, In x deps' -> reachable definitions requested x).
      { intros x X. apply (reachable_dependency d x); [apply H1; right; right; left; reflexivity | rewrite DD; exact X]. }
      split; [|split; [|split]].
      + intros x [X|[X|X]].
        * apply In_set_union in X. destruct X as [X|X]; [apply H1; auto | apply RD; exact X].
        * apply In_set_union in X. destruct X as [X|X]; [apply H1; auto | apply RD; exact X].
        * apply H1. right. right. right. exact X.
      + intros x X L. rewrite In_set_union in *. destruct X as [X|X]; [|auto].
        destruct (H2 x X L) as [Y|[Y|Y]]; [auto | | auto]. subst x. rewrite L in DD. subst deps'. discriminate.
      + intros c C L. rewrite In_set_union in C. destruct C as [C|C]; [|left; left; apply In_set_union; auto].
        destruct (H3 c C L) as [[Y|[Y|Y]]|Y].
        * left. left. apply In_set_union. auto.
        * subst c. right. intros x X _. apply In_set_union. right. rewrite DD in X. exact X.
        * left. right. exact Y.
        * right. intros x X XL. apply In_set_union. left. apply Y; assumption.
      + intros x X L. apply In_set_union. destruct X as [X|[X|X]]; [left; apply H4; auto | | left; apply H4; [right; right; right; exact X | exact L]].
        apply In_set_union in X. destruct X as [X|X]; [left; apply H4; auto | right; exact X].
  Qed.

  Lemma fold_error : forall ds (r : result (list string * list string)), (forall s, r <> Ok s) ->
    forall s, fold_left (necessary_one definitions) ds r <> Ok s.
  Proof.
    induction ds as [|d ds IH]; intros r H s; cbn [fold_left]; [apply H|]. apply IH. intros s'.
    unfold necessary_one, result_bind. destruct r as [a| | | | |]; try discriminate. exfalso. apply (H a). reflexivity.
  Qed.

  Lemma round_fold : forall ds dependents new s, round_inv dependents new ds ->
    fold_left (necessary_one definitions) ds (Ok (dependents, new)) = Ok s -> round_inv (fst s) (snd s) [].
  Proof.
    induction ds as [|d ds IH]; intros dependents new s I E; cbn [fold_left] in E.
    - inversion E; subst. exact I.
    - destruct (necessary_one definitions (Ok (dependents, new)) d) as [[de ne]| | | | |] eqn:E1;
        try (exfalso; eapply fold_error; [|exact E]; discriminate).
      apply (IH de ne); [apply (round_step _ _ _ _ _ I E1) | exact E].
  Qed.

  Lemma round_order : forall dependents new, round_inv dependents new [] -> round_inv dependents [] (order new).
  Proof.
    intros dependents new [H1 [H2 [H3 H4]]]. split; [|split; [|split]].
    - intros x [X|[[]|X]]; apply H1; [auto|]. right. left. apply ORD. exact X.
    - intros x X L. right. apply ORD. destruct (H2 x X L) as [Y|[]]. exact Y.
    - intros c C L. destruct (H3 c C L) as [[Y|[]]|Y]; [left; right; apply ORD; exact Y | right; exact Y].
    - intros x [X|[[]|X]] L; apply H4; auto. right. left. apply ORD. exact X.
  Qed.

  Lemma necessary_loop_ok : forall fuel dependents new r, round_inv dependents new [] ->
    necessary_loop definitions order fuel dependents new = Some (Ok r) -> round_inv r [] [].
  Proof.
    induction fuel as [|k IH]; intros dependents new r I E; destruct new as [|x new]; cbn [necessary_loop] in E; try discriminate.
    - inversion E; subst. exact I.
    - inversion E; subst. exact I.
    - destruct (fold_left _ (order (x :: new)) (Ok (dependents, []))) as [[de ne]| | | | |] eqn:F; try discriminate.
      apply (IH de ne); [|exact E]. apply (round_fold _ _ _ _ (round_order _ _ I) F).
  Qed.

  Lemma not_leaf_iff : forall c, ~ leaf c <-> has_dependencies definitions c.
  Proof.
    intros c. unfold dependencies, has_dependencies. destruct (dict_get string_dec c definitions) as [[|d deps]|]; split.
    - intros H. exfalso. apply H. reflexivity.
    - intros [d [deps H]]. discriminate.
    - intros _. eauto.
    - intros _. discriminate.
    - intros H. exfalso. apply H. reflexivity.
    - intros [d [deps H]]. discriminate.
  Qed.

  Lemma necessary_result : forall fuel r,
    identify_necessary_covariates definitions order fuel requested = Some (Ok r) ->
    forall c, In c r <-> reachable definitions requested c /\ has_dependencies definitions c.
  Proof.
    intros fuel r E. unfold identify_necessary_covariates in E.
    assert (I0 : round_inv (set_union [] requested) (set_union [] requested) []).
    { split; [|split; [|split]].
      - intros x [X|[X|[]]]; apply In_set_union in X; destruct X as [[]|X]; apply reach_requested; exact X.
      - intros x X _. left. exact X.
      - intros c C _. left. left. exact C.
      - intros x [X|[X|[]]] _; [apply In_set_union; right; exact X | exact X]. }
    apply necessary_loop_ok in E; [|exact I0]. destruct E as [H1 [H2 [H3 H4]]].
    intros c. rewrite <- not_leaf_iff. split.
    - intros C. split; [apply H1; auto|]. intros L. destruct (H2 c C L) as [[]|[]].
    - intros [R L]. induction R as [d X|p deps d R IH G I]; [apply H4; auto|].
      assert (PD : dependencies definitions p = deps) by (unfold dependencies; rewrite G; reflexivity).
      assert (PL : ~ leaf p) by (rewrite PD; intros ->; destruct I).
      destruct (H3 p (IH PL) PL) as [[[]|[]]|Y]. apply Y; [rewrite PD; exact I | exact L].
  Qed.

  (** A cycle is never left. *)
  Lemma new_grows : forall ds dependents new s, fold_left (necessary_one definitions) ds (Ok (dependents, new)) = Ok s ->
    forall c, In c new -> In c (snd s).
  Proof.
    induction ds as [|d ds IH]; intros dependents new s E c C; cbn [fold_left] in E.
    - inversion E; subst. exact C.
    - destruct (necessary_one definitions (Ok (dependents, new)) d) as [[de ne]| | | | |] eqn:E1;
        try (exfalso; eapply fold_error; [|exact E]; discriminate).
      apply (IH de ne s E). unfold necessary_one in E1. cbn [result_bind] in E1.
      destruct (dependencies definitions d) as [|d0 deps].
      + destruct (mem d dependents); [|discriminate]. inversion E1; subst. exact C.
      + assert (NE : ne = set_union new (d0 :: deps)) by (inversion E1; reflexivity).
        rewrite NE. apply In_set_union. left. exact C.
  Qed.
  Lemma new_adds : forall ds dependents new s c d, fold_left (necessary_one definitions) ds (Ok (dependents, new)) = Ok s ->
    In c ds -> In d (dependencies definitions c) -> In d (snd s).
  Proof.
    induction ds as [|x ds IH]; intros dependents new s c d E C D; [destruct C|]. cbn [fold_left] in E.
    destruct (necessary_one definitions (Ok (dependents, new)) x) as [[de ne]| | | | |] eqn:E1;
      try (exfalso; eapply fold_error; [|exact E]; discriminate).
    destruct C as [->|C]; [|apply (IH de ne s c d E C D)].
    apply (new_grows ds de ne s E). unfold necessary_one in E1. cbn [result_bind] in E1.
    destruct (dependencies definitions c) as [|d0 deps]; [destruct D|].
    assert (NE : ne = set_union new (d0 :: deps)) by (inversion E1; reflexivity).
    rewrite NE. apply In_set_union. right. exact D.
  Qed.

  Lemma cycle_never : forall c, In c (dependencies definitions c) -> forall fuel dependents new r, In c new ->
    necessary_loop definitions order fuel dependents new <> Some (Ok r).
  Proof.
    intros c CC. induction fuel as [|k IH]; intros dependents new r C E; destruct new as [|x new]; try (destruct C; fail);
      cbn [necessary_loop] in E; [discriminate|].
    destruct (fold_left _ (order (x :: new)) (Ok (dependents, []))) as [[de ne]| | | | |] eqn:F; try discriminate.
    apply (IH de ne r); [|exact E]. apply (new_adds _ _ _ _ c c F); [apply ORD; exact C | exact CC].
  Qed.
End Necessary.

(** Requested covariates that depend on variables only. *)
Section Flat.
  Variable definitions : list (string * list string).
  Variable order : list string -> list string.
  Hypothesis PERM : forall l, Permutation (order l) l.
  Variable requested : list string.
  Hypothesis R1 : forall c, In c requested -> has_dependencies definitions c.
  Hypothesis R2 : forall c d, In c requested -> In d (dependencies definitions c) -> dependencies definitions d = [].

  Lemma first_round : forall ds dependents new, (forall c, In c ds -> In c requested) -> NoDup new ->
    incl new dependents -> (forall d, In d new -> dependencies definitions d = []) ->
    exists de ne, fold_left (necessary_one definitions) ds (Ok (dependents, new)) = Ok (de, ne) /\
      NoDup ne /\ incl ne de /\ (forall d, In d ne -> dependencies definitions d = []).
  Proof.
    induction ds as [|c ds IH]; intros dependents new I N S L; cbn [fold_left].
    - exists dependents, new. auto.
    - unfold necessary_one at 2. cbn [result_bind].
      assert (CR : In c requested) by (apply I; left; reflexivity).
      assert (L' : forall d, In d (dependencies definitions c) -> dependencies definitions d = []) by (intros d; apply R2; exact CR).
      destruct (R1 c CR) as [d0 [deps G]].
      assert (GD : dependencies definitions c = d0 :: deps) by (unfold dependencies; rewrite G; reflexivity).
      rewrite GD in *.
      apply IH.
      + intros x X. apply I. right. exact X.
      + apply NoDup_set_union. exact N.
      + intros x X. rewrite In_set_union in *. destruct X as [X|X]; [left; apply S; exact X | right; exact X].
      + intros x X. apply In_set_union in X. destruct X as [X|X]; [apply L; exact X | apply L'; exact X].
  Qed.

  Lemma second_round : forall ds dependents, NoDup ds -> incl ds dependents ->
    (forall d, In d ds -> dependencies definitions d = []) ->
    exists de, fold_left (necessary_one definitions) ds (Ok (dependents, [])) = Ok (de, []).
  Proof.
    induction ds as [|d ds IH]; intros dependents N S L; cbn [fold_left].
    - eauto.
    - inversion N; subst. unfold necessary_one at 2. cbn [result_bind]. rewrite (L d (or_introl eq_refl)).
      assert (M : mem d dependents = true) by (apply mem_iff, S; left; reflexivity). rewrite M.
      apply IH; [assumption | | intros x X; apply L; right; exact X].
      intros x X. apply In_set_minus. split; [apply S; right; exact X|]. intros [<-|[]]. contradiction.
  Qed.

  Lemma loop_step : forall k dependents new, necessary_loop definitions order (S k) dependents new =
    match new with
    | [] => Some (Ok dependents)
    | _ => match fold_left (necessary_one definitions) (order new) (Ok (dependents, [])) with
           | Ok (de, ne) => necessary_loop definitions order k de ne
           | KeyError => Some KeyError
           | ValueError => Some ValueError
           | IndexError => Some IndexError
           | NameError => Some NameError
           | OtherError => Some OtherError
           end
    end.
  Proof. intros k dependents [|x new]; reflexivity. Qed.

  Lemma flat_ok : forall fuel, 2 <= fuel -> exists r,
    identify_necessary_covariates definitions order fuel requested = Some (Ok r).
  Proof.
    intros fuel F. destruct fuel as [|[|k]]; try lia. unfold identify_necessary_covariates.
    rewrite loop_step. destruct (set_union [] requested) as [|x l] eqn:U; [eauto|]. rewrite <- U. clear U x l.
    destruct (first_round (order (set_union [] requested)) (set_union [] requested) []) as [de [ne [E [N [S L]]]]].
    - intros c C. apply (Permutation_in _ (PERM _)) in C. apply In_set_union in C. destruct C as [[]|C]. exact C.
    - constructor.
    - intros y [].
    - intros d [].
    - rewrite E, loop_step. destruct ne as [|y ne'] eqn:En; [eauto|]. rewrite <- En in *. clear En y ne'.
      destruct (second_round (order ne) de) as [de' E'].
      + apply (Permutation_NoDup (Permutation_sym (PERM ne))). exact N.
      + intros y Y. apply S. apply (Permutation_in _ (PERM ne)). exact Y.
      + intros d D. apply L. apply (Permutation_in _ (PERM ne)). exact D.
      + rewrite E'. exists de'. destruct k; reflexivity.
  Qed.
End Flat.
