(** Lemmas about the evaluation of covariates. *)
From Coq Require Import List Arith Bool Lia String Ascii Permutation.
From Verif Require Import Base Proof_Base Model_Strings Model_Choices Model_Covariates Spec_Covariates.
Import ListNotations.
Open Scope string_scope.

Lemma remove_length_In : forall (c : string) l, In c l -> List.length (remove string_dec c l) < List.length l.
Proof. intros c l H. apply remove_length_lt. exact H. Qed.

Section Compute.
  Variable V : Type.
  Variable eval : string -> (string -> option V) -> result V.
  Variable no_nans : V -> bool.
  Variable check_nans : bool.
  Variable defs : list (string * definition).
  Variable df0 : frame V.
  Hypothesis N : NoDup (map fst defs).
  Hypothesis D : dependencies_complete V eval defs.
  Hypothesis X0 : forall c, In c (map fst defs) -> dict_get string_dec c (fr_index V df0) = None.

  Notation derives' := (derives V eval no_nans check_nans defs df0).
  Notation lookup' := (lookup V).

  Lemma derives_unique : forall x v, derives' x v -> forall w, derives' x w -> v = w.
  Proof.
    intros x v H. induction H as [x v L|c f deps e v L I E1 E2 IH E3 EV]; intros w W.
    - inversion W as [? ? L'|? ? ? ? ? L']; subst; congruence.
    - inversion W as [? ? L'|? f' deps' e' ? L' I' E1' E2' E3' EV']; subst; [congruence|].
      assert (G : Some (f, deps) = Some (f', deps')).
      { rewrite <- (dict_get_In_NoDup string_dec c (f, deps) defs N I).
        apply (dict_get_In_NoDup string_dec c (f', deps') defs N I'). }
      inversion G; subst f' deps'.
      assert (EE : eval f e = eval f e').
      { apply (proj1 D c f deps e e' I). intros d Hd. specialize (E1 d Hd). specialize (E1' d Hd).
        destruct (e d) as [a|] eqn:A; [|contradiction]. destruct (e' d) as [b|] eqn:B; [|contradiction].
        f_equal. apply (IH d a Hd A). apply (E2' d b Hd B). }
      congruence.
  Qed.

  Definition inv (s : frame V * list string) : Prop :=
    let '(df, l) := s in
    fr_index V df = fr_index V df0 /\ NoDup l /\ incl l (map fst defs) /\
    (forall x v, lookup' df x = Some v -> derives' x v) /\
    (forall x v, lookup' df0 x = Some v -> lookup' df x = Some v) /\
    (forall c, In c (map fst defs) -> In c l \/ has_column V df c = true).

  Lemma lookup_column : forall df c, fr_index V df = fr_index V df0 -> In c (map fst defs) ->
    lookup' df c = dict_get string_dec c (fr_columns V df).
  Proof.
    intros df c E I. unfold lookup. rewrite E, (X0 c I). destruct (dict_get string_dec c (fr_columns V df)); reflexivity.
  Qed.
  Lemma has_column_iff : forall df c, fr_index V df = fr_index V df0 -> In c (map fst defs) ->
    (has_column V df c = true <-> lookup' df c <> None).
  Proof.
    intros df c E I. rewrite (lookup_column df c E I). unfold has_column.
    destruct (dict_get string_dec c (fr_columns V df)); split; congruence.
  Qed.
  Lemma lookup_set_same : forall df c v, lookup' (set_column V df c v) c = Some v.
  Proof. intros df c v. unfold lookup, set_column. cbn [fr_columns]. rewrite dict_get_set_same. reflexivity. Qed.
  Lemma lookup_set_other : forall df c v x, x <> c -> lookup' (set_column V df c v) x = lookup' df x.
  Proof. intros df c v x E. unfold lookup, set_column. cbn [fr_columns fr_index]. rewrite dict_get_set_other by exact E. reflexivity. Qed.

  Definition present (df : frame V) (d : string) : bool :=
    match lookup' df d with Some v => if check_nans then no_nans v else true | None => false end.

  (** One covariate: either nothing changes, or it is removed from the list. *)
  Lemma compute_one_step : forall df l c, inv (df, l) -> In c (map fst defs) ->
    exists df' l', compute_one V eval no_nans check_nans defs (Ok (df, l)) c = Ok (df', l') /\ inv (df', l') /\
      (forall x, In x l' <-> In x l /\ (x = c -> df' = df /\ l' = l)) /\
      ((df' = df /\ l' = l /\ has_column V df c = false /\
        forall f deps, In (c, (f, deps)) defs -> forallb (present df) deps = false) \/
       l' = remove string_dec c l).
  Proof.
    intros df l c I C. unfold compute_one. cbn [result_bind].
    destruct (has_column V df c) eqn:HC.
    - exists df, (remove string_dec c l). split; [reflexivity|].
      destruct I as [I1 [I2 [I3 [I4 [I5 I6]]]]].
      assert (RI : forall x, In x (remove string_dec c l) <-> In x l /\ x <> c).
      { intros x. split; [apply in_remove|]. intros [A B]. apply in_in_remove; auto. }
      split; [|split; [|right; reflexivity]].
      + split; [exact I1|]. split; [|split; [|split; [|split]]].
        * clear - I2. induction I2 as [|y l Y I2 IH]; [constructor|]. cbn. destruct (string_dec c y); [exact IH|].
          constructor; [|exact IH]. intros H. apply in_remove in H. apply Y. apply H.
        * intros x X. apply I3. apply RI in X. apply X.
        * exact I4.
        * exact I5.
        * intros x X. destruct (string_dec x c) as [->|E]; [right; exact HC|].
          destruct (I6 x X) as [H|H]; [left; apply RI; auto | right; exact H].
      + intros x. rewrite RI. split.
        * intros [A B]. split; [exact A|]. intros E. contradiction.
        * intros [A B]. split; [exact A|]. intros E. destruct (B E) as [_ B2]. subst x.
          rewrite <- B2 in A. apply in_remove in A. destruct A. contradiction.
    - apply in_map_iff in C. destruct C as [[c' [f deps]] [E C]]. cbn in E. subst c'.
      assert (G : dict_get string_dec c defs = Some (f, deps)) by (apply dict_get_In_NoDup; assumption).
      rewrite G.
      change (forallb _ deps) with (forallb (present df) deps).
      destruct (forallb (present df) deps) eqn:P.
      + assert (PD : forall d, In d deps -> exists w, lookup' df d = Some w /\ (check_nans = true -> no_nans w = true)).
        { intros d Hd. rewrite forallb_forall in P. specialize (P d Hd). unfold present in P.
          destruct (lookup' df d) as [w|]; [|discriminate]. exists w. split; [reflexivity|]. intros CN. rewrite CN in P. exact P. }
        destruct (proj2 D c f deps (lookup' df) C) as [v EV].
        { intros d Hd. destruct (PD d Hd) as [w [W _]]. congruence. }
        rewrite EV. cbn [result_bind]. exists (set_column V df c v), (remove string_dec c l).
        split; [reflexivity|].
        destruct I as [I1 [I2 [I3 [I4 [I5 I6]]]]].
        assert (CK : In c (map fst defs)) by (apply in_map_iff; exists (c, (f, deps)); auto).
        assert (RI : forall x, In x (remove string_dec c l) <-> In x l /\ x <> c).
        { intros x. split; [apply in_remove|]. intros [A B]. apply in_in_remove; auto. }
        assert (L0 : lookup' df0 c = None).
        { destruct (lookup' df0 c) as [w|] eqn:L; [|reflexivity]. apply I5 in L.
          assert (T : has_column V df c = true) by (apply (has_column_iff df c I1 CK); congruence). congruence. }
        split; [|split; [|right; reflexivity]].
        * split; [exact I1|]. split; [|split; [|split; [|split]]].
          -- clear - I2. induction I2 as [|y l Y I2 IH]; [constructor|]. cbn. destruct (string_dec c y); [exact IH|].
             constructor; [|exact IH]. intros H. apply in_remove in H. apply Y. apply H.
          -- intros x X. apply I3. apply RI in X. apply X.
          -- intros x w W. destruct (string_dec x c) as [->|NE].
             ++ rewrite lookup_set_same in W. inversion W; subst.
                apply (derives_formula V eval no_nans check_nans defs df0 c f deps (lookup' df) w L0 C).
                ** intros d Hd. destruct (PD d Hd) as [w' [W' _]]. congruence.
                ** intros d w' Hd W'. apply I4. exact W'.
                ** intros d w' Hd W'. destruct (PD d Hd) as [w2 [W2 K]]. rewrite W' in W2. inversion W2; subst. exact K.
                ** exact EV.
             ++ rewrite lookup_set_other in W by exact NE. apply I4. exact W.
          -- intros x w W. destruct (string_dec x c) as [->|NE]; [congruence|].
             rewrite lookup_set_other by exact NE. apply I5. exact W.
          -- intros x X. destruct (string_dec x c) as [->|NE].
             ++ right. apply (has_column_iff (set_column V df c v) c I1 CK). rewrite lookup_set_same. discriminate.
             ++ destruct (I6 x X) as [H|H]; [left; apply RI; auto|]. right.
                apply (has_column_iff (set_column V df c v) x I1 X). rewrite lookup_set_other by exact NE.
                apply (has_column_iff df x I1 X). exact H.
        * intros x. rewrite RI. split.
          -- intros [A B]. split; [exact A|]. intros E. contradiction.
          -- intros [A B]. split; [exact A|]. intros E. destruct (B E) as [_ B2]. subst x.
             rewrite <- B2 in A. apply in_remove in A. destruct A. contradiction.
      + exists df, l. split; [reflexivity|]. split; [exact I|]. split.
        * intros x. tauto.
        * left. split; [reflexivity|]. split; [reflexivity|]. split; [reflexivity|].
          intros f' deps' I'. assert (G' : dict_get string_dec c defs = Some (f', deps')) by (apply dict_get_In_NoDup; assumption).
          rewrite G in G'. inversion G'; subst. exact P.
  Qed.

  (** A pass over a list of covariates that are left. *)
  Lemma compute_fold : forall cs df l, inv (df, l) -> NoDup cs -> (forall c, In c cs -> In c l) ->
    exists df' l', fold_left (compute_one V eval no_nans check_nans defs) cs (Ok (df, l)) = Ok (df', l') /\
      inv (df', l') /\ List.length l' <= List.length l /\
      (List.length l' = List.length l -> df' = df /\ l' = l /\
         forall c, In c cs -> has_column V df c = false /\
           forall f deps, In (c, (f, deps)) defs -> forallb (present df) deps = false).
  Proof.
    induction cs as [|c cs IH]; intros df l I NC S.
    - exists df, l. cbn [fold_left]. split; [reflexivity|]. split; [exact I|]. split; [lia|].
      intros _. split; [reflexivity|]. split; [reflexivity|]. intros c [].
    - inversion NC as [|? ? NI NC']; subst.
      assert (C : In c (map fst defs)) by (apply I; apply S; left; reflexivity).
      destruct (compute_one_step df l c I C) as [df1 [l1 [E1 [I1 [M1 K1]]]]].
      cbn [fold_left]. rewrite E1.
      destruct (IH df1 l1 I1 NC') as [df2 [l2 [E2 [I2 [L2 K2]]]]].
      { intros x X. apply M1. split; [apply S; right; exact X|]. intros ->. contradiction. }
      exists df2, l2. split; [exact E2|]. split; [exact I2|].
      destruct K1 as [[-> [-> [K1 K1']]]|K1].
      + split; [exact L2|]. intros E. destruct (K2 E) as [-> [-> K2']]. split; [reflexivity|]. split; [reflexivity|].
        intros x [<-|X]; [split; assumption | apply K2'; exact X].
      + subst l1. pose proof (remove_length_In c l (S c (or_introl eq_refl))). split; [lia|]. intros E. lia.
  Qed.

  Lemma compute_loop_ok : forall fuel df l, inv (df, l) -> List.length l < fuel ->
    exists df' l', compute_loop V eval no_nans check_nans defs fuel df l = Some (Ok (df', l')) /\
      inv (df', l') /\
      (forall c, In c l' -> has_column V df' c = false /\
         forall f deps, In (c, (f, deps)) defs -> forallb (present df') deps = false).
  Proof.
    induction fuel as [|k IH]; intros df l I F; [lia|]. cbn [compute_loop].
    destruct (compute_fold l df l I) as [df1 [l1 [E1 [I1 [L1 K1]]]]].
    { apply I. }
    { auto. }
    unfold compute_pass. rewrite E1. destruct (Nat.eqb_spec (List.length l) (List.length l1)) as [E|E].
    - exists df1, l1. split; [reflexivity|]. split; [exact I1|].
      destruct (K1 (eq_sym E)) as [-> [-> K]]. exact K.
    - apply IH; [exact I1 | lia].
  Qed.

  Lemma inv_initial : inv (df0, map fst defs).
  Proof.
    split; [reflexivity|]. split; [exact N|]. split; [apply incl_refl|].
    split; [intros x v L; apply derives_given; exact L|]. split; [auto|]. intros c C. left. exact C.
  Qed.

  Lemma stable_complete : forall df l, inv (df, l) ->
    (forall c, In c l -> has_column V df c = false /\
       forall f deps, In (c, (f, deps)) defs -> forallb (present df) deps = false) ->
    forall x v, lookup' df x = Some v <-> derives' x v.
  Proof.
    intros df l I K x v. pose proof I as [I1 [I2 [I3 [I4 [I5 I6]]]]]. split; [apply I4|].
    intros H. induction H as [x v L|c f deps e v L C E1 E2 IH E3 EV]; [apply I5; exact L|].
    assert (CK : In c (map fst defs)) by (apply in_map_iff; exists (c, (f, deps)); auto).
    assert (HC : has_column V df c = true).
    { destruct (I6 c CK) as [H|H]; [|exact H]. exfalso. destruct (K c H) as [_ K2]. specialize (K2 f deps C).
      assert (T : forallb (present df) deps = true).
      { apply forallb_forall. intros d Hd. unfold present. destruct (e d) as [w|] eqn:W; [|exfalso; apply (E1 d Hd W)].
        rewrite (IH d w Hd W). destruct check_nans eqn:CN; [|reflexivity]. apply (E3 d w Hd W eq_refl). }
      congruence. }
    apply (has_column_iff df c I1 CK) in HC. destruct (lookup' df c) as [w|] eqn:W; [|contradiction].
    f_equal. apply (derives_unique c w).
    - apply I4. exact W.
    - apply (derives_formula V eval no_nans check_nans defs df0 c f deps e v L C E1 E2 E3 EV).
  Qed.

  Lemma compute_covariates_ok : exists df',
    (forall x v, lookup' df' x = Some v <-> derives' x v) /\
    compute_covariates V eval no_nans check_nans false defs df0 = Some (Ok df') /\
    ((forall c, In c (map fst defs) -> exists v, derives' c v) ->
       compute_covariates V eval no_nans check_nans true defs df0 = Some (Ok df')) /\
    ((exists c, In c (map fst defs) /\ ~ exists v, derives' c v) ->
       compute_covariates V eval no_nans check_nans true defs df0 = Some OtherError).
  Proof.
    destruct (compute_loop_ok (S (List.length defs)) df0 (map fst defs) inv_initial) as [df' [l [E [I K]]]].
    { rewrite map_length. lia. }
    pose proof (stable_complete df' l I K) as SC.
    exists df'. split; [exact SC|]. unfold compute_covariates. rewrite E. split; [reflexivity|]. split.
    - intros A. destruct l as [|c l]; [reflexivity|]. exfalso.
      destruct I as [I1 [_ [I3 _]]]. assert (C : In c (map fst defs)) by (apply I3; left; reflexivity).
      destruct (A c C) as [v V']. apply SC in V'. destruct (K c (or_introl eq_refl)) as [HC _].
      assert (T : has_column V df' c = true) by (apply (has_column_iff df' c I1 C); congruence). congruence.
    - intros [c [C B]]. destruct l as [|c' l]; [|reflexivity]. exfalso. apply B.
      destruct I as [I1 [_ [_ [_ [_ I6]]]]]. destruct (I6 c C) as [[]|HC].
      apply (has_column_iff df' c I1 C) in HC. destruct (lookup' df' c) as [v|] eqn:W; [|contradiction].
      exists v. apply SC. exact W.
  Qed.
End Compute.
