(** What the processed options contain. *)
From Coq Require Import List Arith Bool String Lia.
From Verif Require Import Base Model_Solve Proof_Base Proof_Solve Model_Session Spec_Session Proof_Session.
Import ListNotations.
Open Scope list_scope.

Lemma Forall2_impl : forall A B (P Q : A -> B -> Prop) l l', (forall x y, P x y -> Q x y) -> Forall2 P l l' -> Forall2 Q l l'.
Proof. intros A B P Q l l' H F. induction F; constructor; auto. Qed.

(** Heaps that only grow. *)
Definition extends (h h' : heap) : Prop := forall a o, nth_error h a = Some o -> nth_error h' a = Some o.
Lemma extends_app : forall h l, extends h (h ++ l).
Proof. intros h l a o E. rewrite nth_error_app1; [exact E|]. eapply in_range; eauto. Qed.
Lemma extends_refl : forall h, extends h h.
Proof. intros h a o E. exact E. Qed.
Lemma extends_trans : forall h1 h2 h3, extends h1 h2 -> extends h2 h3 -> extends h1 h3.
Proof. intros h1 h2 h3 A B a o E. auto. Qed.
Lemma apart0 : forall h, apart 0 h.
Proof. intros h a o _ _. apply Forall_forall. lia. Qed.
Lemma extends_same : forall n h h', extends h h' -> same_from n h h'.
Proof. intros n h h' H a o _. apply H. Qed.
Lemma seen_extends : forall h h' a c, extends h h' -> seen h a = Ok c -> seen h' a = Ok c.
Proof. intros h h' a c H. apply (same_seen 0 h h' a c (apart0 h) (extends_same 0 h h' H)). lia. Qed.
Lemma last_nth : forall (h : heap) o, nth_error (h ++ [o]) (List.length h) = Some o.
Proof. intros h o. rewrite nth_error_app2 by lia. rewrite Nat.sub_diag. reflexivity. Qed.

(** The parts of visible options. *)
Definition is_texts (h : heap) (a : nat) (l : list string) : Prop := nth_error h a = Some (Texts l).
Definition is_formulas (h : heap) (a : nat) (d : list (string * string)) : Prop := nth_error h a = Some (Formulas d).
Definition entry_of (h : heap) (xa : string * nat) (yl : string * list string) : Prop :=
  fst xa = fst yl /\ is_texts h (snd xa) (snd yl).
Definition is_restr (h : heap) (a : nat) (R : list (string * list string)) : Prop :=
  exists d, nth_error h a = Some (Restrictions d) /\ Forall2 (entry_of h) d R.
Definition maybe {A} (P : nat -> A -> Prop) (x : option nat) (v : option A) : Prop :=
  match x, v with Some a, Some w => P a w | None, None => True | _, _ => False end.
Definition is_options (h : heap) (a : nat) (c : contents) : Prop :=
  exists e, nth_error h a = Some (Options e) /\ maybe (is_formulas h) (e_cov e) (c_cov c) /\
    maybe (is_texts h) (e_filters e) (c_filters c) /\ maybe (is_restr h) (e_restr e) (c_restr c) /\ e_rest e = c_rest c.

Lemma texts_iff : forall h a l, snd (get_texts a h) = Ok l <-> is_texts h a l.
Proof.
  intros h a l. unfold get_texts, is_texts. cbn [snd]. destruct (nth_error h a) as [[| |l'|]|]; split; intros E; congruence.
Qed.
Lemma formulas_iff : forall h a d, snd (get_formulas a h) = Ok d <-> is_formulas h a d.
Proof.
  intros h a l. unfold get_formulas, is_formulas. cbn [snd]. destruct (nth_error h a) as [[| |l'|]|]; split; intros E; congruence.
Qed.
Lemma each_entries : forall h d R,
  snd (each (fun ca => bind (get_texts (snd ca)) (fun l => ret (fst ca, l))) d h) = Ok R <-> Forall2 (entry_of h) d R.
Proof.
  intros h d. induction d as [|[x l] d IH]; intros R; cbn [each].
  - split; intros E; [injection E as <-; constructor|inversion E; reflexivity].
  - split.
    + intros E. apply bind_ok in E as (y & Ey & E); [|apply looks_bind; [look|intros ? ?; reflexivity]].
      apply bind_ok in E as (ys & Eys & E); [|apply looks_each; intros z; apply looks_bind; [look|intros ? ?; reflexivity]].
      apply bind_ok in Ey as (l' & El & Ey); [|look]. cbn in Ey, E. injection Ey as <-. injection E as <-.
      constructor; [split; [reflexivity|apply texts_iff; exact El]|apply IH; exact Eys].
    + intros E. inversion E as [|? [y l'] ? ys [E1 E2] E3]; subst. cbn [fst snd] in *. subst y.
      rewrite (bind_back _ _ _ _ h (x, l')); [|apply looks_bind; [look|intros ? ?; reflexivity]|].
      2:{ rewrite (bind_back _ _ _ _ h l'); [reflexivity|look|apply texts_iff; exact E2]. }
      rewrite (bind_back _ _ _ _ h ys); [reflexivity|apply looks_each; intros z; apply looks_bind; [look|intros ? ?; reflexivity]|].
      apply IH. exact E3.
Qed.
Lemma restr_iff : forall h a R, snd (see_restrictions a h) = Ok R <-> is_restr h a R.
Proof.
  intros h a R. unfold see_restrictions, is_restr. split.
  - intros E. apply bind_ok in E as (d & Ed & E); [|look]. exists d. split; [|apply each_entries; exact E].
    unfold get_restrictions in Ed. cbn [snd] in Ed. destruct (nth_error h a) as [[| | |d']|]; congruence.
  - intros (d & Ed & E). rewrite (bind_back _ _ _ _ h d); [apply each_entries; exact E|look|].
    unfold get_restrictions. cbn [snd]. rewrite Ed. reflexivity.
Qed.
Lemma see_iff : forall A (f : nat -> M A) (P : nat -> A -> Prop) h x v, (forall a, looks (f a)) ->
  (forall a w, snd (f a h) = Ok w <-> P a w) -> (snd (see f x h) = Ok v <-> maybe P x v).
Proof.
  intros A f P h [a|] v L H; cbn [see maybe].
  - split.
    + intros E. apply bind_ok in E as (w & Ew & E); [|apply L]. cbn in E. injection E as <-. apply H. exact Ew.
    + destruct v as [w|]; [|intros []]. intros E. rewrite (bind_back _ _ _ _ h w (L a)); [reflexivity|apply H; exact E].
  - cbn. destruct v; split; intros E; try discriminate; try contradiction; auto.
Qed.
Lemma options_iff : forall h a c, seen h a = Ok c <-> is_options h a c.
Proof.
  intros h a c. unfold seen, see_options, is_options. split.
  - intros E. apply bind_ok in E as (e & Ee & E); [|look].
    apply bind_ok in E as (c1 & E1 & E); [|apply looks_see; intros b; look].
    apply bind_ok in E as (f1 & E2 & E); [|apply looks_see; intros b; look].
    apply bind_ok in E as (r1 & E3 & E); [|apply looks_see; apply looks_see_restrictions].
    cbn in E. injection E as <-. cbn [c_cov c_filters c_restr c_rest]. exists e. repeat split.
    + unfold get_options in Ee. cbn [snd] in Ee. destruct (nth_error h a) as [[e'| | |]|]; congruence.
    + revert E1. apply see_iff; [intros b; look|apply formulas_iff].
    + revert E2. apply see_iff; [intros b; look|apply texts_iff].
    + revert E3. apply see_iff; [apply looks_see_restrictions|apply restr_iff].
  - intros (e & Ee & H1 & H2 & H3 & H4). rewrite (bind_back _ _ _ _ h e); [|look|unfold get_options; cbn [snd]; rewrite Ee; reflexivity].
    rewrite (bind_back _ _ _ _ h (c_cov c)); [|apply looks_see; intros b; look|apply (see_iff _ _ (is_formulas h)); [intros b; look|apply formulas_iff|exact H1]].
    rewrite (bind_back _ _ _ _ h (c_filters c)); [|apply looks_see; intros b; look|apply (see_iff _ _ (is_texts h)); [intros b; look|apply texts_iff|exact H2]].
    rewrite (bind_back _ _ _ _ h (c_restr c)); [|apply looks_see; apply looks_see_restrictions|apply (see_iff _ _ (is_restr h)); [apply looks_see_restrictions|apply restr_iff|exact H3]].
    cbn. rewrite H4. destruct c. reflexivity.
Qed.

(** Running computations step by step. *)
Lemma run_bind : forall A B (m : M A) (f : A -> M B) h h' x, m h = (h', Ok x) -> bind m f h = f x h'.
Proof. intros A B m f h h' x E. unfold bind. rewrite E. reflexivity. Qed.
Lemma run_get_options : forall h a e, nth_error h a = Some (Options e) -> get_options a h = (h, Ok e).
Proof. intros h a e E. unfold get_options. rewrite E. reflexivity. Qed.
Lemma run_get_formulas : forall h a e, is_formulas h a e -> get_formulas a h = (h, Ok e).
Proof. intros h a e E. unfold get_formulas. rewrite E. reflexivity. Qed.
Lemma run_get_texts : forall h a e, is_texts h a e -> get_texts a h = (h, Ok e).
Proof. intros h a e E. unfold get_texts. rewrite E. reflexivity. Qed.
Lemma run_get_restrictions : forall h a e, nth_error h a = Some (Restrictions e) -> get_restrictions a h = (h, Ok e).
Proof. intros h a e E. unfold get_restrictions. rewrite E. reflexivity. Qed.

(** Deep copies. *)
Lemma run_copy_texts : forall h a l, is_texts h a l -> copy_texts a h = (h ++ [Texts l], Ok (List.length h)).
Proof. intros h a l E. unfold copy_texts. rewrite (run_bind _ _ _ _ _ _ _ (run_get_texts _ _ _ E)). reflexivity. Qed.
Lemma run_copy_formulas : forall h a d, is_formulas h a d -> copy_formulas a h = (h ++ [Formulas d], Ok (List.length h)).
Proof. intros h a l E. unfold copy_formulas. rewrite (run_bind _ _ _ _ _ _ _ (run_get_formulas _ _ _ E)). reflexivity. Qed.
Definition copies (n : nat) (R : list (string * list string)) : list (string * nat) :=
  combine (map fst R) (seq n (List.length R)).
Lemma run_copy_each : forall d R h, Forall2 (entry_of h) d R ->
  each (fun ca => bind (copy_texts (snd ca)) (fun a' => ret (fst ca, a'))) d h =
  (h ++ map (fun yl => Texts (snd yl)) R, Ok (copies (List.length h) R)).
Proof.
  intros d. induction d as [|[x l] d IH]; intros R h E; inversion E as [|? [y l'] ? ys [E1 E2] E3]; subst; cbn [each].
  - rewrite app_nil_r. reflexivity.
  - cbn [fst snd] in *. subst y. erewrite run_bind.
    2:{ erewrite run_bind by (apply run_copy_texts; exact E2). reflexivity. }
    erewrite run_bind.
    2:{ apply (IH ys). eapply Forall2_impl; [|exact E3]. intros a b [H1 H2]. split; [exact H1|]. apply extends_app. exact H2. }
    unfold ret, copies. rewrite <- app_assoc, app_length. cbn. rewrite Nat.add_1_r. reflexivity.
Qed.
Lemma run_copy_restr : forall h a R, is_restr h a R ->
  copy_restrictions a h =
  ((h ++ map (fun yl => Texts (snd yl)) R) ++ [Restrictions (copies (List.length h) R)],
   Ok (List.length h + List.length R)).
Proof.
  intros h a R (d & Ed & E). unfold copy_restrictions. erewrite run_bind by (apply run_get_restrictions; exact Ed).
  erewrite run_bind by (apply run_copy_each; exact E). unfold new. rewrite app_length, map_length. reflexivity.
Qed.
Lemma copies_entries : forall R h t, Forall2 (entry_of (h ++ map (fun yl => Texts (snd yl)) R ++ t)) (copies (List.length h) R) R.
Proof.
  unfold copies. induction R as [|[x l] R IH]; intros h t; cbn; constructor.
  - split; [reflexivity|]. unfold is_texts. cbn [snd]. rewrite nth_error_app2 by lia. rewrite Nat.sub_diag. reflexivity.
  - specialize (IH (h ++ [Texts l]) t). rewrite app_length, Nat.add_1_r in IH. rewrite <- app_assoc in IH. exact IH.
Qed.
Lemma is_texts_extends : forall h h' a l, extends h h' -> is_texts h a l -> is_texts h' a l.
Proof. intros h h' a l H. apply H. Qed.
Lemma is_formulas_extends : forall h h' a l, extends h h' -> is_formulas h a l -> is_formulas h' a l.
Proof. intros h h' a l H. apply H. Qed.
Lemma entries_extends : forall h h' d R, extends h h' -> Forall2 (entry_of h) d R -> Forall2 (entry_of h') d R.
Proof. intros h h' d R H. apply Forall2_impl. intros x y [H1 H2]. split; [exact H1|]. apply H. exact H2. Qed.
Lemma is_restr_extends : forall h h' a R, extends h h' -> is_restr h a R -> is_restr h' a R.
Proof. intros h h' a R H (d & E & F). exists d. split; [apply H; exact E|]. eapply entries_extends; eauto. Qed.
Lemma maybe_extends : forall A (P P' : nat -> A -> Prop) x v, (forall a w, P a w -> P' a w) -> maybe P x v -> maybe P' x v.
Proof. intros A P P' [a|] [w|] H; cbn; auto. Qed.
Lemma copy_entry_spec : forall A (P : heap -> nat -> A -> Prop) copy h x v,
  (forall a w, P h a w -> exists h' a', copy a h = (h', Ok a') /\ extends h h' /\ P h' a' w) ->
  maybe (P h) x v -> exists h' x', copy_entry copy x h = (h', Ok x') /\ extends h h' /\ maybe (P h') x' v.
Proof.
  intros A P copy h [a|] [w|] H E; cbn in E; try contradiction; cbn [copy_entry].
  - destruct (H a w E) as (h' & a' & C & X & E'). exists h', (Some a'). erewrite run_bind by exact C. auto.
  - exists h, None. repeat split; auto. apply extends_refl.
Qed.
Lemma copy_spec : forall h a c, is_options h a c ->
  exists h' a', copy_options a h = (h', Ok a') /\ extends h h' /\ is_options h' a' c.
Proof.
  intros h a c (e & Ee & H1 & H2 & H3 & H4). unfold copy_options. erewrite run_bind by (apply run_get_options; exact Ee).
  destruct (copy_entry_spec _ is_formulas copy_formulas h _ _
             ltac:(intros b w E; exists (h ++ [Formulas w]), (List.length h); repeat split;
                   [apply run_copy_formulas; exact E|apply extends_app|apply last_nth]) H1) as (h1 & c1 & C1 & X1 & E1).
  erewrite run_bind by exact C1.
  apply (maybe_extends _ _ _ _ _ (fun a w => is_texts_extends h h1 a w X1)) in H2.
  destruct (copy_entry_spec _ is_texts copy_texts h1 _ _
             ltac:(intros b w E; exists (h1 ++ [Texts w]), (List.length h1); repeat split;
                   [apply run_copy_texts; exact E|apply extends_app|apply last_nth]) H2) as (h2 & c2 & C2 & X2 & E2).
  erewrite run_bind by exact C2.
  apply (maybe_extends _ _ _ _ _ (fun a w => is_restr_extends h h2 a w (extends_trans _ _ _ X1 X2))) in H3.
  assert (Q : forall b w, is_restr h2 b w -> exists h' a', copy_restrictions b h2 = (h', Ok a') /\ extends h2 h' /\ is_restr h' a' w).
  { intros b w E. eexists _, _. split; [apply run_copy_restr; exact E|]. rewrite <- app_assoc. split; [apply extends_app|].
    eexists. split; [|apply copies_entries]. rewrite nth_error_app2 by lia. rewrite nth_error_app2 by (rewrite map_length; lia).
    rewrite map_length. replace (_ - _ - _) with 0 by lia. reflexivity. }
  destruct (copy_entry_spec _ is_restr copy_restrictions h2 _ _ Q H3) as (h3 & c3 & C3 & X3 & E3).
  erewrite run_bind by exact C3. unfold new. eexists _, _. split; [reflexivity|].
  assert (X : extends h3 (h3 ++ [Options (mkEntries c1 c2 c3 (e_rest e))])) by apply extends_app.
  split; [eauto using extends_trans|]. exists (mkEntries c1 c2 c3 (e_rest e)). repeat split; cbn [e_cov e_filters e_restr e_rest]; auto.
  - apply last_nth.
  - revert E1. apply maybe_extends. intros b w. apply is_formulas_extends. eauto using extends_trans.
  - revert E2. apply maybe_extends. intros b w. apply is_texts_extends. eauto using extends_trans.
  - revert E3. apply maybe_extends. intros b w. apply is_restr_extends. exact X.
Qed.

(** Options that consist of pairwise different objects. *)
Record own (h : heap) (a c f r : nat) (d : list (string * nat)) (t : contents) : Prop := mkOwn {
  ow_options : nth_error h a = Some (Options (mkEntries (Some c) (Some f) (Some r) (c_rest t)));
  ow_cov : exists cov, c_cov t = Some cov /\ is_formulas h c cov;
  ow_filters : exists fs, c_filters t = Some fs /\ is_texts h f fs;
  ow_restr : nth_error h r = Some (Restrictions d);
  ow_entries : exists R, c_restr t = Some R /\ Forall2 (entry_of h) d R;
  ow_distinct : NoDup (a :: c :: f :: r :: map snd d)
}.
Lemma own_seen : forall h a c f r d t, own h a c f r d t -> seen h a = Ok t.
Proof.
  intros h a c f r d t [H1 (cov & E2 & H2) (fs & E3 & H3) H4 (R & E5 & H5) _]. apply options_iff. eexists. split; [exact H1|].
  cbn [e_cov e_filters e_restr e_rest]. rewrite E2, E3, E5. cbn. repeat split; auto. exists d. auto.
Qed.
Lemma seq_snd : forall (X : list string) n, map snd (combine X (seq n (List.length X))) = seq n (List.length X).
Proof. induction X as [|x X IH]; intros n; cbn; [reflexivity|]. f_equal. apply IH. Qed.
Lemma copies_snd : forall R n, map snd (copies n R) = seq n (List.length R).
Proof. intros R n. unfold copies. rewrite <- (map_length fst R) at 1 2. apply seq_snd. Qed.
Lemma copy_own : forall h a cov fs R rest, is_options h a (mkContents (Some cov) (Some fs) (Some R) rest) ->
  exists h' a' c f r d, copy_options a h = (h', Ok a') /\ own h' a' c f r d (mkContents (Some cov) (Some fs) (Some R) rest).
Proof.
  intros h a cov fs R rest (e & Ee & H1 & H2 & H3 & H4). cbn [c_cov c_filters c_restr c_rest] in *.
  destruct e as [[c0|] [f0|] [r0|] rest0]; cbn [e_cov e_filters e_restr e_rest maybe] in *; try contradiction. subst rest0.
  unfold copy_options. erewrite run_bind by (apply run_get_options; exact Ee). cbn [e_cov e_filters e_restr e_rest copy_entry].
  erewrite run_bind by (erewrite run_bind by (apply run_copy_formulas; exact H1); reflexivity).
  erewrite run_bind by (erewrite run_bind by (apply run_copy_texts; eapply is_texts_extends; [apply extends_app|exact H2]); reflexivity).
  erewrite run_bind.
  2:{ erewrite run_bind; [reflexivity|]. apply run_copy_restr. eapply is_restr_extends; [|exact H3]. rewrite <- app_assoc. apply extends_app. }
  unfold new. rewrite !app_length, !map_length. cbn [List.length].
  set (n := List.length h).
  exists ((h ++ [Formulas cov; Texts fs] ++ map (fun yl => Texts (snd yl)) R ++ [Restrictions (copies (n + 2) R)]) ++
          [Options (mkEntries (Some n) (Some (n + 1)) (Some (n + 2 + List.length R)) rest)]),
    (n + 2 + List.length R + 1), n, (n + 1), (n + 2 + List.length R), (copies (n + 2) R).
  split. { unfold n. cbn [app]. rewrite <- !app_assoc. cbn [app].
    replace (Datatypes.length h + 1 + 1) with (Datatypes.length h + 2) by lia. rewrite <- ?app_assoc. reflexivity. }
  assert (N : forall k o tl, nth_error ([Formulas cov; Texts fs] ++ map (fun yl => Texts (snd yl)) R ++ tl) k = Some o ->
              nth_error (h ++ [Formulas cov; Texts fs] ++ map (fun yl => Texts (snd yl)) R ++ tl) (n + k) = Some o).
  { intros k o tl E. rewrite nth_error_app2 by (unfold n; lia). rewrite <- E. f_equal. unfold n. lia. }
  rewrite <- !app_assoc. constructor; cbn [c_cov c_filters c_restr c_rest].
  - replace (n + 2 + List.length R + 1) with (n + (2 + (List.length R + 1))) by lia. apply N. cbn [app nth_error Nat.add].
    rewrite nth_error_app2 by (rewrite map_length; lia). rewrite map_length. replace (_ - _) with 1 by lia. reflexivity.
  - exists cov. split; [reflexivity|]. unfold is_formulas. 
    match goal with |- nth_error ?l ?k = ?o => change (nth_error l k = o); cut (nth_error l (k + 0) = o);
      [rewrite Nat.add_0_r; auto|apply N; reflexivity] end.
  - exists fs. split; [reflexivity|]. unfold is_texts. apply N. reflexivity.
  - match goal with |- nth_error ?l _ = ?o => cut (nth_error l (n + (2 + List.length R)) = o);
      [intros E; rewrite <- E; f_equal; lia|] end. apply N. cbn [app nth_error Nat.add].
    rewrite nth_error_app2 by (rewrite map_length; lia). rewrite map_length, Nat.sub_diag. reflexivity.
  - exists R. split; [reflexivity|]. rewrite (app_assoc h).
    match goal with |- Forall2 (entry_of (_ ++ _ ++ ?t)) _ _ =>
      pose proof (copies_entries R (h ++ [Formulas cov; Texts fs]) t) as C end.
    rewrite app_length in C. exact C.
  - rewrite copies_snd. repeat constructor; cbn [In]; rewrite ?in_seq; try lia. apply seq_NoDup.
Qed.
