(** The steps of processing on options that own their objects. *)
From Coq Require Import List Arith Bool String Lia.
From Verif Require Import Base Model_Solve Proof_Base Proof_Solve Model_Session Spec_Session Proof_Session Proof_SessionContents.
Import ListNotations.
Open Scope list_scope.

Definition with_step (R : list (string * list string)) (xf : string * string) :=
  dict_set string_dec (fst xf) (or_else (dict_get string_dec (fst xf) R) [] ++ [snd xf]) R.
Definition without_step (R : list (string * list string)) (x : string) :=
  dict_set string_dec x (or_else (dict_get string_dec x R) ["False"%string]) R.
Definition convert_step (codes : string -> string) (R : list (string * list string)) (x : string) :=
  match dict_get string_dec x R with Some fs => dict_set string_dec x (map codes fs) R | None => R end.
Definition set_cov (t : contents) (cov : list (string * string)) : contents :=
  mkContents (Some cov) (c_filters t) (c_restr t) (c_rest t).
Definition set_filters (t : contents) (fs : list string) : contents :=
  mkContents (c_cov t) (Some fs) (c_restr t) (c_rest t).
Definition set_restr (t : contents) (R : list (string * list string)) : contents :=
  mkContents (c_cov t) (c_filters t) (Some R) (c_rest t).

Lemma get_entries : forall h x d R, Forall2 (entry_of h) d R ->
  match dict_get string_dec x d with
  | Some l => exists fs, dict_get string_dec x R = Some fs /\ is_texts h l fs
  | None => dict_get string_dec x R = None
  end.
Proof.
  intros h x d R F. induction F as [|[y l] [y' fs] d R [E1 E2] F IH]; cbn; [reflexivity|]. cbn [fst snd] in *. subst y'.
  destruct (string_dec x y); [eauto|exact IH].
Qed.
Lemma set_entries : forall h x l fs d R, is_texts h l fs -> Forall2 (entry_of h) d R ->
  Forall2 (entry_of h) (dict_set string_dec x l d) (dict_set string_dec x fs R).
Proof.
  intros h x l fs d R Hl F. induction F as [|[y b] [y' fs'] d R [E1 E2] F IH]; cbn.
  - constructor; [split; [reflexivity|exact Hl]|constructor].
  - cbn [fst snd] in *. subst y'. destruct (string_dec x y); constructor; auto; split; auto.
Qed.
Lemma set_values_in : forall x l (d : list (string * nat)) b, In b (map snd (dict_set string_dec x l d)) -> b = l \/ In b (map snd d).
Proof.
  intros x l d b. induction d as [|[y c] d IH]; cbn; [intros [<-|[]]; auto|].
  destruct (string_dec x y); cbn; [intros [<-|H]; auto|]. intros [<-|H]; auto. destruct (IH H); auto.
Qed.
Lemma set_values_nodup : forall x l (d : list (string * nat)), NoDup (map snd d) -> ~ In l (map snd d) ->
  NoDup (map snd (dict_set string_dec x l d)).
Proof.
  intros x l d. induction d as [|[y c] d IH]; cbn; intros N H; [repeat constructor; auto|].
  inversion N; subst. destruct (string_dec x y); cbn.
  - constructor; auto.
  - constructor; [|apply IH; auto]. intros K. apply set_values_in in K as [->|K]; [apply H; auto|contradiction].
Qed.
Lemma distinct_set : forall p1 p2 p3 p4 x l (d : list (string * nat)), NoDup (p1 :: p2 :: p3 :: p4 :: map snd d) ->
  ~ In l (p1 :: p2 :: p3 :: p4 :: map snd d) -> NoDup (p1 :: p2 :: p3 :: p4 :: map snd (dict_set string_dec x l d)).
Proof.
  intros p1 p2 p3 p4 x l d N H.
  inversion N as [|? ? H1 N1]; subst. inversion N1 as [|? ? H2 N2]; subst. inversion N2 as [|? ? H3 N3]; subst.
  inversion N3 as [|? ? H4 N4]; subst. cbn [In] in H.
  assert (K : forall b, In b (map snd (dict_set string_dec x l d)) -> b = l \/ In b (map snd d)) by (intros b; apply set_values_in).
  repeat constructor; cbn [In] in *.
  - intros [E|[E|[E|E]]]; try (apply K in E as [E|E]); subst; intuition.
  - intros [E|[E|E]]; try (apply K in E as [E|E]); subst; intuition.
  - intros [E|E]; try (apply K in E as [E|E]); subst; intuition.
  - intros E; apply K in E as [E|E]; subst; intuition.
  - apply set_values_nodup; intuition.
Qed.
Lemma set_same : forall x l (d : list (string * nat)), dict_get string_dec x d = Some l -> dict_set string_dec x l d = d.
Proof.
  intros x l d. induction d as [|[y b] d IH]; cbn; [discriminate|]. destruct (string_dec x y).
  - intros [= ->]. reflexivity.
  - intros E. rewrite IH by exact E. reflexivity.
Qed.
Lemma set_same_texts : forall x l (d : list (string * list string)), dict_get string_dec x d = Some l -> dict_set string_dec x l d = d.
Proof.
  intros x l d. induction d as [|[y b] d IH]; cbn; [discriminate|]. destruct (string_dec x y).
  - intros [= ->]. reflexivity.
  - intros E. rewrite IH by exact E. reflexivity.
Qed.

(** Objects elsewhere keep their contents. *)
Lemma other : forall (h : heap) a o b, b <> a -> nth_error (set_nth a o h) b = nth_error h b.
Proof. intros h a o b H. apply nth_error_set_nth_other. auto. Qed.
Lemma here : forall (h : heap) a o o', nth_error h a = Some o' -> nth_error (set_nth a o h) a = Some o.
Proof. intros h a o o' E. apply nth_error_set_nth_same. eapply in_range; eauto. Qed.
Lemma entries_other : forall h a o d R, ~ In a (map snd d) -> Forall2 (entry_of h) d R -> Forall2 (entry_of (set_nth a o h)) d R.
Proof.
  intros h a o d R N F. induction F as [|x y d R [E1 E2] F IH]; constructor.
  - split; [exact E1|]. unfold is_texts. rewrite other; [exact E2|]. intros E. apply N. left. exact E.
  - apply IH. intros K. apply N. right. exact K.
Qed.
Lemma entries_here : forall h x l fs' d R, NoDup (map snd d) -> Forall2 (entry_of h) d R -> dict_get string_dec x d = Some l ->
  Forall2 (entry_of (set_nth l (Texts fs') h)) d (dict_set string_dec x fs' R).
Proof.
  intros h x l fs' d R N F. induction F as [|[y b] [y' fs] d R [E1 E2] F IH]; cbn; [discriminate|]. cbn [fst snd] in *. subst y'.
  inversion N as [|? ? Nb N']; subst. destruct (string_dec x y) as [->|Hne].
  - intros [= ->]. constructor.
    + split; [reflexivity|]. unfold is_texts. cbn [snd]. eapply here. exact E2.
    + apply entries_other; assumption.
  - intros E. constructor; [|apply IH; assumption]. split; [reflexivity|]. unfold is_texts. cbn [snd]. rewrite other; [exact E2|].
    intros ->. apply Nb. apply dict_get_Some_In in E. apply (in_map snd) in E. exact E.
Qed.
Lemma own_extends : forall h h' a c f r d t, extends h h' -> own h a c f r d t -> own h' a c f r d t.
Proof.
  intros h h' a c f r d t X [H1 (cov & E2 & H2) (fs & E3 & H3) H4 (R & E5 & H5) H6].
  constructor; auto; [exists cov|exists fs|exists R]; split; auto; [apply X; exact H2|apply X; exact H3|eapply entries_extends; eauto].
Qed.
Lemma own_fresh : forall h a c f r d t, own h a c f r d t -> ~ In (List.length h) (a :: c :: f :: r :: map snd d).
Proof.
  intros h a c f r d t [H1 (cov & E2 & H2) (fs & E3 & H3) H4 (R & E5 & H5) H6] K.
  assert (L : forall b o, nth_error h b = Some o -> b <> List.length h). { intros b o E. apply in_range in E. lia. }
  cbn [In] in K. destruct K as [K|[K|[K|[K|K]]]]; try (eapply L; [|exact K]; eassumption).
  clear - K H5. induction H5 as [|x y d R [E1 E2] F IH]; cbn in K; [contradiction|].
  destruct K as [K|K]; [|auto]. apply in_range in E2. lia.
Qed.
Lemma distinct4 : forall a c f r (l : list nat), NoDup (a :: c :: f :: r :: l) ->
  (a <> c /\ a <> f /\ a <> r /\ ~ In a l) /\ (c <> f /\ c <> r /\ ~ In c l) /\ (f <> r /\ ~ In f l) /\ ~ In r l /\ NoDup l.
Proof.
  intros a c f r l N. inversion N as [|? ? H1 N1]; subst. inversion N1 as [|? ? H2 N2]; subst.
  inversion N2 as [|? ? H3 N3]; subst. inversion N3 as [|? ? H4 N4]; subst. cbn [In] in *. intuition.
Qed.

(** Assigning a new object to an entry of the options. *)
Lemma own_new_cov : forall h a c f r d t cov, own h a c f r d t ->
  own (set_nth a (Options (mkEntries (Some (List.length h)) (Some f) (Some r) (c_rest t))) (h ++ [Formulas cov]))
      a (List.length h) f r d (set_cov t cov).
Proof.
  intros h a c f r d t cov O. pose proof (own_fresh _ _ _ _ _ _ _ O) as Fr.
  assert (X := extends_app h [Formulas cov]). destruct O as [H1 (cv & E2 & H2) (fs & E3 & H3) H4 (R & E5 & H5) H6].
  pose proof (distinct4 _ _ _ _ _ H6) as (D1 & D2 & D3 & D4 & D5). cbn [In] in Fr.
  constructor; cbn [set_cov c_cov c_filters c_restr c_rest].
  - eapply here. apply X. exact H1.
  - exists cov. split; [reflexivity|]. unfold is_formulas. rewrite other by intuition. apply last_nth.
  - exists fs. split; [exact E3|]. unfold is_texts. rewrite other by intuition. apply X. exact H3.
  - rewrite other by intuition. apply X. exact H4.
  - exists R. split; [exact E5|]. apply entries_other; [intuition|]. eapply entries_extends; eauto.
  - constructor; [|constructor; [|constructor]]; cbn [In] in *; intuition. constructor; assumption.
Qed.
Lemma own_new_filters : forall h a c f r d t fs', own h a c f r d t ->
  own (set_nth a (Options (mkEntries (Some c) (Some (List.length h)) (Some r) (c_rest t))) (h ++ [Texts fs']))
      a c (List.length h) r d (set_filters t fs').
Proof.
  intros h a c f r d t fs' O. pose proof (own_fresh _ _ _ _ _ _ _ O) as Fr.
  assert (X := extends_app h [Texts fs']). destruct O as [H1 (cv & E2 & H2) (fs & E3 & H3) H4 (R & E5 & H5) H6].
  pose proof (distinct4 _ _ _ _ _ H6) as (D1 & D2 & D3 & D4 & D5). cbn [In] in Fr.
  constructor; cbn [set_filters c_cov c_filters c_restr c_rest].
  - eapply here. apply X. exact H1.
  - exists cv. split; [exact E2|]. unfold is_formulas. rewrite other by intuition. apply X. exact H2.
  - exists fs'. split; [reflexivity|]. unfold is_texts. rewrite other by intuition. apply last_nth.
  - rewrite other by intuition. apply X. exact H4.
  - exists R. split; [exact E5|]. apply entries_other; [intuition|]. eapply entries_extends; eauto.
  - constructor; [|constructor; [|constructor]]; cbn [In] in *; intuition. constructor; assumption.
Qed.
Lemma own_set_cov : forall h a c f r d t cov, own h a c f r d t -> own (set_nth c (Formulas cov) h) a c f r d (set_cov t cov).
Proof.
  intros h a c f r d t cov [H1 (cv & E2 & H2) (fs & E3 & H3) H4 (R & E5 & H5) H6].
  pose proof (distinct4 _ _ _ _ _ H6) as (D1 & D2 & D3 & D4 & D5).
  constructor; cbn [set_cov c_cov c_filters c_restr c_rest].
  - rewrite other by intuition. exact H1.
  - exists cov. split; [reflexivity|]. unfold is_formulas. eapply here. exact H2.
  - exists fs. split; [exact E3|]. unfold is_texts. rewrite other by intuition. exact H3.
  - rewrite other by intuition. exact H4.
  - exists R. split; [exact E5|]. apply entries_other; [intuition|exact H5].
  - exact H6.
Qed.
Lemma own_set_entry : forall h a c f r d t x fs' R, own h a c f r d t -> c_restr t = Some R ->
  own (set_nth r (Restrictions (dict_set string_dec x (List.length h) d)) (h ++ [Texts fs']))
      a c f r (dict_set string_dec x (List.length h) d) (set_restr t (dict_set string_dec x fs' R)).
Proof.
  intros h a c f r d t x fs' R O ER. pose proof (own_fresh _ _ _ _ _ _ _ O) as Fr.
  assert (X := extends_app h [Texts fs']). destruct O as [H1 (cv & E2 & H2) (fs & E3 & H3) H4 (R' & E5 & H5) H6].
  rewrite ER in E5. injection E5 as <-.
  pose proof (distinct4 _ _ _ _ _ H6) as (D1 & D2 & D3 & D4 & D5). cbn [In] in Fr.
  constructor; cbn [set_restr c_cov c_filters c_restr c_rest].
  - rewrite other by intuition. apply X. exact H1.
  - exists cv. split; [exact E2|]. unfold is_formulas. rewrite other by intuition. apply X. exact H2.
  - exists fs. split; [exact E3|]. unfold is_texts. rewrite other by intuition. apply X. exact H3.
  - eapply here. apply X. exact H4.
  - eexists. split; [reflexivity|]. apply entries_other.
    + intros K. apply set_values_in in K as [K|K]; [subst; intuition|contradiction].
    + apply set_entries; [apply last_nth|]. eapply entries_extends; eauto.
  - apply distinct_set; [exact H6|]. cbn [In]. exact Fr.
Qed.

Lemma run_with_exp : forall h a c f r d t x R, own h a c f r d t -> c_restr t = Some R ->
  exists h' d', restrict_with_exp r x h = (h', Ok tt) /\ own h' a c f r d' (set_restr t (with_step R x)).
Proof.
  intros h a c f r d t x R O ER. assert (E4 := ow_restr _ _ _ _ _ _ _ O). destruct (ow_entries _ _ _ _ _ _ _ O) as (R' & E5 & F).
  rewrite ER in E5. injection E5 as <-. unfold restrict_with_exp.
  erewrite run_bind by (apply run_get_restrictions; exact E4).
  pose proof (get_entries h (fst x) d R F) as G.
  erewrite run_bind with (x := or_else (dict_get string_dec (fst x) R) []).
  2:{ destruct (dict_get string_dec (fst x) d) as [l|].
      - destruct G as (fs & -> & Ht). apply run_get_texts. exact Ht.
      - rewrite G. reflexivity. }
  erewrite run_bind by reflexivity. unfold write. eexists _, _. split; [reflexivity|].
  apply (own_set_entry _ _ _ _ _ _ _ _ _ R O ER).
Qed.
Lemma set_restr_same : forall t R, c_restr t = Some R -> set_restr t R = t.
Proof. intros [cv fs rs rest] R E. cbn in *. subst. reflexivity. Qed.
Lemma set_nth_same : forall (h : heap) a o, nth_error h a = Some o -> set_nth a o h = h.
Proof.
  intros h. induction h as [|o' h IH]; intros [|a] o E; cbn in *; try discriminate; [congruence|]. f_equal. apply IH. exact E.
Qed.
Lemma run_without_exp : forall h a c f r d t x R, own h a c f r d t -> c_restr t = Some R ->
  exists h' d', restrict_without_exp r x h = (h', Ok tt) /\ own h' a c f r d' (set_restr t (without_step R x)).
Proof.
  intros h a c f r d t x R O ER. assert (E4 := ow_restr _ _ _ _ _ _ _ O). destruct (ow_entries _ _ _ _ _ _ _ O) as (R' & E5 & F).
  rewrite ER in E5. injection E5 as <-. unfold restrict_without_exp.
  erewrite run_bind by (apply run_get_restrictions; exact E4).
  pose proof (get_entries h x d R F) as G. unfold without_step. destruct (dict_get string_dec x d) as [l|] eqn:E.
  - destruct G as (fs & E' & Ht). rewrite E'. erewrite run_bind by reflexivity. cbn [or_else]. unfold write.
    exists h, d. split; [rewrite (set_same x l d E), (set_nth_same _ _ _ E4); reflexivity|].
    rewrite (set_same_texts x fs R E'), set_restr_same by exact ER. exact O.
  - rewrite G. cbn [or_else]. erewrite run_bind by reflexivity. unfold write. eexists _, _. split; [reflexivity|].
    apply (own_set_entry _ _ _ _ _ _ _ _ _ R O ER).
Qed.
