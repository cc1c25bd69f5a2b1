(** The contents of the options a model is specified with. *)
From Coq Require Import List Arith Bool String Lia.
From Verif Require Import Base Model_Solve Proof_Base Proof_Solve Model_Session Spec_Session Proof_Session Proof_SessionContents Proof_SessionSteps.
Import ListNotations.
Open Scope list_scope.

Lemma run_convert : forall p h a c f r d t x R, own h a c f r d t -> c_restr t = Some R ->
  exists h', convert_restriction p r x h = (h', Ok tt) /\ own h' a c f r d (set_restr t (convert_step (pa_codes p) R x)).
Proof.
  intros p h a c f r d t x R O ER. assert (E4 := ow_restr _ _ _ _ _ _ _ O). destruct (ow_entries _ _ _ _ _ _ _ O) as (R' & E5 & F).
  rewrite ER in E5. injection E5 as <-. unfold convert_restriction, convert_step.
  erewrite run_bind by (apply run_get_restrictions; exact E4).
  pose proof (get_entries h x d R F) as G. destruct (dict_get string_dec x d) as [l|] eqn:E.
  - destruct G as (fs & E' & Ht). rewrite E'. erewrite run_bind by (apply run_get_texts; exact Ht). unfold write.
    eexists. split; [reflexivity|]. destruct O as [H1 (cv & E2 & H2) (gs & E3 & H3) H4 (R' & E5 & H5) H6].
    pose proof (distinct4 _ _ _ _ _ H6) as (D1 & D2 & D3 & D4 & D5).
    assert (Hl : In l (map snd d)). { apply dict_get_Some_In in E. apply (in_map snd) in E. exact E. }
    assert (Da : a <> l) by (intros ->; intuition). assert (Dc : c <> l) by (intros ->; intuition).
    assert (Df : f <> l) by (intros ->; intuition). assert (Dr : r <> l) by (intros ->; intuition).
    constructor; cbn [set_restr c_cov c_filters c_restr c_rest].
    + rewrite other by exact Da. exact H1.
    + exists cv. split; [exact E2|]. unfold is_formulas. rewrite other by exact Dc. exact H2.
    + exists gs. split; [exact E3|]. unfold is_texts. rewrite other by exact Df. exact H3.
    + rewrite other by exact Dr. exact H4.
    + eexists. split; [reflexivity|]. apply entries_here; assumption.
    + exact H6.
  - rewrite G. exists h. split; [reflexivity|]. rewrite set_restr_same by exact ER. exact O.
Qed.
Lemma set_restr_twice : forall t R R', set_restr (set_restr t R) R' = set_restr t R'.
Proof. reflexivity. Qed.
Lemma run_each : forall A (m : nat -> A -> M unit) step r,
  (forall h a c f d t x R, own h a c f r d t -> c_restr t = Some R ->
     exists h' d', m r x h = (h', Ok tt) /\ own h' a c f r d' (set_restr t (step R x))) ->
  forall l h a c f d t R, own h a c f r d t -> c_restr t = Some R ->
  exists h' d' us, each (m r) l h = (h', Ok us) /\ own h' a c f r d' (set_restr t (fold_left step l R)).
Proof.
  intros A m step r H. induction l as [|x l IH]; intros h a c f d t R O ER; cbn [each fold_left].
  - exists h, d, []. split; [reflexivity|]. rewrite set_restr_same by exact ER. exact O.
  - destruct (H h a c f d t x R O ER) as (h1 & d1 & E1 & O1).
    destruct (IH h1 a c f d1 _ (step R x) O1 eq_refl) as (h2 & d2 & us & E2 & O2). rewrite set_restr_twice in O2.
    exists h2, d2, (tt :: us). split; [|exact O2].
    rewrite (run_bind _ _ _ _ _ _ _ E1), (run_bind _ _ _ _ _ _ _ E2). reflexivity.
Qed.

Definition restricted (p : parsed) (R : list (string * list string)) : list (string * list string) :=
  fold_left (convert_step (pa_codes p)) (map fst (pa_with_exp p) ++ pa_without_exp p)
    (fold_left without_step (pa_without_exp p) (fold_left with_step (pa_with_exp p) R)).
Definition recoded (p : parsed) (d : list (string * string)) : list (string * string) :=
  map (fun nf => (fst nf, pa_codes p (snd nf))) d.
Definition finished (p : parsed) (t : contents) (fs' : list string) : result contents :=
  match c_cov t, c_restr t with
  | Some cov, Some R =>
      Ok (mkContents (Some (recoded p (dict_update string_dec cov (pa_types p)))) (Some fs') (Some (restricted p R)) (c_rest t))
  | _, _ => KeyError
  end.
Definition specified (q : parameters) (user defaults : contents) : result contents :=
  match either (c_cov user) (c_cov defaults) with
  | None => KeyError
  | Some cov =>
      result_bind (q_relevant q cov) (fun rel =>
      result_bind (q_parse q (merged user defaults rel)) (fun p =>
      match c_filters (merged user defaults rel) with
      | None => KeyError
      | Some fs => result_bind (pa_filters p fs) (finished p (merged user defaults rel))
      end))
  end.

Lemma run_add_types : forall p h a c f r d t cov, own h a c f r d t -> c_cov t = Some cov ->
  exists h' c', add_types p a h = (h', Ok tt) /\ own h' a c' f r d (set_cov t (dict_update string_dec cov (pa_types p))).
Proof.
  intros p h a c f r d t cov O E. unfold add_types. destruct (pa_types p) as [|x types].
  - exists h, c. split; [reflexivity|]. replace (set_cov t (dict_update string_dec cov [])) with t; [exact O|].
    destruct t as [cv fs R rest]. cbn in *. subst. reflexivity.
  - destruct (ow_cov _ _ _ _ _ _ _ O) as (cv & E2 & H2). rewrite E in E2. injection E2 as <-.
    erewrite run_bind by (apply run_get_options; exact (ow_options _ _ _ _ _ _ _ O)). cbn [e_cov e_filters e_restr e_rest].
    erewrite run_bind by reflexivity. erewrite run_bind by (apply run_get_formulas; exact H2).
    erewrite run_bind by reflexivity. unfold write. eexists _, _. split; [reflexivity|]. apply (own_new_cov _ _ _ _ _ _ _ _ O).
Qed.
Lemma run_add_default : forall p h a c f r d t R, own h a c f r d t -> c_restr t = Some R ->
  exists h' d', add_default_restrictions p a h = (h', Ok tt) /\
    own h' a c f r d' (set_restr t (fold_left without_step (pa_without_exp p) (fold_left with_step (pa_with_exp p) R))).
Proof.
  intros p h a c f r d t R O ER. unfold add_default_restrictions.
  erewrite run_bind by (apply run_get_options; exact (ow_options _ _ _ _ _ _ _ O)). cbn [e_restr].
  erewrite run_bind by reflexivity.
  destruct (run_each _ restrict_with_exp with_step r (fun h a c f d t x R => run_with_exp h a c f r d t x R) (pa_with_exp p) h a c f d t R O ER)
    as (h1 & d1 & us1 & E1 & O1).
  destruct (run_each _ restrict_without_exp without_step r (fun h a c f d t x R => run_without_exp h a c f r d t x R) (pa_without_exp p) h1 a c f d1 _ _ O1 eq_refl)
    as (h2 & d2 & us2 & E2 & O2).
  exists h2, d2. rewrite (run_bind _ _ _ _ _ _ _ E1), (run_bind _ _ _ _ _ _ _ E2). split; [reflexivity|exact O2].
Qed.
Lemma run_convert_labels : forall p h a c f r d t cov fs R, own h a c f r d t -> c_cov t = Some cov -> c_filters t = Some fs -> c_restr t = Some R ->
  match pa_filters p fs with
  | Ok fs' => exists h' f' d', convert_labels p a h = (h', Ok tt) /\
      own h' a c f' r d' (mkContents (Some (recoded p cov)) (Some fs')
        (Some (fold_left (convert_step (pa_codes p)) (map fst (pa_with_exp p) ++ pa_without_exp p) R)) (c_rest t))
  | e => snd (convert_labels p a h) = result_bind e (fun _ => Ok tt)
  end.
Proof.
  intros p h a c f r d t cov fs R O Ec Ef ER. unfold convert_labels.
  destruct (ow_cov _ _ _ _ _ _ _ O) as (cv & E2 & H2). rewrite Ec in E2. injection E2 as <-.
  erewrite run_bind by (apply run_get_options; exact (ow_options _ _ _ _ _ _ _ O)). cbn [e_cov e_filters e_restr e_rest].
  erewrite run_bind by reflexivity. erewrite run_bind by (apply run_get_formulas; exact H2).
  erewrite run_bind by (unfold write; reflexivity).
  assert (O1 := own_set_cov _ _ _ _ _ _ _ (recoded p cov) O). fold (recoded p cov). set (h1 := set_nth c (Formulas (recoded p cov)) h) in *.
  erewrite run_bind by reflexivity.
  destruct (ow_filters _ _ _ _ _ _ _ O1) as (fs0 & E3 & H3). cbn [set_cov c_filters] in E3. rewrite Ef in E3. injection E3 as <-.
  erewrite run_bind by (apply run_get_texts; exact H3).
  destruct (pa_filters p fs) as [fs'| | | | |] eqn:EF; try reflexivity.
  erewrite run_bind by reflexivity. erewrite run_bind by reflexivity. erewrite run_bind by (unfold write; reflexivity).
  assert (O2 := own_new_filters _ _ _ _ _ _ _ fs' O1). cbn [set_cov c_rest] in O2.
  erewrite run_bind by reflexivity.
  destruct (run_each _ (convert_restriction p) (convert_step (pa_codes p)) r
    (fun h a c f d t x R O E => let '(ex_intro _ h' H) := run_convert p h a c f r d t x R O E in ex_intro _ h' (ex_intro _ d H))
    (map fst (pa_with_exp p) ++ pa_without_exp p) _ _ _ _ _ _ R O2 ER) as (h3 & d3 & us & E3 & O3).
  eexists _, _, _. rewrite (run_bind _ _ _ _ _ _ _ E3). split; [reflexivity|exact O3].
Qed.

Lemma maybe_either : forall A (P : nat -> A -> Prop) x y v w, maybe P x v -> maybe P y w -> maybe P (either x y) (either v w).
Proof. intros A P [a|] [b|] [v|] [w|]; cbn; auto; contradiction. Qed.

Lemma run_merge : forall h D cd u cu, seen h D = Ok cd -> seen h u = Ok cu ->
  forall (k : nat -> M nat), exists h' a, 
  bind (copy_options u) (fun a => bind (get_options D) (fun ed => bind (get_options a) (fun eu => bind (new (Options (merge ed eu))) k))) h = k a h' /\
  is_options h' a (mkContents (either (c_cov cu) (c_cov cd)) (either (c_filters cu) (c_filters cd)) (either (c_restr cu) (c_restr cd))
     (dict_update string_dec (c_rest cd) (c_rest cu))).
Proof.
  intros h D cd u cu SD SU k. apply options_iff in SD, SU.
  destruct (copy_spec h u cu SU) as (h1 & a1 & E1 & X1 & (eu & Eu & U1 & U2 & U3 & U4)).
  destruct SD as (ed & Ed & D1 & D2 & D3 & D4).
  rewrite (run_bind _ _ _ _ _ _ _ E1). erewrite run_bind by (apply run_get_options; apply X1; exact Ed).
  erewrite run_bind by (apply run_get_options; exact Eu). erewrite run_bind by reflexivity.
  eexists _, _. split; [reflexivity|]. eexists. split; [apply last_nth|].
  assert (X2 := extends_app h1 [Options (merge ed eu)]).
  cbn [merge e_cov e_filters e_restr e_rest c_cov c_filters c_restr c_rest].
  split; [|split; [|split]].
  - apply maybe_either; (eapply maybe_extends; [|eassumption]); intros a w H; [|apply X2, X1, H].
    apply X2, H.
  - apply maybe_either; (eapply maybe_extends; [|eassumption]); intros a w H; [|apply X2, X1, H].
    apply X2, H.
  - apply maybe_either; (eapply maybe_extends; [|eassumption]); intros a w H; (eapply is_restr_extends; [|exact H]); [exact X2|].
    eapply extends_trans; eauto.
  - rewrite D4, U4. reflexivity.
Qed.

Lemma run_relevant : forall q h a cov fs R rest, is_options h a (mkContents (Some cov) (Some fs) (Some R) rest) ->
  match q_relevant q cov with
  | Ok rel => exists h' a' c f r d, remove_irrelevant_covariates q a h = (h', Ok a') /\
                own h' a' c f r d (mkContents (Some rel) (Some fs) (Some R) rest)
  | e => snd (remove_irrelevant_covariates q a h) = result_bind e (fun _ => Ok a)
  end.
Proof.
  intros q h a cov fs R rest H. destruct (copy_own _ _ _ _ _ _ H) as (h1 & a1 & c & f & r & d & E1 & O1).
  unfold remove_irrelevant_covariates. rewrite (run_bind _ _ _ _ _ _ _ E1).
  erewrite run_bind by (apply run_get_options; exact (ow_options _ _ _ _ _ _ _ O1)). cbn [e_cov e_filters e_restr e_rest c_rest].
  erewrite run_bind by reflexivity. destruct (ow_cov _ _ _ _ _ _ _ O1) as (cv & E2 & H2). cbn [c_cov] in E2. injection E2 as <-.
  erewrite run_bind by (apply run_get_formulas; exact H2).
  destruct (q_relevant q cov) as [rel| | | | |]; try reflexivity.
  erewrite run_bind by reflexivity. erewrite run_bind by reflexivity. erewrite run_bind by (unfold write; reflexivity).
  eexists _, _, _, _, _, _. split; [reflexivity|]. exact (own_new_cov _ _ _ _ _ _ _ rel O1).
Qed.
Lemma run_relevant_missing : forall q h a t, is_options h a t -> c_cov t = None -> snd (remove_irrelevant_covariates q a h) = KeyError.
Proof.
  intros q h a t H E. destruct (copy_spec _ _ _ H) as (h1 & a1 & E1 & X & (e & Ee & H1 & _)).
  unfold remove_irrelevant_covariates. rewrite (run_bind _ _ _ _ _ _ _ E1).
  erewrite run_bind by (apply run_get_options; exact Ee). rewrite E in H1. destruct (e_cov e); [contradiction|]. reflexivity.
Qed.
Lemma run_see : forall h a t, seen h a = Ok t -> see_options a h = (h, Ok t).
Proof.
  intros h a t E. pose proof (looks_see_options a h) as L. destruct (see_options a h) as [h' r] eqn:E'. unfold seen in E. rewrite E' in E. cbn in *. congruence.
Qed.

Definition good (r : heap * result nat) (s : result contents) : Prop :=
  observed r = s /\ forall a, snd r = Ok a -> exists c, seen (fst r) a = Ok c.

Lemma process_good : forall h D cd u cu q, seen h D = Ok cd -> seen h u = Ok cu -> c_filters cd <> None -> c_restr cd <> None ->
  good (process D q u h) (specified q cu cd).
Proof.
  intros h D cd u cu q SD SU NF NR. unfold process.
  edestruct (run_merge h D cd u cu SD SU) as (h1 & a1 & E1 & I1). rewrite E1. clear E1. cbv beta.
  unfold specified, merged. cbn [c_filters].
  destruct (either (c_cov cu) (c_cov cd)) as [cov|].
  2:{ pose proof (run_relevant_missing q h1 a1 _ I1 eq_refl) as E. unfold bind at 1; destruct (remove_irrelevant_covariates q a1 h1) as [? ?]; cbn [snd] in E; subst; split; [reflexivity|discriminate]. }
  assert (EF : exists fs, either (c_filters cu) (c_filters cd) = Some fs).
  { destruct (c_filters cu) as [x|]; [exists x; reflexivity|]. destruct (c_filters cd) as [x|]; [exists x; reflexivity|contradiction]. }
  assert (ER : exists R, either (c_restr cu) (c_restr cd) = Some R).
  { destruct (c_restr cu) as [x|]; [exists x; reflexivity|]. destruct (c_restr cd) as [x|]; [exists x; reflexivity|contradiction]. }
  destruct EF as [fs EF], ER as [R ER]. rewrite EF, ER in *.
  set (rest := dict_update string_dec (c_rest cd) (c_rest cu)) in *.
  pose proof (run_relevant q _ _ _ _ _ _ I1) as E.
  destruct (q_relevant q cov) as [rel| | | | |]; cbn [result_bind] in *; [|unfold bind at 1; match type of E with snd ?m = _ => destruct m as [? ?] end; cbn [snd] in E; subst; split; [reflexivity|discriminate] ..].
  destruct E as (h2 & a2 & c & f & r & d & E & O2). rewrite (run_bind _ _ _ _ _ _ _ E). clear E.
  erewrite run_bind by (apply run_see; eapply own_seen; exact O2).
  destruct (q_parse q _) as [p| | | | |]; cbn [result_bind]; [|split; [reflexivity|discriminate]..].
  erewrite run_bind by reflexivity.
  destruct (run_add_types p _ _ _ _ _ _ _ rel O2 eq_refl) as (h3 & c3 & E & O3). rewrite (run_bind _ _ _ _ _ _ _ E). clear E.
  destruct (run_add_default p _ _ _ _ _ _ _ R O3 eq_refl) as (h4 & d4 & E & O4). rewrite (run_bind _ _ _ _ _ _ _ E). clear E.
  pose proof (run_convert_labels p _ _ _ _ _ _ _ _ _ _ O4 eq_refl eq_refl eq_refl) as E.
  destruct (pa_filters p fs) as [fs'| | | | |]; cbn [result_bind] in *; [|unfold bind at 1; match type of E with snd ?m = _ => destruct m as [? ?] end; cbn [snd] in E; subst; split; [reflexivity|discriminate] ..].
  destruct E as (h5 & f5 & d5 & E & O5). rewrite (run_bind _ _ _ _ _ _ _ E). clear E.
  unfold ret, good, observed. cbn [fst snd result_bind]. rewrite (own_seen _ _ _ _ _ _ _ O5). split; [reflexivity|].
  intros a [= <-]. eexists. exact (own_seen _ _ _ _ _ _ _ O5).
Qed.

Lemma process_specified : forall h D cd u cu q, seen h D = Ok cd -> seen h u = Ok cu -> c_filters cd <> None -> c_restr cd <> None ->
  observed (process D q u h) = specified q cu cd.
Proof. intros. apply process_good; assumption. Qed.

(** Histories. *)
Lemma firstn_set : forall (h : heap) n a o, n <= a -> firstn n (set_nth a o h) = firstn n h.
Proof.
  induction h as [|x h IH]; intros [|n] [|a] o H; cbn; try reflexivity; try lia. f_equal. apply IH. lia.
Qed.
Lemma firstn_more : forall (h h' : heap) n, firstn (List.length h) h' = h -> n <= List.length h -> firstn n h' = firstn n h.
Proof. intros h h' n E L. transitivity (firstn n (firstn (List.length h) h')); [rewrite firstn_firstn; f_equal; lia|rewrite E; reflexivity]. Qed.
Lemma set_length : forall (h : heap) a o, List.length (set_nth a o h) = List.length h.
Proof. induction h as [|x h IH]; intros [|a] o; cbn; auto. Qed.
Lemma new_keeps : forall D n events h, n <= List.length h -> Forall (new_object n) events -> firstn n (session D events h) = firstn n h.
Proof.
  intros D n. induction events as [|e events IH]; intros h L F; cbn [session fold_left]; [reflexivity|].
  inversion F as [|? ? He F']; subst. destruct He as [(q & u & ->)|(a & o & -> & Ha)]; cbn [run_event].
  - destruct (process_keeps D q u h) as (E & L' & _). unfold session in IH. rewrite IH by (auto; lia). apply firstn_more; assumption.
  - unfold session in IH. rewrite IH by (auto; rewrite set_length; exact L). apply firstn_set. exact Ha.
Qed.
Lemma history : forall h D cd u cu q events, seen h D = Ok cd -> seen h u = Ok cu -> c_filters cd <> None -> c_restr cd <> None ->
  Forall (new_object (List.length h)) events -> observed (process D q u (session D events h)) = observed (process D q u h).
Proof.
  intros h D cd u cu q events SD SU NF NR F.
  assert (X : extends h (session D events h)).
  { intros a o E. apply (same_firstn 0 h (session D events h) (eq_trans (new_keeps D _ events h (le_n _) F) (firstn_all h)) a o (Nat.le_0_l a) E). }
  rewrite (process_specified h D cd u cu q SD SU NF NR).
  apply process_specified; auto; eapply seen_extends; eauto.
Qed.

(** Restrictions. *)
Lemma get_with_other : forall l R x, ~ In x (map fst l) -> dict_get string_dec x (fold_left with_step l R) = dict_get string_dec x R.
Proof.
  induction l as [|[y g] l IH]; intros R x N; cbn in *; [reflexivity|]. rewrite IH by intuition. unfold with_step. cbn [fst snd].
  apply dict_get_set_other. intuition.
Qed.
Lemma get_with : forall l R x g, NoDup (map fst l) -> In (x, g) l ->
  dict_get string_dec x (fold_left with_step l R) = Some (or_else (dict_get string_dec x R) [] ++ [g]).
Proof.
  induction l as [|[y g'] l IH]; intros R x g N H; cbn in *; [contradiction|]. inversion N as [|? ? Ny N']; subst.
  destruct H as [[= -> ->]|H].
  - rewrite get_with_other by exact Ny. unfold with_step. cbn [fst snd]. apply dict_get_set_same.
  - rewrite (IH _ _ _ N' H). unfold with_step. cbn [fst snd]. rewrite dict_get_set_other; [reflexivity|].
    intros ->. apply Ny. apply (in_map fst) in H. exact H.
Qed.
Lemma get_without_other : forall l R x, ~ In x l -> dict_get string_dec x (fold_left without_step l R) = dict_get string_dec x R.
Proof.
  induction l as [|y l IH]; intros R x N; cbn in *; [reflexivity|]. rewrite IH by intuition. unfold without_step.
  apply dict_get_set_other. intuition.
Qed.
Lemma get_without : forall l R x, NoDup l -> In x l ->
  dict_get string_dec x (fold_left without_step l R) = Some (or_else (dict_get string_dec x R) ["False"%string]).
Proof.
  induction l as [|y l IH]; intros R x N H; cbn in *; [contradiction|]. inversion N as [|? ? Ny N']; subst.
  destruct H as [->|H].
  - rewrite get_without_other by exact Ny. unfold without_step. apply dict_get_set_same.
  - rewrite (IH _ _ N' H). unfold without_step. rewrite dict_get_set_other; [reflexivity|]. intros ->. contradiction.
Qed.
Lemma get_convert_other : forall codes l R x, ~ In x l -> dict_get string_dec x (fold_left (convert_step codes) l R) = dict_get string_dec x R.
Proof.
  intros codes. induction l as [|y l IH]; intros R x N; cbn in *; [reflexivity|]. rewrite IH by intuition. unfold convert_step.
  destruct (dict_get string_dec y R); [|reflexivity]. apply dict_get_set_other. intuition.
Qed.
Lemma get_convert : forall codes l R x fs, NoDup l -> In x l -> dict_get string_dec x R = Some fs ->
  dict_get string_dec x (fold_left (convert_step codes) l R) = Some (map codes fs).
Proof.
  intros codes. induction l as [|y l IH]; intros R x fs N H E; cbn in *; [contradiction|]. inversion N as [|? ? Ny N']; subst.
  destruct H as [->|H].
  - rewrite get_convert_other by exact Ny. unfold convert_step. rewrite E. apply dict_get_set_same.
  - rewrite (IH _ _ fs N' H); [reflexivity|]. unfold convert_step. destruct (dict_get string_dec y R); [|exact E].
    rewrite dict_get_set_other; [exact E|]. intros ->. contradiction.
Qed.

Lemma NoDup_app_parts : forall A (l l' : list A), NoDup (l ++ l') -> NoDup l /\ NoDup l' /\ (forall x, In x l -> ~ In x l').
Proof.
  induction l as [|y l IH]; intros l' N; cbn in *; [repeat split; [constructor|exact N|tauto]|].
  inversion N as [|? ? Ny N']; subst. destruct (IH _ N') as (H1 & H2 & H3). repeat split; auto.
  - constructor; [|exact H1]. intros K. apply Ny. apply in_or_app. auto.
  - intros x [<-|Hx]; [|auto]. intros K. apply Ny. apply in_or_app. auto.
Qed.

Lemma restricted_spec : forall p R, NoDup (map fst (pa_with_exp p) ++ pa_without_exp p) ->
  (forall x g, In (x, g) (pa_with_exp p) ->
     dict_get string_dec x (restricted p R) = Some (map (pa_codes p) (or_else (dict_get string_dec x R) [] ++ [g]))) /\
  (forall x, In x (pa_without_exp p) ->
     dict_get string_dec x (restricted p R) = Some (map (pa_codes p) (or_else (dict_get string_dec x R) ["False"%string]))) /\
  (forall x, ~ In x (map fst (pa_with_exp p) ++ pa_without_exp p) ->
     dict_get string_dec x (restricted p R) = dict_get string_dec x R).
Proof.
  intros p R N. destruct (NoDup_app_parts _ _ _ N) as (N1 & N2 & N3). unfold restricted. repeat split.
  - intros x g H. assert (Hx : In x (map fst (pa_with_exp p))) by (apply (in_map fst) in H; exact H).
    apply get_convert; [exact N|apply in_or_app; auto|]. rewrite get_without_other by (apply N3; exact Hx). apply get_with; assumption.
  - intros x H. apply get_convert; [exact N|apply in_or_app; auto|]. rewrite get_without by assumption.
    rewrite get_with_other; [reflexivity|]. intros K. apply (N3 x); assumption.
  - intros x H. rewrite get_convert_other by exact H. rewrite in_app_iff in H.
    rewrite get_without_other by intuition. apply get_with_other. intuition.
Qed.

Lemma processed : forall h D cd u cu q h' a, seen h D = Ok cd -> seen h u = Ok cu -> c_filters cd <> None -> c_restr cd <> None ->
  process D q u h = (h', Ok a) ->
  exists cov rel p fs fs' c,
    either (c_cov cu) (c_cov cd) = Some cov /\ q_relevant q cov = Ok rel /\ q_parse q (merged cu cd rel) = Ok p /\
    either (c_filters cu) (c_filters cd) = Some fs /\ pa_filters p fs = Ok fs' /\ seen h' a = Ok c /\
    c_cov c = Some (map (fun nf => (fst nf, pa_codes p (snd nf))) (dict_update string_dec rel (pa_types p))) /\
    c_filters c = Some fs' /\ c_rest c = dict_update string_dec (c_rest cd) (c_rest cu) /\
    exists R, c_restr c = Some R /\
    (NoDup (map fst (pa_with_exp p) ++ pa_without_exp p) ->
     (forall x g, In (x, g) (pa_with_exp p) ->
        dict_get string_dec x R = Some (map (pa_codes p) (or_else (given cu cd x) [] ++ [g]))) /\
     (forall x, In x (pa_without_exp p) ->
        dict_get string_dec x R = Some (map (pa_codes p) (or_else (given cu cd x) ["False"%string]))) /\
     (forall x, ~ In x (map fst (pa_with_exp p) ++ pa_without_exp p) -> dict_get string_dec x R = given cu cd x)).
Proof.
  intros h D cd u cu q h' a SD SU NF NR E.
  destruct (process_good h D cd u cu q SD SU NF NR) as [K S]. rewrite E in K, S. cbn [fst snd] in S. destruct (S a eq_refl) as [c Sc].
  unfold observed in K. cbn [fst snd result_bind] in K. rewrite Sc in K. symmetry in K. unfold specified in K.
  destruct (either (c_cov cu) (c_cov cd)) as [cov|]; [|discriminate].
  destruct (q_relevant q cov) as [rel| | | | |] eqn:Er; cbn [result_bind] in K; try discriminate.
  destruct (q_parse q (merged cu cd rel)) as [p| | | | |] eqn:Ep; cbn [result_bind] in K; try discriminate.
  cbn [merged c_filters] in K. destruct (either (c_filters cu) (c_filters cd)) as [fs|]; [|discriminate].
  destruct (pa_filters p fs) as [fs'| | | | |] eqn:Ef; cbn [result_bind] in K; try discriminate.
  unfold finished in K. cbn [merged c_cov c_restr c_rest] in K.
  destruct (either (c_restr cu) (c_restr cd)) as [R|] eqn:ER; [|discriminate]. injection K as <-.
  exists cov, rel, p, fs, fs', (mkContents (Some (recoded p (dict_update string_dec rel (pa_types p)))) (Some fs') (Some (restricted p R))
     (dict_update string_dec (c_rest cd) (c_rest cu))).
  cbn [c_cov c_filters c_restr c_rest]. repeat (split; [first [reflexivity|assumption]|]).
  exists (restricted p R). split; [reflexivity|]. intros N.
  assert (G : forall x, given cu cd x = dict_get string_dec x R).
  { intros x. unfold given. destruct (c_restr cu) as [r1|]; cbn [either] in ER; [injection ER as ->; reflexivity|].
    rewrite ER. reflexivity. }
  destruct (restricted_spec p R N) as (R1 & R2 & R3). repeat split; intros; rewrite ?G; auto.
Qed.
