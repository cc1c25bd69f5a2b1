(** Proofs about the columns and the index of data. *)
From Coq Require Import String List Arith Bool.
From Verif Require Import Base Proof_Base Model_Strings Model_Cache Model_Choices Model_UserData Spec_UserData.
Import ListNotations.
Open Scope list_scope.
Open Scope string_scope.

Definition pick {A} (f : user_frame A) (n : string) : result (list A) :=
  match column_of f n with Some v => Ok v | None => KeyError end.

Lemma select_all : forall A (f : user_frame A) names v, (forall n, In n names -> column_of f n = Some (v n)) ->
  select_columns names f = Ok (map v names).
Proof.
  intros A f names v. unfold select_columns. induction names as [|n names IH]; intros H; [reflexivity|].
  cbn. rewrite (H n (or_introl eq_refl)). cbn. rewrite IH by (intros m I; apply H; right; exact I). reflexivity.
Qed.

Lemma select_missing : forall A (f : user_frame A) names n, In n names -> column_of f n = None -> select_columns names f = KeyError.
Proof.
  intros A f names n. unfold select_columns. induction names as [|m names IH]; intros I E; [destruct I|].
  cbn. destruct I as [->|I].
  - rewrite E. reflexivity.
  - destruct (column_of f m); [|reflexivity]. cbn. rewrite (IH I E). reflexivity.
Qed.

Lemma select_same : forall A (f g : user_frame A) names, (forall n, In n names -> column_of f n = column_of g n) ->
  select_columns names f = select_columns names g.
Proof.
  intros A f g names H. unfold select_columns. f_equal. apply map_ext_in. intros n I. rewrite (H n I). reflexivity.
Qed.

Lemma column_add : forall A (l : string * list A) (c : list (string * list A)) n,
  column_of (mkUser [] (l :: c)) n = if string_dec n (fst l) then Some (snd l) else column_of (mkUser [] c) n.
Proof. intros A [k v] c n. reflexivity. Qed.

Section Indexed.
  Variables (A : Type) (f : user_frame A) (ids periods : list A).
  Hypothesis IX : indexed f ids periods.

  Lemma columns_only : forall n, column_of (mkUser [] (uf_columns f)) n = column_of f n.
  Proof. reflexivity. Qed.

  Lemma reset_indexed : exists g, reset_index f = Ok g /\ column_of g "Identifier" = Some ids /\
    column_of g "Period" = Some periods /\
    forall n, n <> "Identifier" -> n <> "Period" -> column_of g n = column_of f n.
  Proof.
    destruct IX as [L N1 N2].
    assert (D : forall n a b x y, n <> a -> n <> b -> column_of (mkUser [] ((a, x) :: (b, y) :: uf_columns f)) n = column_of f n).
    { intros n a b x y Ha Hb. rewrite !column_add. cbn [fst snd].
      destruct (string_dec n a); [contradiction|]. destruct (string_dec n b); [contradiction|]. reflexivity. }
    unfold reset_index.
    destruct L as [L|L]; rewrite L; cbn -[column_of]; unfold column_of in *; cbn [uf_columns].
    - rewrite N2. cbn -[string_dec]. destruct (string_dec "Identifier" "Period") as [X|_]; [discriminate|]. rewrite N1.
      eexists. split; [reflexivity|]. split; [reflexivity|]. split; [reflexivity|]. intros n H1 H2. apply D; assumption.
    - rewrite N1. cbn -[string_dec]. destruct (string_dec "Period" "Identifier") as [X|_]; [discriminate|]. rewrite N2.
      eexists. split; [reflexivity|]. split; [reflexivity|]. split; [reflexivity|]. intros n H1 H2. apply D; assumption.
  Qed.

  Lemma query_indexed : query_period f = Ok tt.
  Proof. unfold query_period. destruct IX as [[L|L] _ _]; unfold level_of; rewrite L; destruct (column_of f "Period"); reflexivity. Qed.

  Lemma levels_indexed : internal_level "period" f = Ok periods /\ internal_level "identifier" f = Ok ids.
  Proof.
    unfold internal_level, internal_levels. destruct IX as [[L|L] _ _]; rewrite L; cbn [map option_map fst snd find_level].
    - replace (rename_labels_to_internal "Identifier") with "identifier" by reflexivity.
      replace (rename_labels_to_internal "Period") with "period" by reflexivity. split; reflexivity.
    - replace (rename_labels_to_internal "Identifier") with "identifier" by reflexivity.
      replace (rename_labels_to_internal "Period") with "period" by reflexivity. split; reflexivity.
  Qed.
End Indexed.

Lemma experience_needed : forall exps n_lags obs c, In c exps -> In ("Experience_" ++ title c)%string (data_columns exps n_lags obs).
Proof.
  intros exps n_lags obs c I. unfold data_columns. apply in_or_app. right. apply in_or_app. left.
  apply in_map_iff. exists c. split; [reflexivity|exact I].
Qed.

Lemma initial_ok : forall A (f : user_frame A) exps, query_period f = Ok tt ->
  (forall c, In c exps -> column_of f ("Experience_" ++ title c)%string <> None) -> initial_levels exps f = Ok tt.
Proof.
  intros A f exps Q H. unfold initial_levels. rewrite Q. induction exps as [|c exps IH]; [reflexivity|].
  cbn [map result_all]. cbn [result_bind]. pose proof (H c (or_introl eq_refl)) as Hc.
  unfold select_columns at 1. cbn [map result_all].
  destruct (column_of f ("Experience_" ++ title c)%string); [|contradiction]. cbn [result_bind].
  specialize (IH (fun d I => H d (or_intror I))).
  cbn [result_bind] in *. match type of IH with context [result_all ?x] => destruct (result_all x) end; cbn [result_bind] in *; congruence.
Qed.

Lemma initial_missing : forall A (f : user_frame A) exps, query_period f = Ok tt ->
  (forall c, In c exps -> column_of f ("Experience_" ++ title c)%string <> None) \/ initial_levels exps f = KeyError.
Proof.
  intros A f exps Q. unfold initial_levels. rewrite Q. induction exps as [|c exps IH]; [left; intros c []|].
  cbn [map result_all]. cbn [result_bind]. unfold select_columns at 1. cbn [map result_all].
  destruct (column_of f ("Experience_" ++ title c)%string) eqn:E; [|right; reflexivity]. cbn [result_bind].
  destruct IH as [IH|IH].
  - left. intros d [<-|I]; [congruence|exact (IH d I)].
  - right. cbn [result_bind] in *. match type of IH with context [result_all ?x] => destruct (result_all x) end; cbn [result_bind] in *; congruence.
Qed.

Section Use.
  Variables (A B C : Type) (check : list (list A) -> result unit) (process : list A -> list (list A) -> result B)
    (value : B -> list A -> result C) (exps : list string) (n_lags : nat) (obs : list string).
  Let cols := data_columns exps n_lags obs.

  Theorem indexed_data : forall f ids periods v, indexed f ids periods ->
    (forall n, In n cols -> column_of f n = Some (v n)) ->
    evaluate_criterion check process value exps n_lags obs f =
      result_bind (check (ids :: periods :: map v cols)) (fun _ =>
      result_bind (process periods (map v cols)) (fun b => value b ids)).
  Proof.
    intros f ids periods v IX H. unfold evaluate_criterion, create_criterion. fold cols.
    rewrite (initial_ok A f exps (query_indexed _ _ _ _ IX)).
    2:{ intros c I. rewrite (H _ (experience_needed exps n_lags obs c I)). discriminate. }
    cbn [result_bind]. destruct (reset_indexed _ _ _ _ IX) as [g [R [G1 [G2 G3]]]]. rewrite R. cbn [result_bind].
    assert (S : select_columns ("Identifier" :: "Period" :: cols) g = Ok (ids :: periods :: map v cols)).
    { unfold select_columns. cbn [map result_all]. rewrite G1, G2. cbn [result_bind].
      fold (select_columns cols g). rewrite (select_all _ _ _ v).
      - reflexivity.
      - intros n I. rewrite G3; [exact (H n I)| |]; intros ->; pose proof (H _ I) as HH; destruct IX; congruence. }
    rewrite S. cbn [result_bind]. destruct (levels_indexed _ _ _ _ IX) as [L1 L2].
    rewrite (select_all _ _ _ v H), L1, L2. destruct (check _); reflexivity.
  Qed.

  Theorem missing_column : forall f ids periods n, indexed f ids periods -> In n cols ->
    n <> "Identifier" -> n <> "Period" -> column_of f n = None ->
    create_criterion check process exps n_lags obs f = KeyError.
  Proof.
    intros f ids periods n IX I D1 D2 E. unfold create_criterion. fold cols.
    destruct (initial_missing A f exps (query_indexed _ _ _ _ IX)) as [H|H]; [|rewrite H; reflexivity].
    rewrite (initial_ok A f exps (query_indexed _ _ _ _ IX) H). cbn [result_bind].
    destruct (reset_indexed _ _ _ _ IX) as [g [R [G1 [G2 G3]]]]. rewrite R. cbn [result_bind].
    rewrite (select_missing _ g _ n); [reflexivity|right; right; exact I|]. rewrite G3 by assumption. exact E.
  Qed.

  Theorem other_columns : forall f g ids periods, indexed f ids periods -> indexed g ids periods ->
    ~ In "Identifier" cols -> ~ In "Period" cols ->
    (forall n, In n cols -> column_of f n = column_of g n) ->
    evaluate_criterion check process value exps n_lags obs f = evaluate_criterion check process value exps n_lags obs g.
  Proof.
    intros f g ids periods IF IG N1 N2 H.
    assert (FD : Forall (fun n => column_of f n <> None) cols \/ ~ Forall (fun n => column_of f n <> None) cols).
    { destruct (Forall_dec (fun n => column_of f n <> None)) with (l := cols) as [X|X]; [|left; exact X|right; exact X].
      intros n. destruct (column_of f n); [left; discriminate|right; congruence]. }
    destruct FD as [F|F].
    - rewrite Forall_forall in F. set (v := fun n => match column_of f n with Some x => x | None => [] end).
      assert (V : forall n, In n cols -> column_of f n = Some (v n)).
      { intros n I. specialize (F n I). unfold v. destruct (column_of f n); [reflexivity|contradiction]. }
      rewrite (indexed_data f ids periods v IF V), (indexed_data g ids periods v IG); [reflexivity|].
      intros n I. rewrite <- (H n I). exact (V n I).
    - assert (X : exists n, In n cols /\ column_of f n = None).
      { clear - F. induction cols as [|n l IH]; [exfalso; apply F; constructor|].
        destruct (column_of f n) eqn:E; [|exists n; split; [left; reflexivity|exact E]].
        destruct IH as [m [I M]]; [intros Z; apply F; constructor; [congruence|exact Z]|]. exists m. split; [right; exact I|exact M]. }
      destruct X as [n [I E]]. unfold evaluate_criterion.
      rewrite (missing_column f ids periods n IF I); [|intros ->; contradiction|intros ->; contradiction|exact E].
      rewrite (missing_column g ids periods n IG I); [reflexivity|intros ->; contradiction|intros ->; contradiction|rewrite <- (H n I); exact E].
  Qed.

  (** Without periods in the index no criterion is created. *)
  Theorem period_needed : forall f b, create_criterion check process exps n_lags obs f = Ok b ->
    exists name periods, In (Some name, periods) (uf_levels f) /\ rename_labels_to_internal name = "period".
  Proof.
    intros f b. unfold create_criterion. fold cols. destruct (initial_levels exps f); cbn [result_bind]; try discriminate.
    destruct (reset_index f); cbn [result_bind]; try discriminate.
    destruct (select_columns _ a0); cbn [result_bind]; try discriminate. destruct (check a1); cbn [result_bind]; try discriminate.
    destruct (select_columns cols f); cbn [result_bind]; try discriminate.
    unfold internal_level, internal_levels. generalize (uf_levels f) as l. intros l H.
    induction l as [|[[n|] v] l IH]; cbn [map option_map fst snd find_level] in H; [discriminate| |].
    - destruct (string_dec "period" (rename_labels_to_internal n)) as [E|E].
      + exists n, v. split; [left; reflexivity|symmetry; exact E].
      + destruct (IH H) as [m [p [I M]]]. exists m, p. split; [right; exact I|exact M].
    - destruct (IH H) as [m [p [I M]]]. exists m, p. split; [right; exact I|exact M].
  Qed.

  Section NotIndexed.
    Variables (f : user_frame A) (ids periods : list A) (v : string -> list A).
    Hypothesis NI : not_indexed f ids periods.
    Hypothesis H : forall n, In n cols -> column_of f n = Some (v n).

    (** The data pass the check, then an error is raised. *)
    Theorem columns_instead_of_index :
      create_criterion check process exps n_lags obs f = result_bind (check (ids :: periods :: map v cols)) (fun _ => KeyError).
    Proof.
      destruct NI as [[nr L] E1 E2 E3]. unfold create_criterion. fold cols.
      rewrite (initial_ok A f exps).
      2:{ unfold query_period. rewrite E2. reflexivity. }
      2:{ intros c I. rewrite (H _ (experience_needed exps n_lags obs c I)). discriminate. }
      cbn [result_bind].
      assert (R : reset_index f = Ok (mkUser [] (("index", nr) :: uf_columns f))).
      { unfold reset_index. rewrite L. cbn -[column_of]. rewrite E3. unfold column_of in *. cbn [uf_columns]. rewrite E3. reflexivity. }
      rewrite R. cbn [result_bind].
      assert (G : forall n x, column_of f n = Some x -> column_of (mkUser [] (("index", nr) :: uf_columns f)) n = Some x).
      { intros n x Hn. rewrite column_add. cbn [fst snd]. destruct (string_dec n "index"); [subst; congruence|exact Hn]. }
      assert (S : select_columns ("Identifier" :: "Period" :: cols) (mkUser [] (("index", nr) :: uf_columns f)) = Ok (ids :: periods :: map v cols)).
      { unfold select_columns. cbn [map result_all]. rewrite (G _ _ E1), (G _ _ E2). cbn [result_bind].
        fold (select_columns cols (mkUser [] (("index", nr) :: uf_columns f))). rewrite (select_all _ _ _ v).
        - reflexivity.
        - intros n I. apply G. exact (H n I). }
      rewrite S. cbn [result_bind]. rewrite (select_all _ _ _ v H).
      assert (P : internal_level "period" f = KeyError) by (unfold internal_level, internal_levels; rewrite L; reflexivity).
      rewrite P. destruct (check _); reflexivity.
    Qed.

    Lemma set_index_column : forall n, n <> "Identifier" -> n <> "Period" -> column_of (set_index ids periods f) n = column_of f n.
    Proof.
      intros n N1 N2. unfold column_of, set_index. cbn [uf_columns]. generalize (uf_columns f) as l. intros l.
      induction l as [|[m x] l IH]; [reflexivity|]. cbn [filter fst dict_get].
      destruct (String.eqb_spec m "Identifier") as [->|M1]; cbn [negb andb].
      - destruct (string_dec n "Identifier"); [contradiction|exact IH].
      - destruct (String.eqb_spec m "Period") as [->|M2]; cbn [negb].
        + destruct (string_dec n "Period"); [contradiction|exact IH].
        + cbn [dict_get]. destruct (string_dec n m); [reflexivity|exact IH].
    Qed.

    Lemma set_index_indexed : indexed (set_index ids periods f) ids periods.
    Proof.
      constructor; [left; reflexivity| |]; unfold column_of, set_index; cbn [uf_columns]; generalize (uf_columns f) as l; intros l;
        induction l as [|[m x] l IH]; try reflexivity; cbn [filter fst];
        destruct (String.eqb_spec m "Identifier") as [->|M1]; cbn [negb andb]; try exact IH;
        destruct (String.eqb_spec m "Period") as [->|M2]; cbn [negb]; try exact IH; cbn [dict_get].
      - destruct (string_dec "Identifier" m); [congruence|exact IH].
      - destruct (string_dec "Period" m); [congruence|exact IH].
    Qed.

    Theorem with_the_index : ~ In "Identifier" cols -> ~ In "Period" cols ->
      evaluate_criterion check process value exps n_lags obs (set_index ids periods f) =
        result_bind (check (ids :: periods :: map v cols)) (fun _ =>
        result_bind (process periods (map v cols)) (fun b => value b ids)).
    Proof.
      intros N1 N2. apply indexed_data; [exact set_index_indexed|].
      intros n I. rewrite set_index_column; [exact (H n I)|intros ->; contradiction|intros ->; contradiction].
    Qed.
  End NotIndexed.

  (** With periods in the index but identifiers in a column, the criterion is created but cannot
      be evaluated. *)
  Theorem identifier_needed : forall f ids periods v, uf_levels f = [(Some "Period", periods)] ->
    column_of f "Identifier" = Some ids -> column_of f "Period" = None ->
    (forall n, In n cols -> column_of f n = Some (v n)) ->
    create_criterion check process exps n_lags obs f =
      result_bind (check (ids :: periods :: map v cols)) (fun _ => process periods (map v cols)) /\
    evaluate_criterion check process value exps n_lags obs f =
      result_bind (create_criterion check process exps n_lags obs f) (fun _ => KeyError).
  Proof.
    intros f ids periods v L E1 E2 H.
    assert (C0 : create_criterion check process exps n_lags obs f =
      result_bind (check (ids :: periods :: map v cols)) (fun _ => process periods (map v cols))).
    { unfold create_criterion. fold cols. rewrite (initial_ok A f exps).
      2:{ unfold query_period, level_of. rewrite E2, L. reflexivity. }
      2:{ intros c I. rewrite (H _ (experience_needed exps n_lags obs c I)). discriminate. }
      cbn [result_bind].
      assert (R : reset_index f = Ok (mkUser [] (("Period", periods) :: uf_columns f))).
      { unfold reset_index. rewrite L. cbn -[column_of]. unfold column_of in *. cbn [uf_columns]. rewrite E2. reflexivity. }
      rewrite R. cbn [result_bind].
      assert (G : forall n x, column_of f n = Some x -> column_of (mkUser [] (("Period", periods) :: uf_columns f)) n = Some x).
      { intros n x Hn. rewrite column_add. cbn [fst snd]. destruct (string_dec n "Period"); [subst; congruence|exact Hn]. }
      assert (S : select_columns ("Identifier" :: "Period" :: cols) (mkUser [] (("Period", periods) :: uf_columns f)) = Ok (ids :: periods :: map v cols)).
      { unfold select_columns. cbn [map result_all]. rewrite (G _ _ E1).
        assert (GP : column_of (mkUser [] (("Period", periods) :: uf_columns f)) "Period" = Some periods) by reflexivity.
        rewrite GP. cbn [result_bind].
        fold (select_columns cols (mkUser [] (("Period", periods) :: uf_columns f))). rewrite (select_all _ _ _ v).
        - reflexivity.
        - intros n I. apply G. exact (H n I). }
      rewrite S. cbn [result_bind]. rewrite (select_all _ _ _ v H).
      assert (P : internal_level "period" f = Ok periods) by (unfold internal_level, internal_levels; rewrite L; reflexivity).
      rewrite P. destruct (check _); reflexivity. }
    split; [exact C0|]. unfold evaluate_criterion.
    assert (P : internal_level "identifier" f = KeyError) by (unfold internal_level, internal_levels; rewrite L; reflexivity).
    rewrite P. reflexivity.
  Qed.

  (** Identifiers both in the index and in a column. *)
  Theorem twice : forall f ids periods x v, uf_levels f = [(Some "Identifier", ids); (Some "Period", periods)] ->
    column_of f "Identifier" = Some x -> (forall n, In n cols -> column_of f n = Some (v n)) ->
    create_criterion check process exps n_lags obs f = ValueError.
  Proof.
    intros f ids periods x v L E H. unfold create_criterion. fold cols. rewrite (initial_ok A f exps).
    2:{ unfold query_period, level_of. rewrite L. destruct (column_of f "Period"); reflexivity. }
    2:{ intros c I. rewrite (H _ (experience_needed exps n_lags obs c I)). discriminate. }
    cbn [result_bind].
    assert (R : reset_index f = ValueError).
    { unfold reset_index. rewrite L. cbn -[column_of]. unfold column_of in *. cbn [uf_columns].
      destruct (dict_get string_dec "Period" (uf_columns f)); [reflexivity|]. cbn -[string_dec].
      destruct (string_dec "Identifier" "Period"); [discriminate|]. rewrite E. reflexivity. }
    rewrite R. reflexivity.
  Qed.
End Use.

Lemma no_periods : forall A B check process exps n_lags obs (f : user_frame A), exps <> [] ->
  column_of f "Period" = None -> (forall v, ~ In (Some "Period", v) (uf_levels f)) ->
  @create_criterion A B check process exps n_lags obs f = NameError.
Proof.
  intros A B check process [|e exps] n_lags obs f NE C L; [congruence|].
  assert (Lv : level_of f "Period" = None).
  { unfold level_of. induction (uf_levels f) as [|[[n|] v] l IH]; [reflexivity| |].
    - cbn [find_level]. destruct (string_dec "Period" n) as [<-|]; [exfalso; apply (L v); left; reflexivity|].
      apply IH. intros w I. apply (L w). right. exact I.
    - cbn [find_level]. apply IH. intros w I. apply (L w). right. exact I. }
  unfold create_criterion, initial_levels, query_period. rewrite C, Lv. reflexivity.
Qed.
