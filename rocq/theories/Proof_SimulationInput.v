(** Proofs about the data of simulations. *)
From Coq Require Import String List Arith Bool Lia.
From Verif Require Import Base Proof_Base Proof_StateSpace Proof_CoreStateSpace Model_Strings Model_Cache Model_Choices Proof_Labels Model_Parallel Model_SimulationInput Spec_SimulationInput.
Import ListNotations.
Open Scope list_scope.
Open Scope string_scope.

(** ** With the value in a row as a function *)
(** The value of a variable in a row of the data, if there is one. *)
Definition given (d : sim_data) (name : string) (i : index) : option level :=
  match dict_get string_dec name (internal_columns (sd_columns d)) with
  | Some col => value_in_row (sd_index d) col i
  | None => None
  end.
(** In the rows [rows], every column with labels has a valid value. *)
Definition labels_complete0 (nm : names) (rows : list index) (d : sim_data) : Prop :=
  forall name levels i, In (name, levels) (labelled_columns nm) -> present d name -> In i rows ->
    exists v, given d name i = Some v /\ can_be_coded levels v.

(** The processed0 columns: all state variables; labels are replaced by their codes, other
    values are kept, and what is missing in the data is missing. *)
Record processed0 (nm : names) (rows : list index) (d : sim_data) (out : columns) : Prop := {
  pr_names0 : map fst out = state_columns nm;
  pr_rows0 : forall name col, In (name, col) out -> List.length col = List.length rows;
  pr_labels0 : forall name levels col k i, In (name, col) out -> In (name, levels) (labelled_columns nm) -> nth_error rows k = Some i ->
    match given d name i with
    | Some v => exists c, label_to_code levels v = Ok c /\ nth_error col k = Some (Some (Number c))
    | None => nth_error col k = Some None
    end;
  pr_others0 : forall name col k i, In (name, col) out -> ~ In name (map fst (labelled_columns nm)) -> nth_error rows k = Some i ->
    nth_error col k = Some (given d name i) }.

Lemma code_cases : forall levels v, (exists c, label_to_code levels v = Ok c /\ can_be_coded levels v) \/
  (label_to_code levels v = ValueError /\ ~ can_be_coded levels v).
Proof.
  intros levels v. unfold label_to_code. destruct (dict_get level_eq_dec v _) as [i|] eqn:G.
  - left. exists (i mod 256). split; [reflexivity|]. left.
    assert (I : In v (dict_keys (dict_of_pairs level_eq_dec (map (fun p => (snd p, fst p)) (enumerate levels))))).
    { destruct (in_dec level_eq_dec v (dict_keys (dict_of_pairs level_eq_dec (map (fun p => (snd p, fst p)) (enumerate levels))))) as [I|I]; [exact I|].
      apply dict_get_None with (eqd := level_eq_dec) in I. congruence. }
    unfold dict_of_pairs in I. apply In_keys_update in I. destruct I as [[]|I].
    unfold dict_keys in I. rewrite map_map in I. apply in_map_iff in I. destruct I as [[j l] [<- I]].
    apply In_enumerate in I. eapply nth_error_In; exact I.
  - destruct v as [s|n].
    + right. split; [reflexivity|]. intros [I|[n E]]; [|discriminate].
      apply dict_get_None in G. apply G. unfold dict_of_pairs. apply In_keys_update. right.
      unfold dict_keys. rewrite map_map. change (In (Label s) (map snd (enumerate levels))). rewrite map_snd_enumerate. exact I.
    + left. exists (n mod 256). split; [reflexivity|]. right. eauto.
Qed.

Lemma all_cases : forall A B (f : A -> result B) l, (forall x, In x l -> (exists y, f x = Ok y) \/ f x = ValueError) ->
  (exists ys, result_all (map f l) = Ok ys) \/ (result_all (map f l) = ValueError /\ exists x, In x l /\ f x = ValueError).
Proof.
  intros A B f l. induction l as [|x l IH]; intros H; [left; exists []; reflexivity|].
  cbn [map result_all]. destruct (H x (or_introl eq_refl)) as [[y E]|E]; rewrite E; cbn [result_bind].
  - destruct IH as [[ys Y]|[Y [z [I Z]]]]; [intros z I; apply H; right; exact I| |].
    + rewrite Y. left. eexists. reflexivity.
    + rewrite Y. right. split; [reflexivity|]. exists z. split; [right; exact I|exact Z].
  - right. split; [reflexivity|]. exists x. split; [left; reflexivity|exact E].
Qed.

Lemma code_value_cases : forall levels v, (exists y, code_value levels v = Ok y) \/ code_value levels v = ValueError.
Proof.
  intros levels [v|]; [|right; reflexivity]. unfold code_value.
  destruct (code_cases levels v) as [[c [E _]]|[E _]]; rewrite E; [left; eexists; reflexivity|right; reflexivity].
Qed.

Lemma convert_columns_spec : forall l cols, NoDup (map fst l) ->
  (exists cols', convert_columns l cols = Ok cols' /\
     (forall n levels, In (n, levels) l -> match dict_get string_dec n cols with
        | Some col => exists c, result_all (map (code_value levels) col) = Ok c /\ dict_get string_dec n cols' = Some c
        | None => dict_get string_dec n cols' = None end) /\
     forall n, ~ In n (map fst l) -> dict_get string_dec n cols' = dict_get string_dec n cols) \/
  (convert_columns l cols = ValueError /\
     exists n levels col v, In (n, levels) l /\ dict_get string_dec n cols = Some col /\ In v col /\ code_value levels v = ValueError).
Proof.
  induction l as [|[n levels] l IH]; intros cols N.
  - left. exists cols. split; [reflexivity|]. split; [intros n levels []|reflexivity].
  - cbn [map fst] in N. inversion N as [|? ? N1 N2]; subst. cbn [convert_columns]. unfold convert_column. cbn [fst snd].
    destruct (dict_get string_dec n cols) as [col|] eqn:G.
    + destruct (all_cases _ _ (code_value levels) col (fun x _ => code_value_cases levels x)) as [[ys Y]|[Y [v [I V]]]]; rewrite Y; cbn [result_bind].
      * destruct (IH (dict_set string_dec n ys cols) N2) as [[c' [E [E1 E2]]]|[E [m [lv [c [v [I1 [I2 I3]]]]]]]].
        -- left. exists c'. split; [exact E|]. split.
           ++ intros m lv [X|I].
              ** injection X as <- <-. rewrite G. exists ys. split; [exact Y|]. rewrite (E2 n N1). apply dict_get_set_same.
              ** assert (m <> n) by (intros ->; apply N1; apply in_map_iff; exists (n, lv); split; [reflexivity|exact I]).
                 specialize (E1 m lv I). rewrite dict_get_set_other in E1 by assumption. exact E1.
           ++ intros m M. cbn [map fst] in M. rewrite E2 by (intros I; apply M; right; exact I).
              apply dict_get_set_other. intros ->. apply M. left. reflexivity.
        -- right. split; [exact E|]. exists m, lv, c, v. split; [right; exact I1|].
           assert (m <> n) by (intros ->; apply N1; apply in_map_iff; exists (n, lv); split; [reflexivity|exact I1]).
           rewrite dict_get_set_other in I2 by assumption. split; [exact I2|exact I3].
      * right. split; [reflexivity|]. exists n, levels, col, v. split; [left; reflexivity|]. split; [exact G|split; [exact I|exact V]].
    + cbn [result_bind]. destruct (IH cols N2) as [[c' [E [E1 E2]]]|[E [m [lv [c [v [I1 I2]]]]]]].
      * left. exists c'. split; [exact E|]. split.
        -- intros m lv [X|I]; [injection X as <- <-; rewrite G, (E2 n N1); exact G|exact (E1 m lv I)].
        -- intros m M. apply E2. intros I. apply M. right. exact I.
      * right. split; [exact E|]. exists m, lv, c, v. split; [right; exact I1|exact I2].
Qed.

Lemma nodup_parts : forall A (l l' : list A), NoDup (l ++ l') -> NoDup l /\ NoDup l'.
Proof.
  induction l as [|x l IH]; intros l' N; [split; [constructor|exact N]|].
  inversion N as [|? ? N1 N2]; subst. destruct (IH l' N2) as [A1 A2]. split; [|exact A2].
  constructor; [|exact A1]. intros I. apply N1. apply in_or_app. left. exact I.
Qed.

Section Input.
  Variables (nm : names) (rows : list index) (d : sim_data).
  Hypothesis PN : proper_names nm.

  Lemma labelled_NoDup : NoDup (map fst (labelled_columns nm)).
  Proof.
    unfold labelled_columns. cbn [map fst]. rewrite map_app, map_map. cbn [fst].
    replace (map (fun x => x) (lag_columns nm)) with (lag_columns nm) by (symmetry; apply map_id).
    unfold proper_names, state_columns in PN. inversion PN as [|? ? P1 P2]; subst. constructor.
    - intros I. apply P1. apply in_or_app. right. apply in_app_or in I. destruct I as [I|I].
      + apply in_or_app. left. exact I.
      + apply in_or_app. right. apply in_or_app. left. exact I.
    - apply nodup_parts in P2. destruct P2 as [_ P2]. rewrite app_assoc in P2. apply nodup_parts in P2. exact (proj1 P2).
  Qed.

  Lemma take_rows_get : forall n, dict_get string_dec n (take_rows rows d) =
    option_map (fun col => map (value_in_row (sd_index d) col) rows) (dict_get string_dec n (internal_columns (sd_columns d))).
  Proof.
    intros n. unfold take_rows. induction (internal_columns (sd_columns d)) as [|[m c] l IH]; [reflexivity|].
    cbn [map fst snd dict_get]. destruct (string_dec n m); [reflexivity|exact IH].
  Qed.

  Lemma present_iff : forall n, present d n <-> exists col, dict_get string_dec n (internal_columns (sd_columns d)) = Some col.
  Proof.
    intros n. unfold present, internal_columns. induction (sd_columns d) as [|[m c] l IH]; cbn [map fst snd dict_get].
    - split; [intros []|intros [c E]; discriminate].
    - destruct (string_dec n (rename_labels_to_internal m)) as [E|E].
      + split; [intros _; eexists; reflexivity|intros _; left; symmetry; exact E].
      + rewrite <- IH. split; [intros [X|X]; [symmetry in X; contradiction|exact X]|intros X; right; exact X].
  Qed.

  Definition finished (out : columns) : Prop := exists cols, convert_columns (labelled_columns nm) (take_rows rows d) = Ok cols /\
    out = reindex_columns (state_columns nm) (List.length rows) cols.

  Lemma convert_iff : (labels_complete0 nm rows d /\ exists cols, convert_columns (labelled_columns nm) (take_rows rows d) = Ok cols) \/
    (~ labels_complete0 nm rows d /\ convert_columns (labelled_columns nm) (take_rows rows d) = ValueError).
  Proof.
    destruct (convert_columns_spec (labelled_columns nm) (take_rows rows d) labelled_NoDup) as [[cols [E [E1 _]]]|[E [n [lv [col [v [I [G [Iv V]]]]]]]]].
    - left. split; [|eauto]. intros n lv i I P Hi. specialize (E1 n lv I). apply present_iff in P. destruct P as [c0 P].
      rewrite take_rows_get, P in E1. cbn [option_map] in E1. destruct E1 as [c [Y _]].
      apply result_all_map_Ok in Y. unfold given. rewrite P.
      assert (X : exists y, code_value lv (value_in_row (sd_index d) c0 i) = Ok y).
      { apply in_map with (f := value_in_row (sd_index d) c0) in Hi. apply In_nth_error in Hi. destruct Hi as [k Hk].
        destruct (Forall2_nth_l _ _ _ _ _ _ _ Y Hk) as [y [_ Hy]]. exists y. exact Hy. }
      destruct X as [y X]. unfold code_value in X. destruct (value_in_row (sd_index d) c0 i) as [v|]; [|discriminate].
      exists v. split; [reflexivity|]. destruct (code_cases lv v) as [[c1 [_ C]]|[C _]]; [exact C|]. rewrite C in X. discriminate.
    - right. split; [|exact E]. intros LC. rewrite take_rows_get in G.
      destruct (dict_get string_dec n (internal_columns (sd_columns d))) as [c0|] eqn:P; [|discriminate].
      cbn [option_map] in G. injection G as <-. apply in_map_iff in Iv. destruct Iv as [i [<- Hi]].
      destruct (LC n lv i I) as [v [Gv Cv]]; [apply present_iff; eauto|exact Hi|].
      unfold given in Gv. rewrite P in Gv. rewrite Gv in V. unfold code_value in V.
      destruct (code_cases lv v) as [[c1 [X _]]|[_ X]]; [rewrite X in V; discriminate|contradiction].
  Qed.

  Lemma finished_processed0 : forall out, finished out -> processed0 nm rows d out.
  Proof.
    intros out [cols [E ->]].
    destruct (convert_columns_spec (labelled_columns nm) (take_rows rows d) labelled_NoDup) as [[cols' [E' [E1 E2]]]|[E' _]]; [|congruence].
    rewrite E in E'. injection E' as <-.
    assert (IN : forall name col, In (name, col) (reindex_columns (state_columns nm) (List.length rows) cols) ->
      col = match dict_get string_dec name cols with Some c => c | None => repeat None (List.length rows) end).
    { intros name col I. unfold reindex_columns in I. apply in_map_iff in I. destruct I as [n [X _]]. injection X as <- <-. reflexivity. }
    assert (LB : forall name levels, In (name, levels) (labelled_columns nm) ->
       match dict_get string_dec name (internal_columns (sd_columns d)) with
       | Some c0 => exists c, dict_get string_dec name cols = Some c /\ result_all (map (code_value levels) (map (value_in_row (sd_index d) c0) rows)) = Ok c
       | None => dict_get string_dec name cols = None end).
    { intros name levels I. specialize (E1 name levels I). rewrite take_rows_get in E1.
      destruct (dict_get string_dec name (internal_columns (sd_columns d))) as [c0|]; cbn [option_map] in E1; [|exact E1].
      destruct E1 as [c [X Y]]. eauto. }
    assert (OT : forall name, ~ In name (map fst (labelled_columns nm)) -> dict_get string_dec name cols =
       option_map (fun col => map (value_in_row (sd_index d) col) rows) (dict_get string_dec name (internal_columns (sd_columns d)))).
    { intros name I. rewrite (E2 name I). apply take_rows_get. }
    constructor.
    - unfold reindex_columns. rewrite map_map. cbn [fst]. apply map_id.
    - intros name col I. rewrite (IN _ _ I). destruct (in_dec string_dec name (map fst (labelled_columns nm))) as [L|L].
      + apply in_map_iff in L. destruct L as [[n lv] [X L]]. cbn [fst] in X. subst n. specialize (LB name lv L).
        destruct (dict_get string_dec name (internal_columns (sd_columns d))) as [c0|].
        * destruct LB as [c [-> Y]]. apply result_all_map_Ok in Y. apply Forall2_length_eq in Y. rewrite map_length in Y. symmetry. exact Y.
        * rewrite LB. apply repeat_length.
      + rewrite (OT _ L). destruct (dict_get string_dec name (internal_columns (sd_columns d))); cbn [option_map]; [apply map_length|apply repeat_length].
    - intros name levels col k i I L Hk. rewrite (IN _ _ I). specialize (LB name levels L). unfold given.
      destruct (dict_get string_dec name (internal_columns (sd_columns d))) as [c0|].
      + destruct LB as [c [-> Y]]. apply result_all_map_Ok in Y.
        pose proof (map_nth_error (value_in_row (sd_index d) c0) k rows Hk) as Hv.
        destruct (Forall2_nth_l _ _ _ _ _ _ _ Y Hv) as [y [Hy Ey]]. unfold code_value in Ey.
        destruct (value_in_row (sd_index d) c0 i) as [v|]; [|discriminate].
        destruct (label_to_code levels v) as [n| | | | |]; cbn [result_bind] in Ey; try discriminate. injection Ey as <-.
        exists n. split; [reflexivity|exact Hy].
      + rewrite LB. apply nth_error_repeat. eapply nth_error_lt; exact Hk.
    - intros name col k i I L Hk. rewrite (IN _ _ I), (OT _ L). unfold given.
      destruct (dict_get string_dec name (internal_columns (sd_columns d))) as [c0|]; cbn [option_map].
      + apply map_nth_error. exact Hk.
      + apply nth_error_repeat. eapply nth_error_lt; exact Hk.
  Qed.

  (** A value of the processed0 columns is missing exactly if it is missing in the data. *)
  Lemma missing_iff : forall out, finished out -> (has_missing out = true <->
    exists name i, In name (state_columns nm) /\ name <> "type" /\ In i rows /\ given d name i = None).
  Proof.
    intros out F. pose proof (finished_processed0 out F) as [PN' PR PL PO].
    assert (M : forall name col k i, In (name, col) out -> nth_error rows k = Some i ->
      (nth_error col k = Some None <-> given d name i = None)).
    { intros name col k i I Hk. destruct (in_dec string_dec name (map fst (labelled_columns nm))) as [L|L].
      - apply in_map_iff in L. destruct L as [[n lv] [X L]]. cbn [fst] in X. subst n. specialize (PL name lv col k i I L Hk).
        destruct (given d name i) as [v|]; [|tauto]. destruct PL as [c [_ P]]. rewrite P. split; discriminate.
      - rewrite (PO name col k i I L Hk). split; [intros X; injection X; auto|congruence]. }
    unfold has_missing. rewrite existsb_exists. split.
    - intros [[name col] [I H]]. cbn [fst snd] in H. apply andb_prop in H. destruct H as [H1 H2].
      apply existsb_exists in H2. destruct H2 as [v [Iv Hv]]. destruct v; [discriminate|].
      apply In_nth_error in Iv. destruct Iv as [k Hk].
      destruct (nth_error rows k) as [i|] eqn:Hr.
      2:{ apply nth_error_None in Hr. rewrite <- (PR name col I) in Hr. pose proof (nth_error_lt _ _ _ _ Hk). lia. }
      exists name, i. split; [rewrite <- PN'; exact (in_map fst _ _ I)|]. split.
      + intros ->. discriminate.
      + split; [eapply nth_error_In; exact Hr|]. apply (M name col k i I Hr). exact Hk.
    - intros [name [i [I [T [Hi G]]]]]. rewrite <- PN' in I. apply in_map_iff in I. destruct I as [[n col] [X I]]. cbn [fst] in X. subst n.
      exists (name, col). split; [exact I|]. cbn [fst snd]. apply andb_true_intro. split.
      + destruct (String.eqb_spec name "type"); [contradiction|reflexivity].
      + apply In_nth_error in Hi. destruct Hi as [k Hk]. apply existsb_exists. exists None. split; [|reflexivity].
        eapply nth_error_In. apply (M name col k i I Hk). exact G.
  Qed.
End Input.

Lemma first_rows : forall agents, List.length (map (fun k => (k, 0)) (seq 0 agents)) = agents.
Proof. intros. rewrite map_length, seq_length. reflexivity. Qed.

Lemma n_step_input0 : forall nm agents d, proper_names nm ->
  let rows := map (fun k => (k, 0)) (seq 0 agents) in
  (labels_complete0 nm rows d -> exists w out, input_n_step nm agents d = Ok (w, out) /\ processed0 nm rows d out /\
     (w = true <-> exists name i, In name (state_columns nm) /\ name <> "type" /\ In i rows /\ given d name i = None)) /\
  (~ labels_complete0 nm rows d -> input_n_step nm agents d = ValueError).
Proof.
  intros nm agents d PN rows. unfold input_n_step. fold rows.
  destruct (convert_iff nm rows d PN) as [[LC [cols E]]|[LC E]]; rewrite E; cbn [result_bind]; cbv zeta.
  - split; [intros _|intros X; contradiction].
    assert (F : finished nm rows d (reindex_columns (state_columns nm) agents cols)).
    { exists cols. split; [exact E|]. unfold rows. rewrite first_rows. reflexivity. }
    eexists. eexists. split; [reflexivity|]. split; [exact (finished_processed0 nm rows d PN _ F)|exact (missing_iff nm rows d PN _ F)].
  - split; [intros X; contradiction|intros _; reflexivity].
Qed.

Lemma one_step_input0 : forall nm rows d, proper_names nm ->
  let complete := forall name i, In name (state_columns nm) -> name <> "type" -> In i rows -> given d name i <> None in
  (labels_complete0 nm rows d -> complete -> exists out, input_one_step nm rows d = Ok out /\ processed0 nm rows d out) /\
  (~ labels_complete0 nm rows d \/ ~ complete -> input_one_step nm rows d = ValueError).
Proof.
  intros nm rows d PN complete. unfold input_one_step.
  destruct (convert_iff nm rows d PN) as [[LC [cols E]]|[LC E]]; rewrite E; cbn [result_bind]; cbv zeta.
  - assert (F : finished nm rows d (reindex_columns (state_columns nm) (List.length rows) cols)) by (exists cols; split; [exact E|reflexivity]).
    pose proof (missing_iff nm rows d PN _ F) as M. split.
    + intros _ C. destruct (has_missing _).
      * exfalso. destruct (proj1 M eq_refl) as [name [i [I [T [Hi G]]]]]. exact (C name i I T Hi G).
      * eexists. split; [reflexivity|]. exact (finished_processed0 nm rows d PN _ F).
    + intros [X|X]; [contradiction|]. destruct (has_missing _); [reflexivity|]. exfalso. apply X.
      intros name i I T Hi G. assert (false = true) by (apply (proj2 M); exists name, i; auto). discriminate.
  - split; [intros X; contradiction|intros _; reflexivity].
Qed.

(** ** With the value in a row as a relation *)
Section Relation.
  Variables (nm : names) (rows : list index) (d : sim_data).
  Hypothesis (UD : unique_data d).

  Lemma value_in_row_some : forall idx col i v, NoDup idx ->
    (value_in_row idx col i = Some v <-> exists k, nth_error idx k = Some i /\ nth_error col k = Some (Some v)).
  Proof.
    induction idx as [|j idx IH]; intros col i v N.
    - cbn. split; [discriminate|intros [[|k] [E _]]; discriminate].
    - destruct col as [|x col].
      + cbn. split; [discriminate|intros [[|k] [_ E]]; discriminate].
      + inversion N as [|? ? N1 N2]; subst. cbn [value_in_row].
        destruct (Nat.eqb_spec (fst j) (fst i)) as [E1|E1]; cbn [andb]; [destruct (Nat.eqb_spec (snd j) (snd i)) as [E2|E2]|].
        * assert (j = i) by (destruct i, j; cbn in *; congruence). subst j. split.
          -- intros ->. exists 0. split; reflexivity.
          -- intros [[|k] [K1 K2]]; [injection K2; auto|]. exfalso. apply N1. eapply nth_error_In. exact K1.
        * rewrite (IH col i v N2). split; [intros [k K]; exists (S k); exact K|].
          intros [[|k] [K1 K2]]; [cbn in K1; injection K1 as ->; congruence|exists k; split; assumption].
        * rewrite (IH col i v N2). split; [intros [k K]; exists (S k); exact K|].
          intros [[|k] [K1 K2]]; [cbn in K1; injection K1 as ->; congruence|exists k; split; assumption].
  Qed.

  Lemma column_found : forall name col, dict_get string_dec name (internal_columns (sd_columns d)) = Some col <->
    exists u, In (u, col) (sd_columns d) /\ rename_labels_to_internal u = name.
  Proof.
    intros name col. destruct UD as [_ N]. unfold internal_columns. revert N. induction (sd_columns d) as [|[u c] l IH]; intros N; cbn [map fst snd dict_get].
    - split; [discriminate|intros [u [[] _]]].
    - cbn [map fst] in N. inversion N as [|? ? N1 N2]; subst.
      destruct (string_dec name (rename_labels_to_internal u)) as [E|E].
      + split; [intros X; injection X as <-; exists u; split; [left; reflexivity|symmetry; exact E]|].
        intros [w [[X|X] Y]]; [injection X as <- <-; reflexivity|]. exfalso. apply N1. rewrite <- E, <- Y.
        apply in_map_iff. exists (w, col). split; [reflexivity|exact X].
      + rewrite (IH N2). split; [intros [w [X Y]]; exists w; split; [right; exact X|exact Y]|].
        intros [w [[X|X] Y]]; [injection X as <- <-; congruence|exists w; split; assumption].
  Qed.

  Lemma holds_given : forall name i v, holds d name i v <-> given d name i = Some v.
  Proof.
    intros name i v. unfold holds, given. split.
    - intros [u [col [k [I [E [K1 K2]]]]]]. rewrite (proj2 (column_found name col)) by (exists u; split; assumption).
      apply value_in_row_some; [exact (proj1 UD)|]. exists k. split; assumption.
    - destruct (dict_get string_dec name (internal_columns (sd_columns d))) as [col|] eqn:G; [|discriminate]. intros V.
      apply column_found in G. destruct G as [u [I E]]. apply value_in_row_some in V; [|exact (proj1 UD)]. destruct V as [k [K1 K2]].
      exists u, col, k. repeat split; assumption.
  Qed.

  Lemma not_given : forall name i, given d name i = None <-> forall v, ~ holds d name i v.
  Proof.
    intros name i. split.
    - intros G v H. apply holds_given in H. congruence.
    - intros H. destruct (given d name i) as [v|] eqn:G; [|reflexivity]. exfalso. apply (H v). apply holds_given. exact G.
  Qed.

  Lemma complete_iff : labels_complete nm rows d <-> labels_complete0 nm rows d.
  Proof.
    unfold labels_complete, labels_complete0. split; intros H name levels i I P Hi; destruct (H name levels i I P Hi) as [v [V C]];
      exists v; (split; [apply holds_given; exact V|exact C]).
  Qed.

  Lemma processed_relation : forall out, processed0 nm rows d out -> processed nm rows d out.
  Proof.
    intros out [P1 P2 P3 P4]. constructor; [exact P1|exact P2| | |].
    - intros name levels col k i v I L K H. specialize (P3 name levels col k i I L K). apply holds_given in H. rewrite H in P3. exact P3.
    - intros name col k i v I L K H. rewrite (P4 name col k i I L K). f_equal. apply holds_given. exact H.
    - intros name col k i I K H. apply not_given in H. destruct (in_dec string_dec name (map fst (labelled_columns nm))) as [L|L].
      + apply in_map_iff in L. destruct L as [[n lv] [X L]]. cbn [fst] in X. subst n. specialize (P3 name lv col k i I L K). rewrite H in P3. exact P3.
      + rewrite (P4 name col k i I L K), H. reflexivity.
  Qed.
End Relation.

Theorem n_step_input : forall nm agents d, proper_names nm -> unique_data d ->
  let rows := map (fun k => (k, 0)) (seq 0 agents) in
  (labels_complete nm rows d -> exists w out, input_n_step nm agents d = Ok (w, out) /\ processed nm rows d out /\
     (w = true <-> exists name i, In name (state_columns nm) /\ name <> "type" /\ In i rows /\ forall v, ~ holds d name i v)) /\
  (~ labels_complete nm rows d -> input_n_step nm agents d = ValueError).
Proof.
  intros nm agents d PN UD rows. destruct (n_step_input0 nm agents d PN) as [H1 H2]. fold rows in H1, H2.
  rewrite (complete_iff nm rows d UD). split; [|exact H2]. intros LC. destruct (H1 LC) as [w [out [E [P W]]]].
  exists w, out. split; [exact E|]. split; [apply processed_relation; assumption|]. rewrite W. split.
  - intros [name [i [A [B [C G]]]]]. exists name, i. repeat split; try assumption. apply not_given; assumption.
  - intros [name [i [A [B [C G]]]]]. exists name, i. repeat split; try assumption. apply not_given; assumption.
Qed.

Theorem one_step_input : forall nm rows d, proper_names nm -> unique_data d ->
  let complete := forall name i, In name (state_columns nm) -> name <> "type" -> In i rows -> exists v, holds d name i v in
  (labels_complete nm rows d -> complete -> exists out, input_one_step nm rows d = Ok out /\ processed nm rows d out) /\
  (~ labels_complete nm rows d \/ ~ complete -> input_one_step nm rows d = ValueError).
Proof.
  intros nm rows d PN UD complete. destruct (one_step_input0 nm rows d PN) as [H1 H2].
  rewrite (complete_iff nm rows d UD).
  assert (CC : complete <-> (forall name i, In name (state_columns nm) -> name <> "type" -> In i rows -> given d name i <> None)).
  { unfold complete. split; intros H name i A B C.
    - destruct (H name i A B C) as [v V]. apply (holds_given d UD) in V. congruence.
    - specialize (H name i A B C). destruct (given d name i) as [v|] eqn:G; [|congruence]. exists v. apply (holds_given d UD). exact G. }
  split.
  - intros LC C. destruct (H1 LC (proj1 CC C)) as [out [E P]]. exists out. split; [exact E|apply processed_relation; assumption].
  - intros [X|X]; apply H2; [left; exact X|right]. intros Y. apply X, CC. exact Y.
Qed.
