(** The order of the parameters of the shocks, and measurement errors. *)
From Coq Require Import List Arith Bool String Ascii Reals Lia Permutation.
From Verif Require Import Base Proof_Base Model_Strings Proof_Strings Model_Cache Model_Choices Spec_Choices Proof_Choices
  Model_Params Spec_Params Proof_Params Proof_Names.
Import ListNotations.
Open Scope string_scope.
Local Open Scope nat_scope.

(** ** Rows of a triangle *)

Fixpoint before (g : nat -> nat) (i : nat) : nat := match i with O => 0 | S j => before g j + g j end.

Lemma flat_rows_length : forall A (row : nat -> list A) g n, (forall i, i < n -> List.length (row i) = g i) ->
  List.length (flat_map row (seq 0 n)) = before g n.
Proof.
  intros A row g n. induction n as [|n IH]; intros H; [reflexivity|].
  rewrite seq_S, flat_map_app, app_length, IH by (intros; apply H; lia). cbn [flat_map]. rewrite app_nil_r.
  rewrite H by (cbn; lia). reflexivity.
Qed.
Lemma flat_rows_nth : forall A (row : nat -> list A) g n, (forall i, i < n -> List.length (row i) = g i) ->
  forall i j, i < n -> j < g i -> nth_error (flat_map row (seq 0 n)) (before g i + j) = nth_error (row i) j.
Proof.
  intros A row g n. induction n as [|n IH]; intros H i j L J; [lia|].
  rewrite seq_S, flat_map_app. cbn [flat_map Nat.add]. rewrite app_nil_r.
  assert (LN : List.length (flat_map row (seq 0 n)) = before g n) by (apply flat_rows_length; intros; apply H; lia).
  destruct (Nat.eq_dec i n) as [->|ne].
  - rewrite nth_error_app2 by lia. f_equal. lia.
  - rewrite nth_error_app1; [apply IH; [intros; apply H|..]; lia|]. rewrite LN.
    assert (B : forall m, S i <= m -> before g (S i) <= before g m).
    { induction m as [|m IHm]; intros Hm; [lia|]. destruct (Nat.eq_dec (S i) (S m)) as [->|]; [lia|].
      specialize (IHm ltac:(lia)). cbn [before] in *. lia. }
    specialize (B n ltac:(lia)). cbn [before] in B. lia.
Qed.

Lemma enumerate_seq : forall A (d : A) (l : list A),
  enumerate l = map (fun i => (i, nth i l d)) (seq 0 (List.length l)).
Proof.
  intros A d l. apply list_eq_nth_error. intros k. rewrite nth_error_enumerate, nth_error_map.
  destruct (Nat.lt_ge_cases k (List.length l)) as [L|L].
  - rewrite (nth_error_nth' l d L). rewrite (nth_error_nth' _ 0) by (rewrite seq_length; exact L).
    rewrite seq_nth by exact L. reflexivity.
  - rewrite (proj2 (nth_error_None l k) L). rewrite (proj2 (nth_error_None _ k)) by (rewrite seq_length; exact L). reflexivity.
Qed.
Lemma flat_map_enumerate : forall A B (f : nat * A -> list B) (d : A) (l : list A),
  flat_map f (enumerate l) = flat_map (fun i => f (i, nth i l d)) (seq 0 (List.length l)).
Proof. intros. rewrite (enumerate_seq A d), !flat_map_concat_map, map_map. reflexivity. Qed.

Lemma firstn_snoc : forall (l : list string) i, i < List.length l -> firstn (S i) l = (firstn i l ++ [nth i l ""])%list.
Proof.
  induction l as [|x r IH]; intros i L; [cbn in L; lia|]. destruct i as [|i]; [reflexivity|].
  cbn [firstn app nth]. f_equal. rewrite <- IH by (cbn in L; lia). reflexivity.
Qed.
Lemma earlier_differs : forall (l : list string) i c, NoDup l -> i < List.length l -> In c (firstn i l) -> nth i l "" <> c.
Proof.
  induction l as [|x r IH]; intros i c N L I; [cbn in L; lia|]. destruct i as [|i]; [destruct I|].
  inversion N as [|? ? NI N']; subst. cbn [firstn nth] in *. cbn in L. destruct I as [<-|I].
  - intros E. apply NI. rewrite <- E. apply nth_In. lia.
  - apply IH; auto. lia.
Qed.
Lemma nth_firstn : forall (l : list string) i j, j < i -> i <= List.length l -> nth_error (firstn i l) j = nth_error l j.
Proof.
  induction l as [|x r IH]; intros i j J L; [cbn in L; lia|]. destruct i as [|i]; [lia|]. cbn [firstn].
  destruct j as [|j]; [reflexivity|]. cbn [nth_error]. apply IH; cbn in L; lia.
Qed.

Lemma nth_error_lt : forall A (l : list A) i x, nth_error l i = Some x -> i < List.length l.
Proof. intros A l i x H. apply nth_error_Some. congruence. Qed.
Lemma nth_of_nth_error : forall (l : list string) i c, nth_error l i = Some c -> nth i l "" = c.
Proof. intros l i c H. apply nth_error_nth. exact H. Qed.

Section Rows.
  Variable choices : list string.
  Hypothesis N : NoDup choices.
  Let n := List.length choices.

  Lemma corr_row : forall i, i < n ->
    flat_map (fun c2 => if String.eqb (nth i choices "") c2 then []
                        else [("corr_" ++ nth i choices "" ++ "_" ++ c2)%string]) (firstn (S i) choices) =
    map (fun c2 => ("corr_" ++ nth i choices "" ++ "_" ++ c2)%string) (firstn i choices).
  Proof.
    intros i L. rewrite firstn_snoc by exact L. rewrite flat_map_app. cbn [flat_map].
    rewrite String.eqb_refl. cbn [app]. rewrite app_nil_r.
    pose proof (fun c => earlier_differs choices i c N L) as D. revert D. generalize (firstn i choices) as l.
    induction l as [|c l IH]; intros D; [reflexivity|]. cbn [flat_map map].
    rewrite (proj2 (String.eqb_neq _ _) (D c (or_introl eq_refl))). cbn [app]. f_equal.
    apply IH. intros x I. apply D. right. exact I.
  Qed.

  Lemma before_below : forall i, before (fun i => i) i = entries_below i.
  Proof. induction i as [|i IH]; cbn; [reflexivity|rewrite IH; reflexivity]. Qed.
  Lemma before_until : forall i, before S i = entries_until i.
  Proof. induction i as [|i IH]; cbn; [reflexivity|rewrite IH; reflexivity]. Qed.

  Lemma required_sdcorr : sd_corr_order choices (required_shocks Sdcorr choices).
  Proof.
    set (row := fun i => map (fun c2 => ("corr_" ++ nth i choices "" ++ "_" ++ c2)%string) (firstn i choices)).
    assert (RL : forall i, i < n -> List.length (row i) = i)
      by (intros i L; unfold row; rewrite map_length, firstn_length; fold n; lia).
    assert (E : required_shocks Sdcorr choices =
       (map (fun c => ("sd_" ++ c)%string) choices ++ flat_map row (seq 0 n))%list).
    { unfold required_shocks. f_equal. rewrite (flat_map_enumerate _ _ _ ""). fold n.
      rewrite !flat_map_concat_map. f_equal. apply map_ext_in. intros i I. apply in_seq in I. cbn [fst snd].
      apply corr_row. lia. }
    rewrite E. unfold sd_corr_order. fold n. split; [|split].
    - rewrite app_length, map_length, (flat_rows_length _ row (fun i => i)) by exact RL. fold n. rewrite before_below. reflexivity.
    - intros i c H. rewrite nth_error_app1 by (rewrite map_length; apply nth_error_lt in H; exact H).
      rewrite nth_error_map, H. reflexivity.
    - intros i j c d J C D. pose proof (nth_error_lt _ _ _ _ C) as L. fold n in L.
      rewrite nth_error_app2 by (rewrite map_length; fold n; lia). rewrite map_length. fold n.
      replace (n + entries_below i + j - n) with (before (fun i => i) i + j) by (rewrite before_below; lia).
      rewrite (flat_rows_nth _ row (fun i => i) n RL i j L J). unfold row.
      rewrite nth_error_map, nth_firstn by (fold n; lia). rewrite D. cbn [option_map].
      rewrite (nth_of_nth_error _ _ _ C). reflexivity.
  Qed.

  Lemma required_triangle : forall on_diagonal below,
    triangle_order on_diagonal below choices
      (flat_map (fun p => map (fun c2 => if String.eqb (snd p) c2 then (on_diagonal ++ "_" ++ snd p)%string
                                         else (below ++ "_" ++ snd p ++ "_" ++ c2)%string)
                           (firstn (S (fst p)) choices)) (enumerate choices)).
  Proof.
    intros dg bl. rewrite (flat_map_enumerate _ _ _ ""). fold n.
    set (row := fun i => map (fun c2 => if String.eqb (snd (i, nth i choices "")) c2 then (dg ++ "_" ++ snd (i, nth i choices ""))%string
                                         else (bl ++ "_" ++ snd (i, nth i choices "") ++ "_" ++ c2)%string)
                           (firstn (S (fst (i, nth i choices ""))) choices)).
    change (flat_map _ (seq 0 n)) with (flat_map row (seq 0 n)).
    assert (RL : forall i, i < n -> List.length (row i) = S i)
      by (intros i L; unfold row; rewrite map_length, firstn_length; fold n; cbn [fst]; lia).
    unfold triangle_order. fold n. split; [|split].
    - rewrite (flat_rows_length _ row S) by exact RL. apply before_until.
    - intros i c C. pose proof (nth_error_lt _ _ _ _ C) as L. fold n in L. rewrite <- before_until.
      rewrite (flat_rows_nth _ row S n RL i i L) by lia. unfold row. cbn [fst snd].
      rewrite nth_error_map, nth_firstn by (fold n; lia). rewrite C. cbn [option_map].
      rewrite (nth_of_nth_error _ _ _ C), String.eqb_refl. reflexivity.
    - intros i j c d J C D. pose proof (nth_error_lt _ _ _ _ C) as L. fold n in L. rewrite <- before_until.
      rewrite (flat_rows_nth _ row S n RL i j L) by lia. unfold row. cbn [fst snd].
      rewrite nth_error_map, nth_firstn by (fold n; lia). rewrite D. cbn [option_map].
      rewrite (nth_of_nth_error _ _ _ C).
      assert (NE : c <> d).
      { intros ->. assert (i = j); [|lia]. apply (proj1 (NoDup_nth_error choices) N); [exact L|congruence]. }
      apply String.eqb_neq in NE. rewrite NE. reflexivity.
  Qed.

  Lemma required_ok : forall k, required_order k choices (required_shocks k choices).
  Proof. intros [| |]; [apply required_sdcorr | apply required_triangle | apply required_triangle]. Qed.
End Rows.

(** ** The order determines the names *)

Lemma below_cover : forall n m, m < entries_below n -> exists i j, i < n /\ j < i /\ m = entries_below i + j.
Proof.
  induction n as [|n IH]; intros m L; [cbn in L; lia|]. cbn in L.
  destruct (Nat.lt_ge_cases m (entries_below n)) as [H|H].
  - destruct (IH m H) as [i [j [A [B C]]]]. exists i, j. lia.
  - exists n, (m - entries_below n). lia.
Qed.
Lemma until_cover : forall n m, m < entries_until n -> exists i j, i < n /\ j <= i /\ m = entries_until i + j.
Proof.
  induction n as [|n IH]; intros m L; [cbn in L; lia|]. cbn [entries_until] in L.
  destruct (Nat.lt_ge_cases m (entries_until n)) as [H|H].
  - destruct (IH m H) as [i [j [A [B C]]]]. exists i, j. lia.
  - exists n, (m - entries_until n). lia.
Qed.

Lemma get_nth : forall (l : list string) i, i < List.length l -> exists c, nth_error l i = Some c.
Proof. intros l i L. destruct (nth_error l i) eqn:E; [eauto|]. apply nth_error_None in E. lia. Qed.

Lemma order_unique : forall k choices names names',
  required_order k choices names -> required_order k choices names' -> names = names'.
Proof.
  assert (S : forall choices names names', sd_corr_order choices names -> sd_corr_order choices names' -> names = names').
  { intros choices names names' [L [A B]] [L' [A' B']]. apply list_eq_nth_error. intros m.
    destruct (Nat.lt_ge_cases m (List.length names)) as [H|H].
    2:{ rewrite (proj2 (nth_error_None names m)), (proj2 (nth_error_None names' m)) by lia. reflexivity. }
    destruct (Nat.lt_ge_cases m (List.length choices)) as [G|G].
    - destruct (get_nth choices m G) as [c C]. rewrite (A m c C), (A' m c C). reflexivity.
    - destruct (below_cover (List.length choices) (m - List.length choices)) as [i [j [I [J E]]]]; [lia|].
      destruct (get_nth choices i I) as [c C]. destruct (get_nth choices j ltac:(lia)) as [d D].
      replace m with (List.length choices + entries_below i + j) by lia. rewrite (B i j c d J C D), (B' i j c d J C D). reflexivity. }
  assert (T : forall a b choices names names', triangle_order a b choices names -> triangle_order a b choices names' -> names = names').
  { intros a b choices names names' [L [A B]] [L' [A' B']]. apply list_eq_nth_error. intros m.
    destruct (Nat.lt_ge_cases m (List.length names)) as [H|H].
    2:{ rewrite (proj2 (nth_error_None names m)), (proj2 (nth_error_None names' m)) by lia. reflexivity. }
    destruct (until_cover (List.length choices) m) as [i [j [I [J E]]]]; [lia|]. subst m.
    destruct (get_nth choices i I) as [c C]. destruct (Nat.eq_dec j i) as [->|ne].
    - rewrite (A i c C), (A' i c C). reflexivity.
    - destruct (get_nth choices j ltac:(lia)) as [d D]. rewrite (B i j c d ltac:(lia) C D), (B' i j c d ltac:(lia) C D). reflexivity. }
  intros [| |] choices names names'; cbn; [apply S | apply T | apply T].
Qed.

Lemma kinds_list : forall k, In (kind_name k) ["sdcorr"; "cov"; "chol"].
Proof. intros [| |]; cbn; auto. Qed.

Lemma has_kind : forall params k, shocks_of_kind params k -> forall k',
  mem ("shocks_" ++ kind_name k') (map p_category params) = true <-> k' = k.
Proof.
  intros params k [[p [I E]] H] k'. rewrite mem_iff. split.
  - intros M. apply in_map_iff in M. destruct M as [q [Eq M]].
    assert (X : p_category q = "shocks_" ++ kind_name k).
    { apply (H q k' M). left. rewrite Eq. exists "", "". rewrite append_nil_r. reflexivity. }
    rewrite Eq in X. destruct k, k'; cbn in X; try reflexivity; discriminate.
  - intros ->. apply in_map_iff. exists p. auto.
Qed.
Lemma has_kind_false : forall params k, shocks_of_kind params k -> forall k', k' <> k ->
  mem ("shocks_" ++ kind_name k') (map p_category params) = false.
Proof.
  intros params k H k' NE. destruct (mem _ _) eqn:M; [|reflexivity]. apply (has_kind params k H) in M. contradiction.
Qed.

Lemma shock_rows : forall params k, shocks_of_kind params k ->
  map p_name (filter is_shock params) = shock_names params k.
Proof.
  intros params k [_ H]. unfold shock_names. f_equal. apply filter_ext_in. intros p I.
  destruct (String.eqb_spec (p_category p) ("shocks_" ++ kind_name k)) as [E|NE].
  - unfold is_shock. apply existsb_exists. exists (kind_name k). split; [apply kinds_list|].
    apply orb_true_iff. left. apply substring_contains. exists "", "". rewrite append_nil_r. exact E.
  - destruct (is_shock p) eqn:S; [|reflexivity]. exfalso. apply NE. unfold is_shock in S.
    apply existsb_exists in S. destruct S as [s [K S]]. apply orb_true_iff in S.
    assert (K' : exists k', s = kind_name k').
    { destruct K as [<-|[<-|[<-|[]]]]; [exists Sdcorr|exists Cov|exists Chol]; reflexivity. }
    destruct K' as [k' ->]. apply (H p k' I). destruct S as [S|S]; apply substring_contains in S; auto.
Qed.

Lemma validate_kind : forall params k, shocks_of_kind params k ->
  (if mem ("shocks_" ++ "sdcorr") (map p_category params) then Sdcorr
   else if mem ("shocks_" ++ "cov") (map p_category params) then Cov else Chol) = k.
Proof.
  intros params k H. pose proof (has_kind params k H) as P. pose proof (has_kind_false params k H) as Q.
  destruct k.
  - pose proof (proj2 (P Sdcorr) eq_refl) as E. cbn [kind_name] in E. rewrite E. reflexivity.
  - pose proof (Q Sdcorr ltac:(discriminate)) as E1. pose proof (proj2 (P Cov) eq_refl) as E2.
    cbn [kind_name] in E1, E2. rewrite E1, E2. reflexivity.
  - pose proof (Q Sdcorr ltac:(discriminate)) as E1. pose proof (Q Cov ltac:(discriminate)) as E2.
    cbn [kind_name] in E1, E2. rewrite E1, E2. reflexivity.
Qed.

Lemma shocks_valid : forall choices params k, NoDup choices -> shocks_of_kind params k ->
  (validate_shocks choices params = Ok tt <-> required_order k choices (shock_names params k)).
Proof.
  intros choices params k N H. unfold validate_shocks. rewrite (validate_kind params k H), (shock_rows params k H).
  split.
  - destruct (Nat.eqb _ _); [|discriminate]. destruct (list_eq_dec _ _ _) as [E|]; [|discriminate]. intros _.
    rewrite E. apply required_ok. exact N.
  - intros R. rewrite (order_unique k choices _ _ R (required_ok choices N k)), Nat.eqb_refl.
    destruct (list_eq_dec _ _ _) as [_|n]; [reflexivity|contradiction].
Qed.

Lemma shocks_kind_ok : forall params k, shocks_of_kind params k -> shocks_kind (map p_category params) = Ok k.
Proof.
  intros params k H. unfold shocks_kind. pose proof (has_kind params k H) as P. pose proof (has_kind_false params k H) as Q.
  destruct k.
  - pose proof (proj2 (P Sdcorr) eq_refl) as E1. pose proof (Q Cov ltac:(discriminate)) as E2. pose proof (Q Chol ltac:(discriminate)) as E3.
    cbn [kind_name] in E1, E2, E3. cbn [filter]. rewrite E1, E2, E3. reflexivity.
  - pose proof (Q Sdcorr ltac:(discriminate)) as E1. pose proof (proj2 (P Cov) eq_refl) as E2. pose proof (Q Chol ltac:(discriminate)) as E3.
    cbn [kind_name] in E1, E2, E3. cbn [filter]. rewrite E1, E2, E3. reflexivity.
  - pose proof (Q Sdcorr ltac:(discriminate)) as E1. pose proof (Q Cov ltac:(discriminate)) as E2. pose proof (proj2 (P Chol) eq_refl) as E3.
    cbn [kind_name] in E1, E2, E3. cbn [filter]. rewrite E1, E2, E3. reflexivity.
Qed.
Lemma two_kinds : forall categories k k', k <> k' -> In ("shocks_" ++ kind_name k) categories ->
  In ("shocks_" ++ kind_name k') categories -> shocks_kind categories = ValueError.
Proof.
  intros categories k k' NE I I'. apply mem_iff in I, I'. unfold shocks_kind.
  set (l := filter _ _).
  assert (A : In (kind_name k) l) by (apply filter_In; split; [apply kinds_list | exact I]).
  assert (B : In (kind_name k') l) by (apply filter_In; split; [apply kinds_list | exact I']).
  assert (X : 2 <= List.length l).
  { destruct l as [|x [|y r]]; [destruct A| |cbn; lia]. destruct A as [A|[]], B as [B|[]].
    exfalso. apply NE. rewrite A in B. destruct k, k'; cbn in B; try reflexivity; discriminate. }
  apply Nat.leb_le in X. rewrite X. reflexivity.
Qed.

(** ** Measurement errors *)

Lemma param_value_is : forall params c n v, value_is params c n v -> param_value params c n = Ok v.
Proof.
  intros params c n v [I U]. unfold param_value. destruct (find _ params) as [[[c' n'] w]|] eqn:F.
  - apply find_some in F. destruct F as [J E]. cbn in E. apply andb_true_iff in E. destruct E as [E1 E2].
    apply String.eqb_eq in E1, E2. subst. cbn. f_equal. apply U. exact J.
  - exfalso. apply (find_none _ _ F) in I. cbn in I. rewrite !String.eqb_refl in I. discriminate.
Qed.
Lemma param_value_none : forall (params : list param) c n, (forall v, ~ In (c, n, v) params) -> param_value params c n = KeyError.
Proof.
  intros params c n H. unfold param_value. destruct (find _ params) as [[[c' n'] w]|] eqn:F; [|reflexivity].
  apply find_some in F. destruct F as [J E]. cbn in E. apply andb_true_iff in E. destruct E as [E1 E2].
  apply String.eqb_eq in E1, E2. subst. exfalso. exact (H w J).
Qed.

Lemma no_meas_error : forall choices w params, ~ In "meas_error" (map p_category params) ->
  parse_measurement_errors choices w params = Ok (false, map (fun _ => 0%R) choices).
Proof. intros choices w params H. unfold parse_measurement_errors. apply mem_false_iff in H. rewrite H. reflexivity. Qed.

Lemma all_meas_errors : forall wages others params sds, In "meas_error" (map p_category params) ->
  Forall2 (fun c v => value_is params "meas_error" ("sd_" ++ c) v) wages sds ->
  parse_measurement_errors (wages ++ others)%list wages params = Ok (true, (sds ++ map (fun _ => 0%R) others)%list).
Proof.
  intros wages others params sds M F. unfold parse_measurement_errors. apply mem_iff in M. rewrite M.
  assert (E : result_all (map (fun c => param_value params "meas_error" ("sd_" ++ c)) wages) = Ok sds).
  { induction F as [|c v w s V F IH]; [reflexivity|]. cbn [map result_all]. rewrite (param_value_is _ _ _ _ V).
    cbn [result_bind]. rewrite IH. reflexivity. }
  rewrite E. cbn [result_bind]. rewrite map_app, skipn_app, map_length, Nat.sub_diag.
  rewrite skipn_all2 by (rewrite map_length; lia). reflexivity.
Qed.
Lemma missing_meas_error : forall choices wages (params : list param) c, In "meas_error" (map p_category params) ->
  In c wages -> (forall v, ~ In ("meas_error", ("sd_" ++ c)%string, v) params) ->
  parse_measurement_errors choices wages params = KeyError.
Proof.
  intros choices wages params c M I H. unfold parse_measurement_errors. apply mem_iff in M. rewrite M.
  assert (E : result_all (map (fun c => param_value params "meas_error" ("sd_" ++ c)) wages) = KeyError).
  { induction wages as [|d w IH]; [destruct I|]. cbn [map result_all]. destruct I as [->|I].
    - rewrite (param_value_none _ _ _ H). reflexivity.
    - assert (V : exists r, param_value params "meas_error" ("sd_" ++ d) = r /\ (r = KeyError \/ exists v, r = Ok v)).
      { eexists. split; [reflexivity|]. unfold param_value. destruct (find _ _); eauto. }
      destruct V as [r [-> [->|[v ->]]]]; [reflexivity|]. cbn [result_bind]. rewrite IH by exact I. reflexivity. }
  rewrite E. reflexivity.
Qed.
