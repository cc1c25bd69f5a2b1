(** Proofs about parameters which have no meaning and parameters of rewards. *)
From Coq Require Import List Arith Bool String Ascii Reals ZArith Lia.
From Verif Require Import Base Proof_Base Model_Strings Model_Cache Model_Choices Model_Params Model_Processing Spec_Params Proof_Names
  Model_ParseParameters Spec_UnknownParameters.
Import ListNotations.
Open Scope string_scope.
Open Scope list_scope.

Lemma up_after : forall p s r, after_prefix p s = Some r -> s = (p ++ r)%string.
Proof.
  induction p as [|a p IH]; intros [|b s] r H; simpl in *; try discriminate; try congruence.
  destruct (Ascii.eqb_spec a b); [subst|discriminate]. apply IH in H. congruence.
Qed.
Lemma up_cons : forall p c s, substring p s -> substring p (String c s).
Proof. intros p c s [x [y ->]]. exists (String c x), y. reflexivity. Qed.
Lemma up_match : forall p cls s, ~ substring p s -> match_here p cls s = None.
Proof.
  intros p cls s H. unfold match_here. destruct (after_prefix p s) as [r|] eqn:E; [|reflexivity].
  exfalso. apply H. apply up_after in E. exists "", r. exact E.
Qed.
Lemma up_findall : forall p cls s w k, ~ substring p s -> findall_from p cls w k s = [].
Proof.
  intros p cls. induction s as [|c s IH]; intros w k H; [reflexivity|]. cbn [findall_from].
  assert (H' : ~ substring p s) by (intros X; apply H; apply up_cons; exact X).
  destruct k; [|apply IH; exact H']. rewrite up_match by exact H. destruct w; apply IH; exact H'.
Qed.
Lemma up_extract : forall p cls s, ~ substring p s -> extract p cls s = None.
Proof. intros. unfold extract, findall. rewrite up_findall by assumption. reflexivity. Qed.
Lemma up_search : forall p cls s, ~ substring p s -> search p cls s = None.
Proof.
  intros p cls. induction s as [|c s IH]; intros H.
  - cbn. destruct (after_prefix p "") as [r|] eqn:E; [|reflexivity]. exfalso. apply H. apply up_after in E. exists "", r. exact E.
  - cbn [search]. destruct (after_prefix p (String c s)) as [r|] eqn:E.
    + exfalso. apply H. apply up_after in E. exists "", r. exact E.
    + apply IH. intros X. apply H. apply up_cons. exact X.
Qed.
Lemma up_append_assoc : forall a b c, ((a ++ b) ++ c)%string = (a ++ (b ++ c))%string.
Proof. induction a; intros; simpl; [reflexivity|]. rewrite IHa. reflexivity. Qed.
Lemma up_longer : forall k t s, ~ substring k s -> ~ substring (k ++ t)%string s.
Proof. intros k t s H [x [y E]]. apply H. exists x, (t ++ y)%string. rewrite E, up_append_assoc. reflexivity. Qed.

(** Functions of lists of parameters which skip a parameter. *)
Lemma up_flat_map : forall A B (f : A -> list B) a p b, f p = [] -> flat_map f (a ++ p :: b) = flat_map f (a ++ b).
Proof. intros A B f a p b H. rewrite !flat_map_app. cbn. rewrite H. reflexivity. Qed.
Lemma up_filter : forall A (f : A -> bool) a p b, f p = false -> filter f (a ++ p :: b) = filter f (a ++ b).
Proof. intros A f a p b H. rewrite !filter_app. cbn. rewrite H. reflexivity. Qed.
Lemma up_existsb : forall A (f : A -> bool) a p b, f p = false -> existsb f (a ++ p :: b) = existsb f (a ++ b).
Proof. intros A f a p b H. rewrite !existsb_app. cbn. rewrite H. reflexivity. Qed.
Lemma up_find : forall A (f : A -> bool) a p b, f p = false -> find f (a ++ p :: b) = find f (a ++ b).
Proof. intros A f a p b H. induction a as [|x a IH]; cbn; [rewrite H; reflexivity|]. rewrite IH. reflexivity. Qed.
Lemma up_mem : forall (f : param -> string) k a p b, f p <> k -> mem k (map f (a ++ p :: b)) = mem k (map f (a ++ b)).
Proof.
  intros f k a p b H. unfold mem. rewrite !map_app. apply up_existsb. apply String.eqb_neq. congruence.
Qed.
Lemma up_value : forall a p b c n, p_category p <> c -> param_value (a ++ p :: b) c n = param_value (a ++ b) c n.
Proof.
  intros a p b c n H. unfold param_value. rewrite up_find; [reflexivity|].
  apply String.eqb_neq in H. rewrite H. reflexivity.
Qed.
Lemma up_group : forall ext a p b, ext (p_category p) = None -> parse_group ext (a ++ p :: b) = parse_group ext (a ++ b).
Proof.
  intros ext a p b H. unfold parse_group.
  assert (E : group_rows ext (a ++ p :: b) = group_rows ext (a ++ b)).
  { apply up_flat_map. rewrite H. reflexivity. }
  rewrite E. reflexivity.
Qed.
Lemma up_all : forall A B (f g : A -> result B) l, (forall x, f x = g x) -> result_all (map f l) = result_all (map g l).
Proof. intros A B f g l H. f_equal. apply map_ext. exact H. Qed.
Lemma up_nat_max : forall a p b, list_max (a ++ p :: b) = Nat.max p (list_max (a ++ b)).
Proof. intros. rewrite !list_max_app. cbn. fold (list_max b). lia. Qed.
Lemma up_variables : forall k a p b, ~ substring (k ++ "_") (p_category p) ->
  parse_variables k (a ++ p :: b) = parse_variables k (a ++ b).
Proof.
  intros k a p b H. unfold parse_variables.
  assert (E : parse_names k (map p_category (a ++ p :: b)) = parse_names k (map p_category (a ++ b))).
  { unfold parse_names. rewrite !map_app. cbn [map].
    rewrite (up_flat_map _ _ (fun c => match after_prefix (k ++ "_") c with Some r => [before_last_underscore r] | None => [] end)); [reflexivity|].
    destruct (after_prefix (k ++ "_") (p_category p)) as [r|] eqn:A; [|reflexivity].
    exfalso. apply H. apply up_after in A. exists "", r. exact A. }
  rewrite E. destruct (parse_names k (map p_category (a ++ b))) as [names| | | | |]; try reflexivity. cbn [result_bind].
  apply up_all. intros n. rewrite up_group; [reflexivity|]. unfold level_pattern. apply up_extract.
  rewrite <- up_append_assoc. apply up_longer. exact H.
Qed.

Section Unknown.
Variables (n_periods : nat) (covariates : list (string * string)) (a b : list param) (p : param).
Hypothesis UN : unknown_parameter covariates p.

Local Ltac key := match goal with |- ~ substring ?k (p_category _) => apply (un_keywords _ _ UN k); cbn; auto 12 end.

Lemma up_neq : forall k, substring "shocks_sdcorr" k \/ substring "shocks_cov" k \/ substring "shocks_chol" k \/ substring "wage_" k \/
  substring "nonpec_" k \/ substring "type_" k -> p_category p <> k.
Proof.
  intros k H E. subst k. destruct H as [H|[H|[H|[H|[H|H]]]]];
  refine (un_keywords _ _ UN _ _ H); cbn; auto 12.
Qed.

Lemma up_choices : parse_choices (map fst (a ++ p :: b)) covariates = parse_choices (map fst (a ++ b)) covariates.
Proof.
  unfold parse_choices.
  assert (E1 : infer_choices_with_experience (map fst (a ++ p :: b)) covariates = infer_choices_with_experience (map fst (a ++ b)) covariates).
  { unfold infer_choices_with_experience. f_equal. f_equal.
    - rewrite !map_app. cbn [map]. apply up_flat_map. unfold findall. apply up_findall. apply (un_name _ _ UN). cbn. auto.
    - rewrite !map_app. cbn [map]. pose proof (un_covariates _ _ UN) as UC. clear UN. revert UC.
      induction covariates as [|[c f] cs IH]; intros UC; [reflexivity|]. cbn [filter fst].
      assert (IH' := IH (fun f H => UC f (or_intror H))). clear IH.
      rewrite !existsb_app. cbn [existsb].
      destruct (String.eqb_spec c (snd (fst p))) as [E|E].
      + assert (N : findall "exp_" is_name f = []) by (apply up_findall; apply UC; left; subst c; reflexivity).
        rewrite orb_true_l, orb_true_r. cbn [flat_map snd]. rewrite N, IH'.
        match goal with |- context [if ?x then _ else _] => destruct x end; cbn [flat_map snd]; rewrite ?N; reflexivity.
      + rewrite orb_false_l. match goal with |- context [if ?x then _ else _] => destruct x end; cbn [flat_map snd]; rewrite IH'; reflexivity. }
  assert (E2 : forall k, ~ substring (k ++ "_") (p_category p) ->
    infer_choices_with_prefix (map fst (a ++ p :: b)) k = infer_choices_with_prefix (map fst (a ++ b)) k).
  { intros k H. unfold infer_choices_with_prefix. f_equal. rewrite !map_app. cbn [map]. apply up_flat_map.
    change (fst (fst p)) with (p_category p). rewrite up_extract by exact H. reflexivity. }
  rewrite E1, !E2 by (cbn [append]; key). reflexivity.
Qed.

Lemma up_coefficients : forall k, p_category p <> k -> coefficients_of k (a ++ p :: b) = coefficients_of k (a ++ b).
Proof.
  intros k H. unfold coefficients_of. rewrite up_mem by exact H. rewrite up_filter by (apply String.eqb_neq; exact H). reflexivity.
Qed.

Lemma up_shock_kind : shocks_kind (map p_category (a ++ p :: b)) = shocks_kind (map p_category (a ++ b)).
Proof.
  unfold shocks_kind. cbn [filter append].
  rewrite !up_mem; [reflexivity| | |]; apply up_neq; [right; right; left|right; left|left]; exists "", ""; reflexivity.
Qed.
Lemma up_shock_values : forall k, shock_values k (a ++ p :: b) = shock_values k (a ++ b).
Proof.
  intros k. unfold shock_values. f_equal. apply up_filter. apply String.eqb_neq. apply up_neq.
  destruct k; [left|right; left|right; right; left]; exists "", ""; reflexivity.
Qed.

Lemma unknown_ignored : parse_parameters n_periods covariates (a ++ p :: b) = parse_parameters n_periods covariates (a ++ b) /\
  process_parameters n_periods covariates (a ++ p :: b) = process_parameters n_periods covariates (a ++ b).
Proof.
  assert (P : parse_parameters n_periods covariates (a ++ p :: b) = parse_parameters n_periods covariates (a ++ b)).
  { unfold parse_parameters.
    assert (D : parse_discounting (a ++ p :: b) = parse_discounting (a ++ b)).
    { unfold parse_discounting. rewrite !up_value; [reflexivity| |]; intros E; apply (un_categories _ _ UN); rewrite E; cbn; auto. }
    rewrite D, !up_variables by (cbn [append]; key). rewrite up_choices, up_shock_kind.
    assert (X : forall c, parse_experience n_periods (a ++ p :: b) c = parse_experience n_periods (a ++ b) c).
    { intros c. unfold parse_experience. rewrite up_group by (apply up_extract; apply up_longer; key).
      rewrite up_value; [reflexivity|]. intros E. apply (un_categories _ _ UN). rewrite E. cbn. auto. }
    rewrite (up_all _ _ _ _ _ X).
    assert (M : forall c w, parse_measurement_errors c w (a ++ p :: b) = parse_measurement_errors c w (a ++ b)).
    { intros c w. unfold parse_measurement_errors.
      assert (N : p_category p <> "meas_error") by (intros E; apply (un_categories _ _ UN); rewrite E; cbn; auto).
      rewrite up_mem by exact N. rewrite (up_all _ _ _ (fun c => param_value (a ++ b) "meas_error" ("sd_" ++ c))); [reflexivity|].
      intros x. apply up_value. exact N. }
    rewrite M.
    assert (T : parse_types (a ++ p :: b) = parse_types (a ++ b)).
    { unfold parse_types. rewrite up_mem by (apply up_neq; do 5 right; exists "", "0"; reflexivity).
      rewrite up_mem.
      2: { intros E. refine (un_name _ _ UN "type_" _ _); [cbn; auto|]. rewrite E. exists "", "0". reflexivity. }
      assert (I : infer_number_of_types (a ++ p :: b) = infer_number_of_types (a ++ b)).
      { unfold infer_number_of_types. f_equal. rewrite !map_app. cbn [map]. rewrite up_nat_max.
        rewrite up_extract by (apply (un_name _ _ UN); cbn; auto). reflexivity. }
      rewrite I, up_group by (apply up_extract; key). reflexivity. }
    rewrite T.
    assert (L : forall c, parse_lagged_choices c covariates (a ++ p :: b) = parse_lagged_choices c covariates (a ++ b)).
    { intros c. unfold parse_lagged_choices. apply up_all. intros k. unfold parse_lag.
      rewrite up_group by (apply up_search; apply up_longer; key). reflexivity. }
    rewrite L.
    assert (R1 : forall c, parse_choice_parameters c (a ++ p :: b) = parse_choice_parameters c (a ++ b)).
    { intros c. unfold parse_choice_parameters. apply map_ext. intros x.
      rewrite !up_coefficients; [reflexivity| |]; apply up_neq; [do 4 right; left|do 3 right; left]; exists "", x; reflexivity. }
    rewrite R1.
    destruct (parse_discounting (a ++ b)) as [x1| | | | |]; try reflexivity. cbn [result_bind].
    destruct (parse_variables "exogenous_process" (a ++ b)) as [x2| | | | |]; try reflexivity. cbn [result_bind].
    destruct (result_bind (parse_variables "observable" (a ++ b)) (merge_observables x2)) as [x3| | | | |]; try reflexivity. cbn [result_bind].
    destruct (result_all _) as [x4| | | | |]; try reflexivity. cbn [result_bind].
    destruct (shocks_kind _) as [x5| | | | |]; try reflexivity. cbn [result_bind]. rewrite up_shock_values. reflexivity. }
  split; [exact P|]. unfold process_parameters. rewrite P. destruct (parse_parameters n_periods covariates (a ++ b)) as [mp| | | | |]; try reflexivity.
  cbn [result_bind].
  assert (V : validate_shocks (pc_choices (mp_choices mp)) (a ++ p :: b) = validate_shocks (pc_choices (mp_choices mp)) (a ++ b)).
  { unfold validate_shocks.
    rewrite !up_mem; [|apply up_neq; right; left|apply up_neq; left]; try (exists "", ""; reflexivity).
    rewrite up_filter; [reflexivity|]. unfold is_shock.
    destruct (existsb _ _) eqn:E; [|reflexivity]. exfalso. apply existsb_exists in E. destruct E as [k [I E]].
    apply orb_true_iff in E. rewrite !substring_contains in E. destruct E as [E|E].
    - refine (un_keywords _ _ UN _ _ E). destruct I as [<-|[<-|[<-|[]]]]; cbn; auto 12.
    - refine (un_name _ _ UN _ _ E). destruct I as [<-|[<-|[<-|[]]]]; cbn; auto 12. }
  rewrite V. reflexivity.
Qed.
End Unknown.

Lemma rewards_from : forall category params, coefficients_from params category (coefficients_of category params).
Proof.
  intros c params. unfold coefficients_of. destruct (mem c (map p_category params)) eqn:E; cbn.
  - split.
    + unfold mem in E. apply existsb_exists in E. destruct E as [x [I E]]. apply String.eqb_eq in E. subst x.
      apply in_map_iff in I. destruct I as [q [E I]]. intros N.
      assert (J : In q (filter (fun p => String.eqb (p_category p) c) params)).
      { apply filter_In. split; [exact I|]. apply String.eqb_eq. exact E. }
      apply (in_map (fun p => (p_name p, snd p))) in J. rewrite N in J. destruct J.
    + intros n v. rewrite in_map_iff. split.
      * intros [[[d m] w] [X I]]. apply filter_In in I. destruct I as [I Q]. apply String.eqb_eq in Q. cbn in X, Q. injection X as <- <-. subst d. exact I.
      * intros I. exists (c, n, v). split; [reflexivity|]. apply filter_In. split; [exact I|]. apply String.eqb_refl.
  - intros n v I. assert (X : mem c (map p_category params) = true); [|congruence].
    unfold mem. apply existsb_exists. exists c. split; [|apply String.eqb_refl]. apply in_map_iff. exists (c, n, v). auto.
Qed.

Lemma rewards_found : forall n_periods covariates params mp, process_parameters n_periods covariates params = Ok mp ->
  map fst (mp_rewards mp) = pc_choices (mp_choices mp) /\
  forall c w n, In (c, (w, n)) (mp_rewards mp) ->
    coefficients_from params ("wage_" ++ c)%string w /\ coefficients_from params ("nonpec_" ++ c)%string n.
Proof.
  intros n_periods covariates params mp H. unfold process_parameters in H.
  destruct (parse_parameters n_periods covariates params) as [m| | | | |] eqn:E; try discriminate. cbn [result_bind] in H.
  destruct (validate_shocks _ _) as [u| | | | |]; try discriminate. injection H as <-.
  unfold parse_parameters in E.
  destruct (parse_discounting params) as [x1| | | | |]; try discriminate. cbn [result_bind] in E.
  destruct (parse_variables "exogenous_process" params) as [x2| | | | |]; try discriminate. cbn [result_bind] in E.
  destruct (result_bind (parse_variables "observable" params) (merge_observables x2)) as [x3| | | | |]; try discriminate. cbn [result_bind] in E.
  destruct (result_all (map _ (pc_choices_w_exp _))) as [x4| | | | |]; try discriminate. cbn [result_bind] in E.
  destruct (shocks_kind _) as [x5| | | | |]; try discriminate. cbn [result_bind] in E.
  destruct (parse_measurement_errors _ _ _) as [x6| | | | |]; try discriminate. cbn [result_bind] in E.
  destruct (parse_types _) as [x7| | | | |]; try discriminate. cbn [result_bind] in E.
  destruct (parse_lagged_choices _ _ _) as [x8| | | | |]; try discriminate. cbn [result_bind] in E. injection E as <-.
  cbn [mp_rewards mp_choices]. unfold parse_choice_parameters. split.
  - rewrite map_map. apply map_id.
  - intros c w n I. apply in_map_iff in I. destruct I as [d [X _]]. injection X as <- <- <-. split; apply rewards_from.
Qed.
