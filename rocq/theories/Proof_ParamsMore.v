(** Consequences for the properties of parameters. *)
From Coq Require Import List Arith Bool String Ascii Reals Lra Lia Permutation Sorted.
From Verif Require Import Base Proof_Base Model_Strings Proof_Strings Model_Cache Model_Choices Spec_Choices Proof_Regex Proof_Choices
  Spec_Solve Proof_Likelihood Model_Params Spec_Params Proof_Params Proof_Types Proof_Names.
Import ListNotations.
Open Scope string_scope.
Local Open Scope nat_scope.

Lemma parse_group_keys : forall ext params c, parse_group ext params = Ok (Some c) ->
  forall l, In l (map fst c) <-> exists p s, describes ext params p s /\ level_of ext params s l.
Proof.
  intros ext params c H l.
  assert (K : map fst c = isort level_leb (drop_duplicates level_eq_dec (map (lv ext params) (map fst (group_rows ext params))))).
  { unfold parse_group in H. rewrite to_numeric_lv in H. destruct (Nat.eqb (List.length (group_rows ext params)) 0); [discriminate|].
    set (u := isort _ _) in *.
    destruct (_ && _); [|destruct (Nat.ltb 0 _)]; [| discriminate |]; inversion H; rewrite map_map; cbn [fst]; apply map_id. }
  rewrite K, In_isort, In_drop_duplicates, in_map_iff. split.
  - intros [s [E I]]. apply in_map_iff in I. destruct I as [[t [n v]] [Et I]]. cbn in Et. subst t.
    apply In_group_rows in I. destruct I as [p [D _]]. exists p, s. split; [exact D|]. apply level_of_iff. auto.
  - intros [p [s [D E]]]. apply level_of_iff in E. exists s. split; [auto|]. apply in_map_iff.
    exists (s, (p_name p, snd p)). split; [reflexivity|]. apply In_group_rows. exists p. auto.
Qed.

Lemma parse_group_none : forall ext params, parse_group ext params = Ok None <-> ~ exists p s, describes ext params p s.
Proof.
  intros ext params. unfold parse_group. destruct (Nat.eqb_spec (List.length (group_rows ext params)) 0) as [Z|Z].
  - split; [|reflexivity]. intros _ [p [s D]].
    assert (I : In (s, (p_name p, snd p)) (group_rows ext params)) by (apply In_group_rows; exists p; auto).
    destruct (group_rows ext params); [destruct I|discriminate].
  - split.
    + destruct (_ && _); [discriminate|]. destruct (Nat.ltb _ _); discriminate.
    + intros H. exfalso. apply H. destruct (group_rows ext params) as [|[s [n v]] r] eqn:G; [contradiction|].
      assert (I : In (s, (n, v)) (group_rows ext params)) by (rewrite G; left; reflexivity).
      apply In_group_rows in I. destruct I as [p [D _]]. exists p, s. exact D.
Qed.

(** Every level gets a positive probability. *)
Lemma always_positive : forall ext params,
  (forall p s, describes ext params p s -> p_name p = "probability") ->
  distinct_levels ext params ->
  forall p s l, describes ext params p s -> level_of ext params s l ->
  exists c, parse_group ext params = Ok (Some c) /\ (0 < logit_probability c l)%R.
Proof.
  intros ext params ALL D p s l H E.
  assert (NE : exists p s, describes ext params p s) by (exists p, s; exact H).
  pose proof (parse_probabilities ext params NE ALL D) as P. eexists. split; [exact P|].
  set (c := single_container _ _) in *.
  assert (I : In l (map fst c)) by (apply (parse_group_keys ext params c P); exists p, s; auto).
  unfold logit_probability. destruct (dict_get level_eq_dec l c) as [rows|] eqn:G.
  - apply Rdiv_lt_0_compat; [apply exp_pos|].
    rewrite <- (map_map (fun lr => logit_index (snd lr)) exp). apply rsum_exp_pos.
    destruct c; [destruct I|discriminate].
  - apply dict_get_None in G. contradiction.
Qed.

(** ** Two experience levels *)

Definition exp_ext : string -> option string := extract "initial_exp_edu_" is_digit.
Definition exp_params (a b : R) : list param :=
  [("initial_exp_edu_0", "probability", a); ("delta", "delta", 1%R); ("initial_exp_edu_1", "probability", b)].

Lemma exp_describes : forall a b p s, describes exp_ext (exp_params a b) p s <->
  (p = ("initial_exp_edu_0", "probability", a) /\ s = "0") \/ (p = ("initial_exp_edu_1", "probability", b) /\ s = "1").
Proof.
  intros a b p s. unfold describes, exp_params. cbn [In]. split.
  - intros [[<-|[<-|[<-|[]]]] E]; vm_compute in E; inversion E; subst; auto.
  - intros [[-> ->]|[-> ->]]; (split; [auto|reflexivity]).
Qed.
Lemma exp_numeric : forall a b, numeric_levels exp_ext (exp_params a b).
Proof. intros a b p s H. apply exp_describes in H. destruct H as [[_ ->]|[_ ->]]; reflexivity. Qed.
Lemma exp_level : forall a b s l, level_of exp_ext (exp_params a b) s l <-> l = Number (digits_value 0 s).
Proof.
  intros a b s l. split; [intros [H|H]; [reflexivity|exfalso; apply H; apply exp_numeric] | intros ->; constructor; apply exp_numeric].
Qed.
Lemma exp_distinct : forall a b, distinct_levels exp_ext (exp_params a b).
Proof.
  intros a b i j p q s t l I J A B E F. apply exp_level in E. apply exp_level in F.
  destruct i as [|[|[|i]]], j as [|[|[|j]]]; cbn in I, J; try reflexivity; try (destruct i; discriminate); try (destruct j; discriminate);
    inversion I; inversion J; subst p q; vm_compute in A, B; try discriminate; inversion A; inversion B; subst s t; vm_compute in E, F; congruence.
Qed.
Lemma exp_total : forall a b, group_total exp_ext (exp_params a b) = (a + b)%R.
Proof.
  intros a b. unfold group_total, exp_params. cbn [filter].
  change (exp_ext (p_category ("initial_exp_edu_0", "probability", a))) with (Some "0").
  change (exp_ext (p_category ("delta", "delta", 1%R))) with (@None string).
  change (exp_ext (p_category ("initial_exp_edu_1", "probability", b))) with (Some "1").
  cbn. ring.
Qed.
Lemma exp_probability_names : forall a b p s, describes exp_ext (exp_params a b) p s -> p_name p = "probability".
Proof. intros a b p s H. apply exp_describes in H. destruct H as [[-> _]|[-> _]]; reflexivity. Qed.

Lemma MAX_ge_1 : (1 <= MAX_FLOAT)%R.
Proof. unfold MAX_FLOAT. apply pow_R1_Rle. lra. Qed.
Lemma div_MAX_le : forall x, (0 <= x)%R -> (x / MAX_FLOAT <= x)%R.
Proof.
  intros x X. pose proof MAX_ge_1 as M. apply (Rmult_le_reg_r MAX_FLOAT); [lra|].
  replace (x / MAX_FLOAT * MAX_FLOAT)%R with (x * 1)%R by (field; lra).
  apply Rmult_le_compat_l; lra.
Qed.

Lemma zero_refuted : exists ext params p s l c,
  (forall p s, describes ext params p s -> p_name p = "probability") /\ distinct_levels ext params /\
  group_total ext params = 1%R /\ (forall p s, describes ext params p s -> (0 <= snd p)%R) /\
  describes ext params p s /\ level_of ext params s l /\ snd p = 0%R /\
  parse_group ext params = Ok (Some c) /\ (0 < logit_probability c l)%R.
Proof.
  set (p := ("initial_exp_edu_1", "probability", 0%R)).
  assert (H : describes exp_ext (exp_params 1 0) p "1") by (apply exp_describes; right; auto).
  assert (L : level_of exp_ext (exp_params 1 0) "1" (Number 1)) by (apply exp_level; reflexivity).
  destruct (always_positive exp_ext (exp_params 1 0) (exp_probability_names 1 0) (exp_distinct 1 0) p "1" _ H L) as [c [P Q]].
  exists exp_ext, (exp_params 1 0), p, "1", (Number 1), c.
  split; [apply exp_probability_names|]. split; [apply exp_distinct|]. split; [rewrite exp_total; ring|].
  split; [|split; [exact H|split; [exact L|split; [reflexivity|split; [exact P|exact Q]]]]].
  intros q s D. apply exp_describes in D. destruct D as [[-> _]|[-> _]]; cbn; lra.
Qed.
Lemma negative_refuted : exists ext params p s c,
  group_total ext params = 1%R /\ describes ext params p s /\ (snd p < 0)%R /\ parse_group ext params = Ok (Some c).
Proof.
  set (p := ("initial_exp_edu_1", "probability", (-1)%R)).
  assert (H : describes exp_ext (exp_params 2 (-1)) p "1") by (apply exp_describes; right; auto).
  assert (L : level_of exp_ext (exp_params 2 (-1)) "1" (Number 1)) by (apply exp_level; reflexivity).
  destruct (always_positive exp_ext (exp_params 2 (-1)) (exp_probability_names 2 (-1)) (exp_distinct 2 (-1)) p "1" _ H L) as [c [P Q]].
  exists exp_ext, (exp_params 2 (-1)), p, "1", c. split; [rewrite exp_total; ring|]. split; [exact H|]. split; [cbn; lra|exact P].
Qed.

(** ** Codes of levels *)

Lemma same_levels : forall exog obs merged e ec, merge_observables exog obs = Ok merged ->
  NoDup (map fst exog) -> NoDup (map fst obs) -> In (e, ec) exog -> StronglySorted level_lt (map fst ec) ->
  (forall c, In (e, c) obs -> StronglySorted level_lt (map fst c) /\ forall l, In l (map fst c) -> In l (map fst ec)) ->
  exists c', dict_get string_dec e merged = Some c' /\ map fst c' = map fst ec.
Proof.
  intros exog obs merged e ec M N NO I S H. destruct (merge_ok exog obs merged M N NO) as [A B].
  destruct (A e ec I) as [c' [G [INC NEW]]]. exists c'. split; [exact G|].
  destruct (in_dec string_dec e (map fst obs)) as [J|J]; [|apply NEW; exact J].
  apply in_map_iff in J. destruct J as [[o c] [E J]]. cbn in E. subst o.
  destruct (B e c J) as [c'' [G' E]]. rewrite G in G'. inversion G'; subst c''. rewrite E in *.
  destruct (H c J) as [S' H']. apply strongly_sorted_levels_unique; auto. intros l. split; auto.
Qed.

(** ** Lagged choices *)

Definition lag_ext (lag : nat) : string -> option string := search ("lagged_choice_" ++ dec lag ++ "_") is_name.

Lemma search_class : forall p cls s g, search p cls s = Some g -> g <> "" /\ all_chars cls g = true.
Proof.
  intros p cls s. induction s as [|c r IH]; intros g; cbn [search].
  - destruct (after_prefix p "") as [rest|]; [|discriminate].
    destruct (String.eqb_spec (fst (span cls rest)) "") as [_|NE]; [discriminate|]. intros E. inversion E; subst.
    split; [exact NE|]. pose proof (span_app cls rest) as A. destruct (span cls rest). apply A.
  - destruct (after_prefix p (String c r)) as [rest|]; [|apply IH].
    destruct (String.eqb_spec (fst (span cls rest)) "") as [_|NE]; [apply IH|]. intros E. inversion E; subst.
    split; [exact NE|]. pose proof (span_app cls rest) as A. destruct (span cls rest). apply A.
Qed.
Lemma name_not_digits : forall g, g <> "" -> all_chars is_name g = true -> all_digits g = false.
Proof.
  intros g NE H. destruct (all_digits g) eqn:A; [|reflexivity]. apply all_digits_iff in A. destruct A as [_ A].
  destruct g as [|c g]; [contradiction|]. cbn in H, A. apply andb_true_iff in H, A. destruct H as [H _], A as [A _].
  exfalso. revert H A. destruct c as [[] [] [] [] [] [] [] []]; cbv; discriminate.
Qed.
Lemma lag_level : forall lag params p s l, describes (lag_ext lag) params p s -> (level_of (lag_ext lag) params s l <-> l = Label s).
Proof.
  intros lag params p s l D.
  assert (NN : ~ numeric_levels (lag_ext lag) params).
  { intros N. pose proof (N p s D) as A. destruct D as [_ E]. apply search_class in E. destruct E as [E1 E2].
    rewrite (name_not_digits s E1 E2) in A. discriminate. }
  split; [intros [H|H]; [contradiction|reflexivity] | intros ->; constructor; exact NN].
Qed.

Lemma lag_known : forall choices params lag c,
  parse_lag choices params lag = Ok c -> (forall p s, describes (lag_ext lag) params p s -> In s choices) ->
  map fst c = map Label choices.
Proof.
  intros choices params lag c H K. unfold parse_lag in H. fold (lag_ext lag) in H.
  destruct (parse_group (lag_ext lag) params) as [[c0|]| | | | |] eqn:P; cbn [result_bind] in H; try discriminate;
    inversion H; subst; [|rewrite map_map; reflexivity].
  change (map fst (dict_update level_eq_dec (map (fun c => (Label c, constant MIN_FLOAT)) choices) c0))
    with (dict_keys (dict_update level_eq_dec (map (fun c => (Label c, constant MIN_FLOAT)) choices) c0)).
  rewrite dict_keys_update_incl; [unfold dict_keys; rewrite map_map; reflexivity|].
  intros l I. apply (parse_group_keys _ _ _ P) in I. destruct I as [p [s [D E]]]. apply (lag_level lag params p s l D) in E. subst l.
  unfold dict_keys. rewrite map_map. cbn [fst]. apply in_map. exact (K p s D).
Qed.

Lemma lag_unknown : forall choices params lag c p s,
  parse_lag choices params lag = Ok c -> describes (lag_ext lag) params p s -> ~ In s choices ->
  exists i, List.length choices <= i /\ nth_error (map fst c) i = Some (Label s).
Proof.
  intros choices params lag c p s H D NI.
  destruct (lag_codes choices params lag c H) as [l E].
  assert (I : In (Label s) (map fst c)).
  { unfold parse_lag in H. fold (lag_ext lag) in H.
    destruct (parse_group (lag_ext lag) params) as [[c0|]| | | | |] eqn:P; cbn [result_bind] in H; try discriminate; inversion H; subst.
    - apply (In_keys_update level_eq_dec). right. apply (parse_group_keys _ _ _ P). exists p, s. split; [exact D|].
      apply (lag_level lag params p s _ D). reflexivity.
    - exfalso. apply (parse_group_none (lag_ext lag) params); [exact P|]. exists p, s. exact D. }
  rewrite E in I. apply in_app_iff in I. destruct I as [I|I].
  - exfalso. apply NI. apply in_map_iff in I. destruct I as [x [X I]]. inversion X; subst. exact I.
  - apply In_nth_error in I. destruct I as [k K]. exists (List.length choices + k). split; [lia|].
    rewrite E, nth_error_app2 by (rewrite map_length; lia). rewrite map_length.
    replace (List.length choices + k - List.length choices) with k by lia. exact K.
Qed.
