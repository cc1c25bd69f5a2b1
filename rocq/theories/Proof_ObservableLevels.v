(** Proofs about the levels of observables. *)
From Coq Require Import List Arith Bool String Ascii Reals ZArith Lia Sorted Classical_Prop.
From Verif Require Import Base Proof_Base Model_Strings Proof_Strings Proof_Regex Model_Cache Model_Choices Spec_Choices Proof_Choices Spec_Solve
  Model_Params Model_Processing Spec_Params Proof_Params Proof_ParamsMore Proof_Names Model_ParseParameters Spec_ObservableLevels.
Import ListNotations.
Open Scope string_scope.
Open Scope list_scope.

Lemma ol_split : forall n n' l l', (n ++ "_" ++ l)%string = (n' ++ "_" ++ l')%string -> ~ substring "_" l' ->
  exists y, n' = (n ++ y)%string /\ (y = "" -> l = l').
Proof.
  induction n as [|c n IH]; intros [|c' n'] l l' E NU; simpl in E.
  - injection E as ->. exists "". auto.
  - exists (String c' n'). split; [reflexivity|discriminate].
  - injection E as -> E. exfalso. apply NU. exists n, l. symmetry. exact E.
  - injection E as -> E. destruct (IH n' l l' E NU) as [y [-> H]]. exists y. auto.
Qed.

Lemma ol_level_word : forall c, is_level c = true -> is_word c = true.
Proof.
  intros c H. unfold is_level, is_word, is_letter in *. destruct (is_digit c), (is_lower c), (is_upper c), (Ascii.eqb c "_"); auto.
Qed.
Lemma ol_level_chars : forall l, all_chars (fun c => is_digit c || is_lower c) l = true -> all_chars is_level l = true.
Proof.
  induction l as [|c l IH]; simpl; [reflexivity|]. intros H. apply andb_true_iff in H. destruct H as [H1 H2].
  rewrite (IH H2), andb_true_r. unfold is_level. rewrite H1. reflexivity.
Qed.

Section Levels.
Variables (keyword : string) (params : list param) (rows : list (string * string)).
Hypothesis VA : variables keyword params rows.

Lemma ol_row : forall p, In p params -> forall r, p_category p = ((keyword ++ "_") ++ r)%string ->
  exists n l, In (n, l) rows /\ p_category p = observable_category keyword (n, l).
Proof.
  intros p Hp r E. assert (I : In (p_category p) (filter (prefix (keyword ++ "_")) (map p_category params))).
  { apply filter_In. split; [apply in_map; exact Hp|]. apply prefix_iff. eauto. }
  rewrite (va_rows _ _ _ VA) in I. apply in_map_iff in I. destruct I as [[n l] [X I]]. exists n, l. auto.
Qed.
Lemma ol_param : forall n l, In (n, l) rows -> exists p, In p params /\ p_category p = observable_category keyword (n, l).
Proof.
  intros n l I. apply (in_map (observable_category keyword)) in I. rewrite <- (va_rows _ _ _ VA) in I.
  apply filter_In in I. destruct I as [I _]. apply in_map_iff in I. destruct I as [p [E I]]. eauto.
Qed.

(** The pattern finds exactly the levels of the variable. *)
Lemma ol_pattern : forall n, In n (map fst rows) -> forall p s,
  describes (level_pattern keyword n) params p s <-> In p params /\ p_category p = observable_category keyword (n, s) /\ In (n, s) rows.
Proof.
  intros n Hn p s. unfold describes.
  assert (W : word (keyword ++ "_" ++ n ++ "_")%string).
  { apply in_map_iff in Hn. destruct Hn as [[m l] [E I]]. cbn in E. subst m. destruct (ol_param n l I) as [q [Hq Eq]].
    pose proof (va_words _ _ _ VA q Hq) as Wq. rewrite Eq in Wq. unfold observable_category, word in *. cbn [fst snd] in Wq.
    rewrite !all_chars_append in *. cbn in *. rewrite !andb_true_iff in *. tauto. }
  assert (NE : (keyword ++ "_" ++ n ++ "_")%string <> "") by (destruct keyword; discriminate).
  split.
  - intros [Hp H]. unfold level_pattern in H.
    apply (extract_word_iff _ _ NE W ol_level_word) in H; [|apply (va_words _ _ _ VA); exact Hp]. destruct H as [_ H].
    destruct (ol_row p Hp (n ++ "_" ++ s)%string) as [n' [l' [I E]]]. { rewrite H, !append_assoc_s. reflexivity. }
    assert (X : (n ++ "_" ++ s)%string = (n' ++ "_" ++ l')%string).
    { rewrite E in H. unfold observable_category in H. cbn [fst snd] in H. rewrite !append_assoc_s in H. apply append_inj_l in H.
      change (String "_" (n' ++ String "_" l') = String "_" (n ++ String "_" s)) in H. injection H as H. symmetry. exact H. }
    destruct (va_simple _ _ _ VA n' l' I) as [_ [NU _]].
    destruct (ol_split n n' s l' X NU) as [y [Y1 Y2]].
    assert (EN : n = n').
    { apply (va_names _ _ _ VA); [exact Hn|apply in_map_iff; exists (n', l'); auto|]. exists "", y. exact Y1. }
    assert (EY : y = "").
    { assert (L : String.length n = String.length (n ++ y)) by (rewrite <- Y1, <- EN; reflexivity). rewrite length_append in L.
      destruct y; [reflexivity|simpl in L; lia]. }
    rewrite (Y2 EY), EN. auto.
  - intros [Hp [E I]]. split; [exact Hp|]. unfold level_pattern.
    apply (extract_word_iff _ _ NE W ol_level_word); [apply (va_words _ _ _ VA); exact Hp|].
    destruct (va_levels _ _ _ VA n s I) as [L1 L2]. split; [split; [exact L1|apply ol_level_chars; exact L2]|].
    rewrite E. unfold observable_category. cbn [fst snd]. rewrite !append_assoc_s. reflexivity.
Qed.

Lemma ol_written : forall n, In n (map fst rows) -> forall s l, In (n, s) rows ->
  (level_of (level_pattern keyword n) params s l <-> written_as rows n s l).
Proof.
  intros n Hn s l I.
  assert (NU : numeric_levels (level_pattern keyword n) params <-> forall l', In (n, l') rows -> all_digits l' = true).
  { unfold numeric_levels. split.
    - intros H l' I'. destruct (ol_param n l' I') as [q [Hq E]]. apply (H q l'). apply (ol_pattern n Hn). auto.
    - intros H p t D. apply (ol_pattern n Hn) in D. apply H. apply D. }
  assert (NN : ~ numeric_levels (level_pattern keyword n) params <-> exists l', In (n, l') rows /\ all_digits l' = false).
  { rewrite NU. split.
    - intros H. apply NNPP. intros X. apply H. intros l' I'. destruct (all_digits l') eqn:E; [reflexivity|]. exfalso. eauto.
    - intros [l' [I' E]] H. rewrite (H l' I') in E. discriminate. }
  split.
  - intros H. inversion H; subst; [left|right]; split; auto; [apply NU|apply NN]; assumption.
  - intros [[H ->]|[H ->]]; [apply level_number; apply NU|apply level_label; apply NN]; exact H.
Qed.

Lemma ol_mixture : forall n, In n (map fst rows) ->
  (parse_group (level_pattern keyword n) params = ValueError <-> mixture keyword params rows n).
Proof.
  intros n Hn. rewrite mixing. unfold mixture.
  assert (D : forall p s, describes (level_pattern keyword n) params p s <-> In p params /\ p_category p = observable_category keyword (n, s)).
  { intros p s. rewrite (ol_pattern n Hn). split; [tauto|]. intros [Hp E]. split; [exact Hp|]. split; [exact E|].
    destruct (ol_row p Hp (n ++ "_" ++ s)%string) as [n' [l' [I X]]].
    { rewrite E. unfold observable_category. cbn [fst snd]. rewrite !append_assoc_s. reflexivity. }
    assert (Y : (n ++ "_" ++ s)%string = (n' ++ "_" ++ l')%string).
    { rewrite E in X. unfold observable_category in X. cbn [fst snd] in X. apply append_inj_l in X.
      change (String "_" (n ++ String "_" s) = String "_" (n' ++ String "_" l')) in X. injection X as X. exact X. }
    destruct (va_simple _ _ _ VA n' l' I) as [_ [NU _]].
    destruct (ol_split n n' s l' Y NU) as [y [Y1 Y2]].
    assert (EN : n = n').
    { apply (va_names _ _ _ VA); [exact Hn|apply in_map_iff; exists (n', l'); auto|]. exists "", y. exact Y1. }
    assert (EY : y = "").
    { assert (L : String.length n = String.length (n ++ y)) by (rewrite <- Y1, <- EN; reflexivity). rewrite length_append in L.
      destruct y; [reflexivity|simpl in L; lia]. }
    rewrite (Y2 EY), EN. exact I. }
  assert (Q : forall P : param -> string -> Prop,
    (exists p s, describes (level_pattern keyword n) params p s /\ P p s) <->
    (exists p s, In p params /\ p_category p = observable_category keyword (n, s) /\ P p s)).
  { intros P. split; intros [p [s H]]; exists p, s; rewrite D in *; tauto. }
  rewrite (Q (fun p _ => p_name p = "probability")), (Q (fun p _ => p_name p <> "probability")).
  assert (R1 : ~ distinct_levels (level_pattern keyword n) params <->
    exists i j p q l l' level, i <> j /\ nth_error params i = Some p /\ nth_error params j = Some q /\
      p_category p = observable_category keyword (n, l) /\ p_category q = observable_category keyword (n, l') /\
      written_as rows n l level /\ written_as rows n l' level).
  { split.
    - intros H. apply NNPP. intros X. apply H. intros i j p q s t l Hi Hj Es Et Ls Lt.
      destruct (Nat.eq_dec i j) as [|N]; [assumption|]. exfalso. apply X.
      assert (Ds : describes (level_pattern keyword n) params p s) by (split; [apply (nth_error_In _ _ Hi)|exact Es]).
      assert (Dt : describes (level_pattern keyword n) params q t) by (split; [apply (nth_error_In _ _ Hj)|exact Et]).
      apply (ol_pattern n Hn) in Ds. apply (ol_pattern n Hn) in Dt. destruct Ds as [_ [Es' Is]]. destruct Dt as [_ [Et' It]].
      exists i, j, p, q, s, t, l. repeat split; auto; apply ol_written; auto.
    - intros [i [j [p [q [l [l' [level [N [Hi [Hj [Ei [Ej [Wi Wj]]]]]]]]]]]]] H. apply N.
      assert (Di : describes (level_pattern keyword n) params p l) by (apply D; split; [apply (nth_error_In _ _ Hi)|exact Ei]).
      assert (Dj : describes (level_pattern keyword n) params q l') by (apply D; split; [apply (nth_error_In _ _ Hj)|exact Ej]).
      pose proof (proj1 (ol_pattern n Hn _ _) Di) as [_ [_ Ii]]. pose proof (proj1 (ol_pattern n Hn _ _) Dj) as [_ [_ Ij]].
      apply (H i j p q l l' level Hi Hj (proj2 Di) (proj2 Dj)); apply ol_written; auto. }
  rewrite R1. reflexivity.
Qed.

Lemma ol_all : forall B (f : string -> result B) names,
  (forall n, In n names -> (exists b, f n = Ok b) \/ f n = ValueError) ->
  ((exists bs, result_all (map f names) = Ok bs) /\ (forall n, In n names -> exists b, f n = Ok b)) \/
  (result_all (map f names) = ValueError /\ exists n, In n names /\ f n = ValueError).
Proof.
  intros B f. induction names as [|n names IH]; intros H.
  - left. split; [exists []; reflexivity|intros n []].
  - destruct (H n (or_introl eq_refl)) as [[b E]|E]; cbn [map result_all]; rewrite E; cbn [result_bind].
    + destruct IH as [[[bs Eb] A]|[Eb [m [M1 M2]]]]; [intros m Hm; apply H; right; exact Hm| |]; rewrite Eb; cbn [result_bind].
      * left. split; [eauto|]. intros m [<-|Hm]; eauto.
      * right. split; [reflexivity|]. exists m. split; [right; exact M1|exact M2].
    + right. split; [reflexivity|]. exists n. split; [left; reflexivity|exact E].
Qed.

Lemma ol_parse : 
  (exists names, parse_names keyword (map p_category params) = Ok names /\ lists_alphabetically names (fun n => In n (map fst rows))).
Proof. apply names_ok with (rows := rows); [exact (va_rows _ _ _ VA)|exact (va_simple _ _ _ VA)|exact (va_names _ _ _ VA)]. Qed.

Lemma ol_group : forall n, In n (map fst rows) ->
  (exists c, parse_group (level_pattern keyword n) params = Ok (Some c)) \/ parse_group (level_pattern keyword n) params = ValueError.
Proof.
  intros n Hn. destruct (parse_group (level_pattern keyword n) params) as [[c|]| | | | |] eqn:E; eauto.
  2-5: unfold parse_group in E; destruct (Nat.eqb _ 0); try discriminate; destruct (_ && _); try discriminate; destruct (Nat.ltb _ _); discriminate.
  exfalso. apply parse_group_none in E. apply E.
  pose proof Hn as Hn'. apply in_map_iff in Hn'. destruct Hn' as [[m l] [X I]]. cbn in X. subst m.
  destruct (ol_param n l I) as [p [Hp Ep]]. exists p, l. apply (ol_pattern n Hn). auto.
Qed.

Lemma variables_accepted :
  ((exists vars, parse_variables keyword params = Ok vars) <-> forall n, In n (map fst rows) -> ~ mixture keyword params rows n) /\
  ((exists vars, parse_variables keyword params = Ok vars) \/ parse_variables keyword params = ValueError).
Proof.
  destruct ol_parse as [names [E [_ LN]]]. unfold parse_variables. rewrite E. cbn [result_bind].
  set (f := fun n => result_bind (parse_group (level_pattern keyword n) params) (fun c => match c with Some c => Ok (n, c) | None => OtherError end)).
  assert (F : forall n, In n names -> (exists b, f n = Ok b) \/ f n = ValueError).
  { intros n Hn. apply LN in Hn. destruct (ol_group n Hn) as [[c G]|G]; unfold f; rewrite G; cbn [result_bind]; eauto. }
  destruct (ol_all _ f names F) as [[[vars V] A]|[V [n [Hn N]]]]; rewrite V.
  - split; [|eauto]. split; [|eauto]. intros _ n Hn M. apply ol_mixture in M; [|exact Hn].
    destruct (A n) as [b B]; [apply LN; exact Hn|]. unfold f in B. rewrite M in B. discriminate.
  - split; [|auto]. split; [intros [vars X]; discriminate|]. intros H. exfalso. apply LN in Hn. apply (H n Hn). apply ol_mixture; [exact Hn|].
    destruct (ol_group n Hn) as [[c G]|G]; [|exact G]. unfold f in N. rewrite G in N. discriminate.
Qed.

Lemma ol_vars : forall vars, parse_variables keyword params = Ok vars ->
  lists_alphabetically (map fst vars) (fun n => In n (map fst rows)) /\
  forall n c, In (n, c) vars -> parse_group (level_pattern keyword n) params = Ok (Some c).
Proof.
  intros vars H. destruct ol_parse as [names [E LN]]. unfold parse_variables in H. rewrite E in H. cbn [result_bind] in H.
  assert (F : Forall2 (fun n v => fst v = n /\ parse_group (level_pattern keyword n) params = Ok (Some (snd v))) names vars).
  { clear E LN. revert vars H. induction names as [|n names IH]; intros vars H; cbn [map result_all] in H.
    - injection H as <-. constructor.
    - destruct (parse_group (level_pattern keyword n) params) as [[c|]| | | | |] eqn:G; try discriminate. cbn [result_bind] in H.
      destruct (result_all _) as [vs| | | | |] eqn:A in H; try discriminate. cbn [result_bind] in H. injection H as <-.
      constructor; [cbn; auto|]. apply IH. exact A. }
  assert (M : map fst vars = names) by (clear - F; induction F as [|n v names vars [X _] F IH]; cbn; congruence).
  split; [rewrite M; exact LN|].
  intros n c I. clear - F I. induction F as [|m v names vars [X Y] F IH]; [destruct I|].
  destruct I as [->|I]; [cbn in *; congruence|auto].
Qed.

Lemma variables_levels : forall vars, parse_variables keyword params = Ok vars ->
  lists_alphabetically (map fst vars) (fun n => In n (map fst rows)) /\
  forall n c, In (n, c) vars -> forall level, In level (map fst c) <-> exists l, In (n, l) rows /\ written_as rows n l level.
Proof.
  intros vars H. destruct (ol_vars vars H) as [LN G]. split; [exact LN|].
  intros n c I level. assert (Hn : In n (map fst rows)) by (apply LN; apply in_map_iff; exists (n, c); auto).
  rewrite (parse_group_keys _ _ _ (G n c I) level). split.
  - intros [p [s [D L]]]. pose proof (proj1 (ol_pattern n Hn p s) D) as [_ [_ Is]]. exists s. split; [exact Is|]. apply ol_written; assumption.
  - intros [l [Il W]]. destruct (ol_param n l Il) as [p [Hp Ep]]. exists p, l. split; [apply (ol_pattern n Hn); auto|]. apply ol_written; assumption.
Qed.

Lemma variables_probabilities : forall vars n c, parse_variables keyword params = Ok vars -> In (n, c) vars ->
  (forall p l, In p params -> p_category p = observable_category keyword (n, l) -> In (n, l) rows ->
     p_name p = "probability" /\ (sum_of keyword params rows n / MAX_FLOAT <= snd p)%R) ->
  (0 < sum_of keyword params rows n)%R ->
  forall p l level, In p params -> p_category p = observable_category keyword (n, l) -> In (n, l) rows -> written_as rows n l level ->
    logit_probability c level = (snd p / sum_of keyword params rows n)%R.
Proof.
  intros vars n c H I ALL POS p l level Hp Ep Il W. destruct (ol_vars vars H) as [LN G].
  assert (Hn : In n (map fst rows)) by (apply in_map_iff; exists (n, l); auto).
  assert (T : group_total (level_pattern keyword n) params = sum_of keyword params rows n).
  { unfold group_total, sum_of. f_equal. f_equal. apply filter_ext_in. intros q Hq.
    destruct (level_pattern keyword n (p_category q)) as [s|] eqn:E; destruct (in_dec _ _ _) as [J|J]; try reflexivity; exfalso.
    - assert (D : describes (level_pattern keyword n) params q s) by (split; assumption).
      apply (ol_pattern n Hn) in D. destruct D as [_ [E' I']]. apply J. apply in_map_iff. exists (n, s). split; [auto|].
      apply filter_In. split; [exact I'|]. apply String.eqb_refl.
    - apply in_map_iff in J. destruct J as [[m s] [E' J]]. apply filter_In in J. destruct J as [J X]. cbn in X. apply String.eqb_eq in X. subst m.
      assert (D : describes (level_pattern keyword n) params q s) by (apply (ol_pattern n Hn); auto).
      destruct D as [_ D]. congruence. }
  assert (DL : distinct_levels (level_pattern keyword n) params).
  { apply NNPP. intros X. assert (Y : parse_group (level_pattern keyword n) params = ValueError).
    { apply mixing. split; [|right; exact X]. exists p, l. split; [apply (ol_pattern n Hn); auto|]. apply (ALL p l); assumption. }
    rewrite (G n c I) in Y. discriminate. }
  destruct (probabilities_ok (level_pattern keyword n) params) as [c' [C1 [_ [_ C4]]]].
  - exists p, l. apply (ol_pattern n Hn). auto.
  - intros q s D. apply (ol_pattern n Hn) in D. destruct D as [Hq [Eq Iq]]. apply (ALL q s Hq Eq Iq).
  - exact DL.
  - rewrite T. exact POS.
  - intros q s D. rewrite T. apply (ol_pattern n Hn) in D. destruct D as [Hq [Eq Iq]]. apply (ALL q s Hq Eq Iq).
  - rewrite (G n c I) in C1. injection C1 as <-. rewrite <- T. apply (C4 p l level); [apply (ol_pattern n Hn); auto|].
    apply ol_written; assumption.
Qed.
End Levels.

Lemma ol_sorted : forall vars : list (string * container), alphabetical (map fst vars) -> 
  isort (fun a b => String.leb (fst a) (fst b)) vars = vars.
Proof.
  intros vars H. apply alphabetical_sorted in H. induction vars as [|x vars IH]; [reflexivity|].
  cbn [map] in H. inversion H as [|? ? S1 F]; subst. unfold isort in *. cbn [fold_right]. rewrite IH by exact S1.
  destruct vars as [|y vars]; [reflexivity|]. cbn [insert]. inversion F; subst. rewrite H2. reflexivity.
Qed.

(** The observables of the processed model. *)
Lemma observables_processed : forall n_periods covariates params rows mp,
  variables "observable" params rows -> (forall p, In p params -> prefix "exogenous_process_" (p_category p) = false) ->
  process_parameters n_periods covariates params = Ok mp ->
  parse_variables "observable" params = Ok (mp_observables mp) /\ mp_processes mp = [].
Proof.
  intros n_periods covariates params rows mp VA NE H. unfold process_parameters in H.
  destruct (parse_parameters n_periods covariates params) as [m| | | | |] eqn:E; try discriminate. cbn [result_bind] in H.
  destruct (validate_shocks _ _) as [u| | | | |]; try discriminate. injection H as <-.
  unfold parse_parameters in E.
  destruct (parse_discounting params) as [x1| | | | |]; try discriminate. cbn [result_bind] in E.
  assert (NP : parse_variables "exogenous_process" params = Ok []).
  { unfold parse_variables.
    assert (Z : parse_names "exogenous_process" (map p_category params) = Ok []).
    { unfold parse_names. assert (C : flat_map (fun c => match after_prefix ("exogenous_process" ++ "_") c with Some r => [before_last_underscore r] | None => [] end)
        (map p_category params) = []).
      { clear - NE. induction params as [|p ps IH]; [reflexivity|]. cbn [map flat_map].
        destruct (after_prefix ("exogenous_process" ++ "_") (p_category p)) as [r|] eqn:A.
        - exfalso. apply after_prefix_iff in A. specialize (NE p (or_introl eq_refl)).
          assert (X : prefix "exogenous_process_" (p_category p) = true) by (apply prefix_iff; exists r; exact A). congruence.
        - apply IH. intros q Hq. apply NE. right. exact Hq. }
      rewrite C. reflexivity. }
    rewrite Z. reflexivity. }
  rewrite NP in E. cbn [result_bind] in E.
  destruct (parse_variables "observable" params) as [vars| | | | |] eqn:V; try discriminate. cbn [result_bind] in E.
  assert (Mg : merge_observables [] vars = Ok vars).
  { unfold merge_observables. cbn [fold_left result_bind]. f_equal. apply ol_sorted.
    apply (variables_levels "observable" params rows VA vars V). }
  rewrite Mg in E. cbn [result_bind] in E.
  destruct (result_all (map _ (pc_choices_w_exp _))) as [x4| | | | |]; try discriminate. cbn [result_bind] in E.
  destruct (shocks_kind _) as [x5| | | | |]; try discriminate. cbn [result_bind] in E.
  destruct (parse_measurement_errors _ _ _) as [x6| | | | |]; try discriminate. cbn [result_bind] in E.
  destruct (parse_types _) as [x7| | | | |]; try discriminate. cbn [result_bind] in E.
  destruct (parse_lagged_choices _ _ _) as [x8| | | | |]; try discriminate. cbn [result_bind] in E. injection E as <-.
  cbn [mp_observables mp_processes]. auto.
Qed.
