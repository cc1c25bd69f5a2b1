(** Processing of processed options. *)
From Coq Require Import List Arith Bool String Ascii Lia.
From Verif Require Import Base Proof_Base Model_Strings Model_Cache Model_Choices Spec_Choices Model_Params Spec_Params
  Model_Processing Model_Covariates Spec_Covariates Proof_Strings Proof_Regex Proof_Choices Proof_Labels
  Proof_Templates Proof_Types Proof_Processing Proof_Covariates Model_Reprocessing Spec_Reprocessing.
Import ListNotations.
Open Scope string_scope.

(** ** Occurrences of words *)
Lemma split_mid : forall a x b c d, a ++ String x b = c ++ d ->
  (exists e, c = a ++ String x e /\ b = e ++ d) \/ (exists e, a = c ++ e /\ d = e ++ String x b).
Proof.
  induction a as [|y a IH]; intros x b c d H.
  - destruct c as [|z c]; cbn in H.
    + right. exists "". cbn. auto.
    + injection H as -> ->. left. exists c. auto.
  - destruct c as [|z c]; cbn in H.
    + right. exists (String y a). cbn. auto.
    + injection H as -> H. destruct (IH x b c d H) as [[e [-> ->]]|[e [-> ->]]].
      * left. exists e. auto.
      * right. exists e. auto.
Qed.

Section Occurrence.
  Variable w : string.
  Hypothesis W1 : all_chars is_word w = true.
  Variables (L R : string -> Prop).
  Hypothesis L1 : forall u x a, is_word x = false -> (L (u ++ String x a) <-> L a).
  Hypothesis R1 : forall b x c, is_word x = false -> (R (b ++ String x c) <-> R b).

  Definition found (s : string) : Prop := exists a b, s = a ++ w ++ b /\ L a /\ R b.

  Lemma found_break : forall a x b, is_word x = false -> (found (a ++ String x b) <-> found a \/ found b).
  Proof.
    intros a x b X. split.
    - intros [a1 [b1 [E [HL HR]]]]. destruct (split_mid _ _ _ _ _ E) as [[e [-> ->]]|[e [-> E2]]].
      + right. exists e, b1. split; [reflexivity|]. split; [apply (L1 a x e X); exact HL|exact HR].
      + symmetry in E2. destruct (split_mid _ _ _ _ _ E2) as [[e' [Ew _]]|[e' [-> Eb]]].
        * exfalso. rewrite Ew, all_chars_append in W1. cbn in W1. rewrite X, andb_false_r in W1. discriminate.
        * left. exists a1, e'. split; [reflexivity|]. split; [exact HL|]. rewrite Eb in HR. apply (R1 e' x b X). exact HR.
    - intros [[a1 [b1 [-> [HL HR]]]]|[a1 [b1 [-> [HL HR]]]]].
      + exists a1, (b1 ++ String x b). rewrite !append_assoc_s. split; [reflexivity|]. split; [exact HL|]. apply R1; assumption.
      + exists (a ++ String x a1), b1. rewrite append_assoc_s. split; [reflexivity|]. split; [apply L1; assumption|exact HR].
  Qed.
End Occurrence.

(** ** Replacing labels *)
Lemma ends_apart_iff : forall s b, ends_apart b s = true ->
  (s = "" /\ b = true) \/ exists u x, s = u ++ String x "" /\ is_word x = false.
Proof.
  induction s as [|c s IH]; intros b H; cbn in H; [left; auto|]. right.
  destruct (IH _ H) as [[-> Hc]|[u [x [-> X]]]].
  - exists "", c. split; [reflexivity|]. apply negb_true_iff. exact Hc.
  - exists (String c u), x. auto.
Qed.
Lemma ends_apart_append : forall s t b, ends_apart b (s ++ t) = ends_apart (ends_apart b s) t.
Proof. induction s as [|c s IH]; intros t b; [reflexivity|]. cbn. apply IH. Qed.

Lemma begins_render : forall code f, begins_apart f ->
  (render f = "" /\ render (map (coded code) f) = "") \/
  exists x b b', render f = String x b /\ render (map (coded code) f) = String x b' /\ is_word x = false.
Proof.
  intros code. induction f as [|[s|q l] r IH]; intros H.
  - left. auto.
  - destruct s as [|c s]; [apply IH; exact H|]. right. exists c, (s ++ render r), (s ++ render (map (coded code) r)).
    split; [reflexivity|]. split; [reflexivity|exact H].
  - destruct H.
Qed.

Section Scan.
  Variable scan : string -> Prop.
  Hypothesis break : forall a x b, is_word x = false -> (scan (a ++ String x b) <-> scan a \/ scan b).
  Hypothesis empty : ~ scan "".
  Hypothesis number : forall n, ~ scan (dec n).
  Variable code : string -> option nat.
  Hypothesis label : forall l i, code l = Some i -> ~ scan l.

  Lemma scan_coded : forall f before u, apart before f -> (before = true -> ends_apart true u = true) ->
    (scan (u ++ render f) <-> scan (u ++ render (map (coded code) f))).
  Proof.
    induction f as [|[s|q l] r IH]; intros before u A U; cbn [render map render_segment coded]; [reflexivity|..].
    - cbn in A. rewrite <- !append_assoc_s. apply (IH _ _ A).
      intros H. rewrite ends_apart_append. destruct before.
      + rewrite U by reflexivity. exact H.
      + destruct s as [|c s]; [discriminate|exact H].
    - cbn in A. destruct A as [-> [B A]]. specialize (IH false "" A ltac:(discriminate)). cbn [append] in IH.
      assert (Q : is_word (quote_char q) = false) by (destruct q; reflexivity).
      assert (Orig : forall R', scan (u ++ (quote q ++ l ++ quote q) ++ R') <-> scan u \/ scan l \/ scan R').
      { intros R'. rewrite quote_is. rewrite !append_assoc_s. cbn [append]. rewrite break by exact Q.
        rewrite break by exact Q. reflexivity. }
      destruct (code l) as [i|] eqn:C; cbn [render_segment]; [|rewrite !Orig; tauto].
      rewrite Orig. pose proof (label l i C) as NL. pose proof (number i) as NN.
      assert (Tail : forall R', (R' = "" \/ exists x b, R' = String x b /\ is_word x = false) ->
                (scan (dec i ++ R') <-> scan R')).
      { intros R' [->|[x [b [-> X]]]].
        - rewrite append_nil_r. tauto.
        - rewrite break by exact X. rewrite (break "" x b X). tauto. }
      assert (Head : forall R', scan (u ++ R') <-> scan u \/ scan R').
      { intros R'. destruct (ends_apart_iff u true (U eq_refl)) as [[-> _]|[v [x [-> X]]]].
        - cbn [append]. tauto.
        - rewrite append_assoc_s. cbn [append]. rewrite !break by exact X. tauto. }
      rewrite Head, Tail; [rewrite IH; tauto|].
      destruct (begins_render code r B) as [[_ ->]|[x [b [b' [_ [-> X]]]]]]; [left; reflexivity|right; eauto].
  Qed.
End Scan.

(** ** What is looked for in formulas *)
Lemma dec_digits_only : forall n, all_chars is_digit (dec n) = true.
Proof. intros n. unfold dec. generalize (Nat.to_uint n). induction u; cbn; auto. Qed.
Lemma digit_is_word : forall c, is_digit c = true -> is_word c = true.
Proof. intros c H. unfold is_word. rewrite H, orb_true_r. reflexivity. Qed.
Lemma name_not_digit : forall c, is_name c = true -> is_digit c = false.
Proof.
  intros c. destruct (is_digit c) eqn:D; [|reflexivity]. unfold is_name, is_letter, is_lower, is_upper, between, is_digit, between in *.
  intros N. exfalso. apply andb_true_iff in D. destruct D as [D1 D2]. apply Nat.leb_le in D1, D2.
  apply orb_true_iff in N. destruct N as [N|N].
  - apply orb_true_iff in N. destruct N as [N|N]; apply andb_true_iff in N; destruct N as [N1 N2];
      apply Nat.leb_le in N1, N2; cbn in *; lia.
  - apply Ascii.eqb_eq in N. subst c. cbn in *. lia.
Qed.
Lemma all_chars_sub : forall (f g : ascii -> bool) s, (forall c, f c = true -> g c = true) -> all_chars f s = true -> all_chars g s = true.
Proof.
  intros f g s H. induction s as [|c s IH]; cbn; [reflexivity|]. intros A. apply andb_true_iff in A. destruct A as [A B].
  rewrite (H _ A). apply IH. exact B.
Qed.
(** A string with a name character does not occur in a number. *)
Lemma not_in_digits : forall c r a b n, is_name c = true -> dec n <> a ++ String c r ++ b.
Proof.
  intros c r a b n N E. pose proof (dec_digits_only n) as D. rewrite E, all_chars_append in D. cbn in D.
  rewrite (name_not_digit c N) in D. rewrite andb_false_r in D. discriminate.
Qed.

Definition anywhere (_ : string) : Prop := True.
Lemma occurs_break : forall w a x b, all_chars is_word w = true -> is_word x = false ->
  (occurs w (a ++ String x b) <-> occurs w a \/ occurs w b).
Proof.
  intros w a x b W X.
  assert (E : forall s, occurs w s <-> found w anywhere anywhere s).
  { intros s. unfold occurs, found, anywhere. split; [intros [c [d H]]; exists c, d; auto|intros [c [d [H _]]]; eauto]. }
  rewrite !E. apply found_break; unfold anywhere; tauto.
Qed.

Definition left_end (a : string) : Prop := a = "" \/ exists a' x, a = a' ++ String x "" /\ is_word x = false.
Definition right_end (b : string) : Prop := b = "" \/ exists x b', b = String x b' /\ is_word x = false.
Lemma left_end_break : forall u x a, is_word x = false -> (left_end (u ++ String x a) <-> left_end a).
Proof.
  intros u x a X. unfold left_end. split.
  - intros [E|[a' [y [E Y]]]]; [destruct u; discriminate|].
    symmetry in E. change (String x a) with (String x "" ++ a) in E. rewrite <- append_assoc_s in E.
    destruct (split_mid _ _ _ _ _ E) as [[e [_ H]]|[e [_ H]]].
    + left. destruct e; [symmetry; exact H|discriminate].
    + right. exists e, y. auto.
  - intros [->|[a' [y [-> Y]]]]; right.
    + exists u, x. auto.
    + exists (u ++ String x a'), y. rewrite append_assoc_s. auto.
Qed.
Lemma right_end_break : forall b x c, is_word x = false -> (right_end (b ++ String x c) <-> right_end b).
Proof.
  intros b x c X. unfold right_end. destruct b as [|y b]; cbn.
  - split; [left; reflexivity|]. intros _. right. eauto.
  - split; intros [E|[z [b' [E Z]]]]; try discriminate; right; injection E as -> <-; eauto.
Qed.
Lemma word_of_break : forall w a x b, all_chars is_word w = true -> is_word x = false ->
  (word_of w (a ++ String x b) <-> word_of w a \/ word_of w b).
Proof.
  intros w a x b W X. apply (found_break w W left_end right_end left_end_break right_end_break a x b X).
Qed.

Definition no_digit (b : string) : Prop := match b with String c _ => is_digit c = false | EmptyString => True end.
Lemma no_digit_break : forall b x c, is_word x = false -> (no_digit (b ++ String x c) <-> no_digit b).
Proof.
  intros b x c X. destruct b as [|y b]; cbn; [|reflexivity]. split; [auto|]. intros _.
  destruct (is_digit x) eqn:D; [|reflexivity]. apply digit_is_word in D. congruence.
Qed.
Lemma lag_break : forall i a x b, is_word x = false ->
  (mentions_lag (a ++ String x b) i <-> mentions_lag a i \/ mentions_lag b i).
Proof.
  intros i a x b X.
  assert (E : forall s, mentions_lag s i <-> exists d, all_digits d = true /\ digits_value 0 d = i /\
                found ("lagged_choice_" ++ d) anywhere no_digit s).
  { intros s. unfold mentions_lag, found, anywhere. split.
    - intros [c [d [e [H [H1 [H2 H3]]]]]]. exists d. split; [exact H1|]. split; [exact H2|]. exists c, e.
      rewrite append_assoc_s. auto.
    - intros [d [H1 [H2 [c [e [H [_ H3]]]]]]]. exists c, d, e. rewrite append_assoc_s in H. auto. }
  assert (F : forall d, all_digits d = true ->
     (found ("lagged_choice_" ++ d) anywhere no_digit (a ++ String x b) <->
      found ("lagged_choice_" ++ d) anywhere no_digit a \/ found ("lagged_choice_" ++ d) anywhere no_digit b)).
  { intros d D. apply found_break; [|unfold anywhere; tauto|apply no_digit_break|exact X].
    rewrite all_chars_append. cbn. apply all_digits_iff in D.
    apply (all_chars_sub is_digit is_word d digit_is_word). tauto. }
  rewrite !E. split.
  - intros [d [H1 [H2 H3]]]. apply F in H3; [|exact H1]. destruct H3; [left|right]; eauto.
  - intros [[d [H1 [H2 H3]]]|[d [H1 [H2 H3]]]]; exists d; split; try exact H1; split; try exact H2; apply F; auto.
Qed.

(** ** Processing again *)
Lemma codes_type : forall choices observables cls i,
  (forall c, cls c = true -> is_quote c = false) ->
  (forall l, In l (labels_of choices observables) -> all_chars cls l = true) ->
  replace_choices_and_observables choices observables ("type == " ++ dec i) = "type == " ++ dec i.
Proof.
  intros choices observables cls i Q L.
  replace ("type == " ++ dec i) with (render [Text ("type == " ++ dec i)]) by (cbn [render render_segment]; apply append_nil_r).
  rewrite (formula_coded cls); [reflexivity|exact Q|exact L|].
  cbn [separated]. split; [|exact I]. unfold without_quotes. rewrite all_chars_append. cbn. apply dec_no_quotes.
Qed.

Lemma In_dict_get : forall (d : list (string * string)) c f, NoDup (map fst d) ->
  (In (c, f) d <-> dict_get string_dec c d = Some f).
Proof.
  intros d c f N. split; [intros H; apply dict_get_In_NoDup; [exact N|exact H]|apply dict_get_Some_In].
Qed.

Lemma parse_choices_exp : forall idx cov cov',
  infer_choices_with_experience idx cov = infer_choices_with_experience idx cov' ->
  parse_choices idx cov = parse_choices idx cov'.
Proof. intros idx cov cov' H. unfold parse_choices. rewrite H. reflexivity. Qed.

Lemma no_char_not_found : forall c s w, has_char c s = false -> has_char c w = true -> forall a b, s <> a ++ w ++ b.
Proof.
  intros c s w H W a b ->. rewrite !has_char_append, W, orb_true_r in H. discriminate.
Qed.
Lemma digits_no_char : forall c n, is_digit c = false -> has_char c (dec n) = false.
Proof.
  intros c n D. generalize (dec_digits_only n). generalize (dec n). induction s as [|y s IH]; [reflexivity|].
  cbn. intros H. apply andb_true_iff in H. destruct H as [H1 H2]. rewrite (IH H2), orb_false_r.
  destruct (Ascii.eqb_spec c y) as [->|]; [congruence|reflexivity].
Qed.

Lemma formula_again : forall cls choices observables f,
  (forall c, cls c = true -> is_quote c = false) ->
  (forall l, In l (labels_of choices observables) -> all_chars cls l = true) ->
  proper_formula cls f ->
  let codes := replace_choices_and_observables choices observables in codes (codes f) = codes f.
Proof.
  intros cls choices observables f Q L [seg [-> [S _]]]. cbn zeta.
  rewrite (formula_coded cls _ _ seg Q L S).
  rewrite (formula_coded cls _ _ _ Q L (separated_coded cls _ seg false S)). rewrite coded_twice. reflexivity.
Qed.

Lemma formula_scan : forall (scan : string -> Prop) cls choices observables f,
  (forall c, cls c = true -> is_quote c = false) ->
  (forall l, In l (labels_of choices observables) -> all_chars cls l = true) ->
  proper_formula cls f ->
  (forall a x b, is_word x = false -> (scan (a ++ String x b) <-> scan a \/ scan b)) ->
  ~ scan "" -> (forall n, ~ scan (dec n)) -> (forall l, In l (labels_of choices observables) -> ~ scan l) ->
  (scan f <-> scan (replace_choices_and_observables choices observables f)).
Proof.
  intros scan cls choices observables f Q L [seg [-> [S A]]] B E N Lb.
  rewrite (formula_coded cls _ _ seg Q L S).
  apply (scan_coded scan B E N (formula_code choices observables)) with (before := true) (u := ""); [|exact A|reflexivity].
  intros l i C. apply Lb. clear - C. unfold formula_code in C. unfold labels_of. apply in_or_app.
  assert (P : forall ls k j, position l ls k = Some j -> In l ls).
  { induction ls as [|x ls IH]; intros k j H; cbn in H; [discriminate|]. destruct (String.eqb_spec l x); [left; auto|right; eauto]. }
  destruct (position l choices 0) as [j|] eqn:Ep; [left; eauto|right].
  induction observables as [|o r IH]; cbn in *; [discriminate|]. apply in_or_app.
  assert (P2 : forall ls k j, level_position l ls k = Some j ->
    In l (flat_map (fun l0 => match l0 with Label s => [s] | Number _ => [] end) ls)).
  { induction ls as [|[x|x] ls IH']; intros k j H; cbn in H; [discriminate| |cbn; eauto].
    cbn. destruct (String.eqb_spec l x); [left; auto|right; eauto]. }
  destruct (level_position l (snd o) 0) as [j|] eqn:El; [left; eauto|right; apply IH; exact C].
Qed.

Lemma and_iff_compat_l_dep : forall A B C : Prop, (A -> (B <-> C)) -> (A /\ B <-> A /\ C).
Proof. tauto. Qed.

Lemma processing_again : forall cls params observables covs p1,
  (forall c, cls c = true -> is_quote c = false) ->
  NoDup (map fst covs) ->
  (forall c f, In (c, f) covs -> identifier c /\ proper_formula cls f /\
     forall i, 1 <= i < infer_number_of_types params -> c = "type_" ++ dec i -> f = "type == " ++ dec i) ->
  process_covariates params observables covs = Some p1 ->
  (forall l, In l (labels_of (pc_choices (pr_choices p1)) observables) ->
     all_chars cls l = true /\ plain_label (map fst covs) l) ->
  exists p2, process_covariates params observables (pr_covariates p1) = Some p2 /\
    pr_choices p2 = pr_choices p1 /\ pr_lags p2 = pr_lags p1 /\
    (forall c, dict_get string_dec c (pr_covariates p2) = dict_get string_dec c (pr_covariates p1)) /\
    NoDup (map fst (pr_covariates p1)) /\
    forall c f, In (c, f) (pr_covariates p1) ->
      (exists g, In (c, g) covs /\ f = replace_choices_and_observables (pc_choices (pr_choices p1)) observables g) \/
      (exists i, 1 <= i < infer_number_of_types params /\ c = "type_" ++ dec i /\ f = "type == " ++ dec i).
Proof.
  intros cls params observables covs p1 Q ND F P L. unfold process_covariates in P.
  set (names := map p_name params) in *. set (n := infer_number_of_types params) in *.
  destruct (remove_irrelevant_ok covs names ND) as [rel1 [E1 [ND1 [I1 [[Cl1a Cl1b] Mi1]]]]].
  rewrite E1 in P. injection P as <-. cbn [pr_choices pr_lags pr_covariates] in *.
  set (pc := parse_choices (map fst params) rel1) in *.
  set (codes := replace_choices_and_observables (pc_choices pc) observables) in *.
  set (covs1 := map (fun cf => (fst cf, codes (snd cf))) (add_type_covariates n rel1)).
  assert (Lc : forall l, In l (labels_of (pc_choices pc) observables) -> all_chars cls l = true) by (intros l Hl; apply L, Hl).
  assert (Again : forall c f, In (c, f) covs -> codes (codes f) = codes f).
  { intros c f H. apply (formula_again cls); [exact Q|exact Lc|]. apply (F c f H). }
  assert (CT : forall i, codes ("type == " ++ dec i) = "type == " ++ dec i).
  { intros i. apply (codes_type _ _ cls); assumption. }
  assert (Types : forall rel, NoDup (map fst rel) -> NoDup (map fst (add_type_covariates n rel))).
  { intros rel N. unfold add_type_covariates. destruct (Nat.leb 2 n); [|exact N].
    apply NoDup_keys_update. exact N. }
  assert (GM : forall d c, dict_get string_dec c (map (fun cf => (fst cf, codes (snd cf))) d) =
                option_map codes (dict_get string_dec c d)).
  { induction d as [|[k v] d IH]; intros c; [reflexivity|]. cbn. destruct (string_dec c k); [reflexivity|apply IH]. }
  assert (NDc : NoDup (map fst covs1)).
  { unfold covs1. rewrite map_map. cbn [fst]. apply Types. exact ND1. }
  assert (Cases : forall c, (exists i, 1 <= i < n /\ c = "type_" ++ dec i) \/ (forall i, 1 <= i < n -> c <> "type_" ++ dec i)).
  { intros c. destruct (in_dec string_dec c (map (fun i => "type_" ++ dec i) (seq 1 (n - 1)))) as [H|H].
    - left. apply in_map_iff in H. destruct H as [i [H Hi]]. apply in_seq in Hi. exists i. split; [lia|auto].
    - right. intros i Hi Hc. apply H. apply in_map_iff. exists i. split; [auto|]. apply in_seq. lia. }
  assert (In1 : forall c f, In (c, f) covs1 <->
     (exists g, In (c, g) rel1 /\ f = codes g) \/ (exists i, 1 <= i < n /\ c = "type_" ++ dec i /\ f = "type == " ++ dec i)).
  { intros c f. rewrite (In_dict_get covs1 c f NDc). unfold covs1. rewrite GM.
    destruct (type_covariates_ok n rel1) as [T1 T2].
    destruct (Cases c) as [[i [Hi ->]]|Hc].
    - rewrite (T1 i Hi). cbn [option_map]. rewrite CT. split.
      + intros H. injection H as <-. right. eauto.
      + intros [[g [Hg ->]]|[j [Hj [E ->]]]].
        * apply I1, F in Hg. destruct Hg as [_ [_ Hg]]. rewrite (Hg i Hi eq_refl), CT. reflexivity.
        * apply type_name_inj in E. subst j. reflexivity.
    - rewrite (T2 c Hc). split.
      + intros H. destruct (dict_get string_dec c rel1) as [g|] eqn:G; [|discriminate]. injection H as <-.
        left. exists g. split; [apply dict_get_Some_In in G; exact G|reflexivity].
      + intros [[g [Hg ->]]|[j [Hj [E _]]]]; [|exfalso; apply (Hc j Hj E)].
        apply (In_dict_get rel1 c g ND1) in Hg. rewrite Hg. reflexivity. }
  destruct (remove_irrelevant_ok covs1 names NDc) as [rel2 [E2 [ND2 [I2 [[Cl2a Cl2b] Mi2]]]]].
  assert (Key : forall c f, In (c, f) covs -> In c (map fst rel1) -> In (c, f) rel1).
  { intros c f H Hc. apply in_map_iff in Hc. destruct Hc as [[c' f'] [E H']]. cbn in E. subst c'.
    pose proof (I1 _ H') as H2. apply (In_dict_get covs) in H; [|exact ND]. apply (In_dict_get covs) in H2; [|exact ND]. congruence. }
  assert (Key2 : forall c f, In (c, f) covs1 -> In c (map fst rel2) -> In (c, f) rel2).
  { intros c f H Hc. apply in_map_iff in Hc. destruct Hc as [[c' f'] [E H']]. cbn in E. subst c'.
    pose proof (I2 _ H') as H2. apply (In_dict_get covs1) in H; [|exact NDc]. apply (In_dict_get covs1) in H2; [|exact NDc]. congruence. }
  (* everything that was relevant still is *)
  assert (Occ : forall c f d g, In (c, f) covs -> In (d, g) covs -> (occurs c g <-> occurs c (codes g))).
  { intros c f d g Hc Hd. destruct (F c f Hc) as [[x [r [-> [Nx Nr]]]] _].
    assert (W : all_chars is_word (String x r) = true) by (cbn [all_chars]; rewrite (name_is_word x Nx), Nr; reflexivity).
    apply (formula_scan (fun s => occurs (String x r) s) cls); [exact Q|exact Lc|apply (F d g Hd)|..].
    - intros a y b Y. apply occurs_break; assumption.
    - intros [a [b E]]. destruct a; discriminate.
    - intros k [a [b E]]. apply (not_in_digits x r a b k Nx E).
    - intros l Hl. apply L in Hl. destruct Hl as [_ [_ [_ Hl]]]. apply Hl. apply in_map_iff. exists (String x r, f). auto. }
  assert (Keep : forall c, In c (map fst rel1) -> In c (map fst rel2)).
  { intros c Hc. apply (Mi1 (fun c => In c (map fst rel1) /\ In c (map fst rel2))); [|exact Hc]. split.
    - intros d f Hd Hn. assert (Hr : In d (map fst rel1)) by (apply (Cl1a d f); assumption). split; [exact Hr|].
      apply (Cl2a d (codes f)); [|exact Hn]. apply In1. left. exists f. split; [apply Key; assumption|reflexivity].
    - intros d f e g Hd He [He1 He2] O. assert (Hr : In d (map fst rel1)) by (apply (Cl1b d f e g); assumption).
      split; [exact Hr|]. apply (Cl2b d (codes f) e (codes g)).
      + apply In1. left. exists f. split; [apply Key; assumption|reflexivity].
      + apply In1. left. exists g. split; [apply Key; assumption|reflexivity].
      + exact He2.
      + apply (Occ d f e g Hd He). exact O. }
  assert (Kept : forall c g, In (c, g) rel1 -> In (c, codes g) rel2).
  { intros c g H. apply Key2; [apply In1; left; eauto|]. apply Keep. apply in_map_iff. exists (c, g). auto. }
  (* choices *)
  assert (Ch : parse_choices (map fst params) rel2 = pc).
  { apply parse_choices_exp. unfold infer_choices_with_experience. apply sorted_set_ext. intros x. rewrite !in_app_iff.
    apply or_iff_compat_l. rewrite !in_flat_map.
    assert (Wx : forall c g, In (c, g) covs -> (In x (findall "exp_" is_name g) <-> In x (findall "exp_" is_name (codes g)))).
    { intros c g Hg. rewrite !(findall_iff "exp_" is_name ltac:(discriminate) eq_refl name_is_word).
      apply and_iff_compat_l_dep. intros [_ Gx].
      apply (formula_scan (fun s => word_of ("exp_" ++ x) s) cls); [exact Q|exact Lc|apply (F c g Hg)|..].
      - intros a y b Y. apply word_of_break; [|exact Y]. rewrite all_chars_append. cbn.
        apply (all_chars_sub is_name is_word x name_is_word Gx).
      - intros [a [b [E _]]]. destruct a; discriminate.
      - intros k [a [b [E _]]]. apply (not_in_digits "e" ("xp_" ++ x) a b k eq_refl E).
      - intros l Hl [a [b [E _]]]. apply L in Hl. destruct Hl as [_ [Hl _]]. apply Hl. exists a, (x ++ b).
        rewrite E, append_assoc_s. reflexivity. }
    split.
    - intros [[c f] [Hf Hx]]. apply filter_In in Hf. destruct Hf as [Hf Hm]. cbn [snd fst] in *.
      apply I2, In1 in Hf. destruct Hf as [[g [Hg ->]]|[i [Hi [-> ->]]]].
      + exists (c, g). split; [apply filter_In; split; assumption|]. cbn [snd]. apply (Wx c g (I1 _ Hg)). exact Hx.
      + exfalso. apply (findall_iff "exp_" is_name ltac:(discriminate) eq_refl name_is_word) in Hx.
        destruct Hx as [_ [a [b [E _]]]].
        apply (no_char_not_found "x" _ ("exp_" ++ x)) with (a := a) (b := b) in E; [exact E| |reflexivity].
        rewrite has_char_append. cbn. apply digits_no_char. reflexivity.
    - intros [[c g] [Hg Hx]]. apply filter_In in Hg. destruct Hg as [Hg Hm]. cbn [snd fst] in *.
      exists (c, codes g). split; [apply filter_In; split; [apply Kept; exact Hg|exact Hm]|]. cbn [snd].
      apply (Wx c g (I1 _ Hg)). exact Hx. }
  (* lags *)
  assert (Lg : number_of_lags rel2 = number_of_lags rel1).
  { assert (Wx : forall i c g, In (c, g) covs -> (mentions_lag g i <-> mentions_lag (codes g) i)).
    { intros i c g Hg. apply (formula_scan (fun s => mentions_lag s i) cls); [exact Q|exact Lc|apply (F c g Hg)|..].
      - intros a y b Y. apply lag_break. exact Y.
      - intros [a [d [b [E _]]]]. destruct a; discriminate.
      - intros k [a [d [b [E _]]]]. apply (not_in_digits "l" "agged_choice_" a (d ++ b) k eq_refl E).
      - intros l Hl [a [d [b [E _]]]]. apply L in Hl. destruct Hl as [_ [_ [Hl _]]]. apply Hl. exists a, (d ++ b). exact E. }
    destruct (lags_ok rel1) as [U1 A1]. destruct (lags_ok rel2) as [U2 A2]. apply Nat.le_antisymm.
    - destruct A2 as [->|[c [f [Hf Hm]]]]; [lia|]. apply I2, In1 in Hf. destruct Hf as [[g [Hg ->]]|[i [Hi [-> ->]]]].
      + apply (U1 c g); [exact Hg|]. apply (Wx _ c g (I1 _ Hg)). exact Hm.
      + exfalso. destruct Hm as [a [d [b [E _]]]].
        apply (no_char_not_found "l" _ "lagged_choice_") with (a := a) (b := d ++ b) in E; [exact E| |reflexivity].
        rewrite has_char_append. cbn. apply digits_no_char. reflexivity.
    - destruct A1 as [->|[c [g [Hg Hm]]]]; [lia|]. apply (U2 c (codes g)); [apply Kept; exact Hg|].
      apply (Wx _ c g (I1 _ Hg)). exact Hm. }
  assert (PE : process_covariates params observables covs1 =
     Some (mkProcessed pc (number_of_lags rel2) (map (fun cf => (fst cf, codes (snd cf))) (add_type_covariates n rel2)))).
  { unfold process_covariates. change (map p_name params) with names. rewrite E2, Ch. reflexivity. }
  eexists. split; [exact PE|]. cbn [pr_choices pr_lags pr_covariates]. split; [reflexivity|]. split; [exact Lg|].
  split; [|split; [exact NDc|]].
  2:{ intros c f H. apply In1 in H. destruct H as [[g [Hg ->]]|H]; [left; exists g; split; [apply I1; exact Hg|reflexivity]|right; exact H]. }
  intros c. unfold covs1. rewrite !GM.
  destruct (type_covariates_ok n rel1) as [T1 T2]. destruct (type_covariates_ok n rel2) as [T3 T4].
  destruct (Cases c) as [[i [Hi ->]]|Hc]; [rewrite (T1 i Hi), (T3 i Hi); reflexivity|].
  rewrite (T2 c Hc), (T4 c Hc).
  destruct (dict_get string_dec c rel1) as [g|] eqn:G1.
  - apply dict_get_Some_In in G1. pose proof (Kept c g G1) as H. apply (In_dict_get rel2) in H; [|exact ND2]. rewrite H.
    cbn [option_map]. f_equal. apply (Again c g). apply I1. exact G1.
  - destruct (dict_get string_dec c rel2) as [f|] eqn:G2; [|reflexivity]. exfalso.
    apply dict_get_Some_In in G2. apply I2, In1 in G2. destruct G2 as [[g [Hg _]]|[i [Hi [E _]]]].
    + apply (In_dict_get rel1) in Hg; [|exact ND1]. congruence.
    + apply (Hc i Hi E).
Qed.

Lemma ends_digits : forall n b, ends_apart b (dec n) = false.
Proof.
  intros n b. assert (NE : dec n <> "").
  { unfold dec. intros H. assert (E : Nat.of_uint (Nat.to_uint n) = n) by apply DecimalNat.Unsigned.of_to.
    destruct (Nat.to_uint n) eqn:U; try discriminate. cbn in E. subst n. discriminate U. }
  pose proof (dec_digits_only n) as D. revert b NE D. generalize (dec n).
  induction s as [|c s IH]; intros b NE D; [contradiction|]. cbn in *. apply andb_true_iff in D. destruct D as [D1 D2].
  rewrite (digit_is_word c D1). cbn. destruct s as [|y s]; [reflexivity|]. apply IH; [discriminate|exact D2].
Qed.
Lemma begins_coded : forall code f, begins_apart f -> begins_apart (map (coded code) f).
Proof.
  intros code. induction f as [|[s|q l] r IH]; intros H; [exact I| |destruct H].
  destruct s as [|c s]; [apply IH; exact H|exact H].
Qed.
Lemma apart_coded : forall code f b, apart b f -> apart b (map (coded code) f).
Proof.
  intros code. induction f as [|[s|q l] r IH]; intros b H; [exact I|apply IH; exact H|].
  cbn in H. destruct H as [-> [B A]]. cbn [map coded]. destruct (code l) as [i|]; cbn [apart].
  - rewrite ends_digits. apply IH. exact A.
  - split; [reflexivity|]. split; [apply begins_coded; exact B|apply IH; exact A].
Qed.
Lemma proper_codes : forall cls choices observables f,
  (forall c, cls c = true -> is_quote c = false) ->
  (forall l, In l (labels_of choices observables) -> all_chars cls l = true) ->
  proper_formula cls f -> proper_formula cls (replace_choices_and_observables choices observables f).
Proof.
  intros cls choices observables f Q L [seg [-> [S A]]].
  exists (map (coded (formula_code choices observables)) seg). split; [apply (formula_coded cls); assumption|].
  split; [apply separated_coded; exact S|apply apart_coded; exact A].
Qed.
Lemma proper_type : forall cls i, proper_formula cls ("type == " ++ dec i).
Proof.
  intros cls i. exists [Text ("type == " ++ dec i)]. split; [symmetry; apply append_nil_r|].
  split; [|exact I]. split; [|exact I]. unfold without_quotes. rewrite all_chars_append. cbn. apply dec_no_quotes.
Qed.
Lemma identifier_type : forall i, identifier ("type_" ++ dec i).
Proof.
  intros i. exists "t"%char, ("ype_" ++ dec i). split; [reflexivity|]. split; [reflexivity|].
  cbn. apply (all_chars_sub is_digit is_word _ digit_is_word), dec_digits_only.
Qed.

Lemma processing_many_times : forall k cls params observables covs p1,
  (forall c, cls c = true -> is_quote c = false) ->
  NoDup (map fst covs) ->
  (forall c f, In (c, f) covs -> identifier c /\ proper_formula cls f /\
     forall i, 1 <= i < infer_number_of_types params -> c = "type_" ++ dec i -> f = "type == " ++ dec i) ->
  process_covariates params observables covs = Some p1 ->
  (forall l, In l (labels_of (pc_choices (pr_choices p1)) observables) ->
     all_chars cls l = true /\
     plain_label (map fst covs ++ type_names (infer_number_of_types params))%list l) ->
  exists p, processed_again params observables k p1 = Some p /\ same_model p1 p.
Proof.
  induction k as [|k IH]; intros cls params observables covs p1 Q ND F P L.
  - exists p1. split; [reflexivity|]. repeat split; reflexivity.
  - assert (L1 : forall l, In l (labels_of (pc_choices (pr_choices p1)) observables) ->
       all_chars cls l = true /\ plain_label (map fst covs) l).
    { intros l Hl. destruct (L l Hl) as [H1 [H2 [H3 H4]]]. split; [exact H1|]. split; [exact H2|]. split; [exact H3|].
      intros c Hc. apply H4. apply in_or_app. left. exact Hc. }
    destruct (processing_again cls params observables covs p1 Q ND F P L1) as [p2 [P2 [Hc [Hl [Hg [ND1 In1]]]]]].
    cbn [processed_again]. rewrite P2.
    destruct (IH cls params observables (pr_covariates p1) p2) as [p [Hp [S1 [S2 S3]]]]; try assumption.
    + intros c f H. destruct (In1 c f H) as [[g [Hg' ->]]|[i [Hi [-> ->]]]].
      * destruct (F c g Hg') as [F1 [F2 F3]]. split; [exact F1|]. split; [apply proper_codes; [exact Q|intros l Hl'; apply L, Hl'|exact F2]|].
        intros i Hi E. rewrite (F3 i Hi E). apply (codes_type _ _ cls); [exact Q|]. intros l Hl'. apply L, Hl'.
      * split; [apply identifier_type|]. split; [apply proper_type|]. intros j _ E. apply type_name_inj in E. subst j. reflexivity.
    + rewrite Hc. intros l Hl'. destruct (L l Hl') as [H1 [H2 [H3 H4]]]. split; [exact H1|]. split; [exact H2|]. split; [exact H3|].
      intros c H. apply H4. apply in_or_app. apply in_app_or in H. destruct H as [H|H]; [|right; exact H].
      apply in_map_iff in H. destruct H as [[c' f] [E H]]. cbn in E. subst c'.
      destruct (In1 c f H) as [[g [Hg' _]]|[i [Hi [-> _]]]].
      * left. apply in_map_iff. exists (c, g). auto.
      * right. apply in_map_iff. exists i. split; [reflexivity|]. apply in_seq. lia.
    + exists p. split; [exact Hp|]. split; [rewrite <- Hc; exact S1|]. split; [rewrite <- Hl; exact S2|].
      intros c. rewrite <- Hg. apply S3.
Qed.
