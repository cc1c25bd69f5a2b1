(** Proofs about the templates for parameters. *)
From Coq Require Import List Arith Bool String Ascii Reals ZArith Lia Sorted DecimalNat DecimalString Lra.
From Verif Require Import Base Proof_Base Model_Strings Proof_Strings Proof_Regex Model_Cache Proof_Cache Model_Choices Spec_Choices Proof_Choices Spec_Solve
  Model_Params Model_Processing Spec_Params Proof_Params Spec_Processing Proof_Processing Proof_Types Proof_ParamsMore Proof_Names Proof_Reprocessing Model_ParseParameters
  Spec_ObservableLevels Proof_ObservableLevels Model_SpecificationHelpers.
Import ListNotations.
Local Open Scope nat_scope.
Open Scope string_scope.
Open Scope list_scope.

(** ** Decimal numbers *)

Lemma sh_digits : forall u acc, digits_value acc (NilEmpty.string_of_uint u) = Nat.of_uint_acc u acc.
Proof.
  induction u; intros acc; cbn [NilEmpty.string_of_uint digits_value Nat.of_uint_acc]; [reflexivity|..];
    rewrite IHu; f_equal; rewrite Nat.tail_mul_spec;
    match goal with |- context [nat_of_ascii ?c - nat_of_ascii ?d] =>
      let v := eval vm_compute in (nat_of_ascii c - nat_of_ascii d) in change (nat_of_ascii c - nat_of_ascii d) with v end; lia.
Qed.
Lemma digits_dec : forall n, digits_value 0 (dec n) = n.
Proof. intros n. unfold dec. rewrite sh_digits. apply Unsigned.of_to. Qed.
Lemma all_digits_go : forall s, (fix go s := match s with EmptyString => true | String c r => is_digit c && go r end) s = all_chars is_digit s.
Proof. induction s as [|c r IH]; [reflexivity|]. cbn [all_chars]. rewrite <- IH. reflexivity. Qed.
Lemma dec_nonempty : forall n, dec n <> "".
Proof.
  intros n H. assert (X : Nat.to_uint n = Decimal.Nil).
  { unfold dec in H. destruct (Nat.to_uint n); [reflexivity|discriminate..]. }
  pose proof (Unsigned.of_to n) as T. rewrite X in T. cbn in T. subst n. discriminate.
Qed.
Lemma all_digits_dec : forall n, all_digits (dec n) = true.
Proof.
  intros n. unfold all_digits. rewrite all_digits_go, dec_digits_only, andb_true_r.
  destruct (String.eqb_spec (dec n) "") as [E|E]; [|reflexivity]. exfalso. exact (dec_nonempty n E).
Qed.

(** ** Lagged choices *)

Lemma search_step : forall p cls s, search p cls s =
  match (match after_prefix p s with
         | Some r => let g := fst (span cls r) in if String.eqb g "" then None else Some g
         | None => None
         end) with
  | Some g => Some g
  | None => match s with EmptyString => None | String _ r => search p cls r end
  end.
Proof. intros p cls [|c s]; reflexivity. Qed.
Lemma search_substring : forall p cls s g, search p cls s = Some g -> substring p s.
Proof.
  intros p cls. induction s as [|c s IH]; intros g H; rewrite search_step in H;
    destruct (after_prefix p _) as [r|] eqn:A.
  1,3: apply after_prefix_iff in A; exists "", r; exact A.
  - discriminate.
  - apply IH in H. destruct H as [x [y ->]]. exists (String c x), y. reflexivity.
Qed.
Lemma search_here : forall p cls g, g <> "" -> all_chars cls g = true -> search p cls (p ++ g) = Some g.
Proof.
  intros p cls g N A. rewrite search_step.
  assert (P : after_prefix p (p ++ g) = Some g) by (apply after_prefix_iff; reflexivity). rewrite P.
  assert (X : span cls g = (g, "")).
  { clear - A. induction g as [|c g IH]; [reflexivity|]. cbn [all_chars] in A. apply andb_true_iff in A. destruct A as [A1 A2].
    cbn [span]. rewrite A1, (IH A2). reflexivity. }
  rewrite X. cbn [fst]. cbv zeta. destruct (String.eqb_spec g "") as [E|E]; [contradiction|reflexivity].
Qed.
Lemma substring_skip : forall c r a b, has_char c a = false -> substring (String c r) (a ++ b) -> substring (String c r) b.
Proof.
  intros c r. induction a as [|d a IH]; intros b H [x [y E]]; [exists x, y; exact E|].
  cbn [has_char] in H. apply orb_false_iff in H. destruct H as [H1 H2].
  destruct x as [|e x]; cbn in E; injection E as E1 E2.
  - subst d. rewrite Ascii.eqb_refl in H1. discriminate.
  - apply IH; [exact H2|]. exists x, y. exact E2.
Qed.
Lemma has_char_cons : forall c d s, has_char c (String d s) = (Ascii.eqb d c || has_char c s)%bool \/ has_char c (String d s) = (Ascii.eqb c d || has_char c s)%bool.
Proof. intros. first [left; reflexivity|right; reflexivity]. Qed.
Lemma digits_no_l : forall s, all_chars is_digit s = true -> has_char "l" s = false.
Proof.
  induction s as [|c s IH]; [reflexivity|]. cbn [all_chars has_char]. intros H. apply andb_true_iff in H. destruct H as [H1 H2].
  rewrite (IH H2), orb_false_r. apply Ascii.eqb_neq. intros E. subst c. discriminate.
Qed.
Lemma digits_no_underscore : forall n, has_char "_" (dec n) = false.
Proof. exact dec_no_underscore. Qed.

Lemma lag_of_template : forall k i c, well_named c -> ~ substring "lagged_choice_" c ->
  lag_ext k ("lagged_choice_" ++ dec i ++ "_" ++ c)%string = if Nat.eqb i k then Some c else None.
Proof.
  intros k i c [NE W] NS. destruct (Nat.eqb_spec i k) as [->|N].
  - unfold lag_ext. assert (E : ("lagged_choice_" ++ dec k ++ "_" ++ c = ("lagged_choice_" ++ dec k ++ "_") ++ c)%string) by (rewrite !append_assoc_s; reflexivity).
    rewrite E. apply search_here; assumption.
  - destruct (lag_ext k _) as [g|] eqn:E; [|reflexivity]. exfalso. apply search_substring in E. destruct E as [x [y E]].
    destruct x as [|d x].
    + change ("" ++ ("lagged_choice_" ++ dec k ++ "_") ++ y)%string with (("lagged_choice_" ++ dec k ++ "_") ++ y)%string in E.
      rewrite !append_assoc_s in E. apply (append_inj_l "lagged_choice_") in E.
      change (dec i ++ String "_" c = dec k ++ String "_" y)%string in E.
      apply split_at_char in E; [|apply digits_no_underscore..]. destruct E as [E _]. apply dec_inj in E. contradiction.
    + apply NS. assert (S1 : substring ("lagged_choice_" ++ dec k ++ "_")%string (("agged_choice_" ++ dec i ++ "_") ++ c)%string).
      { cbn in E. injection E as _ E. exists x, y. rewrite append_assoc_s, (append_assoc_s (dec i)). exact E. }
      apply substring_skip in S1.
      * destruct S1 as [a [b S1]]. exists a, ((dec k ++ "_") ++ b)%string. rewrite S1.
        change (a ++ ("lagged_choice_" ++ (dec k ++ "_")) ++ b = a ++ "lagged_choice_" ++ ((dec k ++ "_") ++ b))%string.
        f_equal; apply append_assoc_s.
      * change ("agged_choice_" ++ dec i ++ "_")%string with ("agged_choice_" ++ (dec i ++ "_"))%string.
        rewrite !has_char_append, (digits_no_l _ (dec_digits_only i)). reflexivity.
Qed.

Lemma group_rows_app : forall ext a b, group_rows ext (a ++ b) = group_rows ext a ++ group_rows ext b.
Proof. intros. apply flat_map_app. Qed.
Lemma group_rows_cons : forall ext p a, group_rows ext (p :: a) =
  match ext (p_category p) with Some l => [(l, (p_name p, snd p))] | None => [] end ++ group_rows ext a.
Proof. reflexivity. Qed.
Lemma group_rows_none : forall ext a, (forall p, In p a -> ext (p_category p) = None) -> group_rows ext a = [].
Proof.
  intros ext a H. unfold group_rows. induction a as [|p a IH]; [reflexivity|]. cbn [flat_map].
  rewrite (H p (or_introl eq_refl)), IH; [reflexivity|]. intros q Hq. apply H. right. exact Hq.
Qed.

Section Lags.
Variables (base : list param) (probs : list (list R)) (choices : list string).
Hypothesis NB : forall p, In p base -> ~ substring "lagged_choice_" (p_category p).
Hypothesis WN : forall c, In c choices -> well_named c /\ ~ substring "lagged_choice_" c.
Hypothesis ND : NoDup choices.
Hypothesis NE : choices <> [].

Lemma lag_block : forall k i ps,
  group_rows (lag_ext k) (map (fun cp => (("lagged_choice_" ++ dec i ++ "_" ++ fst cp)%string, "constant", snd cp)) (combine choices ps)) =
  if Nat.eqb i k then map (fun cp => (fst cp, ("constant", snd cp))) (combine choices ps) else [].
Proof.
  intros k i ps. assert (H : forall cp, In cp (combine choices ps) -> In (fst cp) choices) by (intros [c p] I; apply in_combine_l in I; exact I).
  induction (combine choices ps) as [|[c p] l IH]; [destruct (Nat.eqb i k); reflexivity|].
  cbn [map]. rewrite group_rows_cons. unfold p_category, p_name. cbn [fst snd].
  destruct (WN c (H (c, p) (or_introl eq_refl))) as [W S].
  rewrite (lag_of_template k i c W S), IH by (intros cp I; apply H; right; exact I).
  destruct (Nat.eqb i k); reflexivity.
Qed.

Lemma lag_rows : forall k ps, nth_error probs (k - 1) = Some ps -> 1 <= k ->
  group_rows (lag_ext k) (base ++ lagged_choices_probs_template probs choices) = map (fun cp => (fst cp, ("constant", snd cp))) (combine choices ps).
Proof.
  intros k ps H K. rewrite group_rows_app, group_rows_none.
  2:{ intros p Hp. destruct (lag_ext k (p_category p)) as [g|] eqn:E; [|reflexivity]. exfalso. apply (NB p Hp).
      apply search_substring in E. destruct E as [x [y E]]. exists x, ((dec k ++ "_") ++ y)%string. rewrite E, !append_assoc_s. reflexivity. }
  cbn [app]. unfold lagged_choices_probs_template.
  assert (G : forall b l, group_rows (lag_ext k) (flat_map (fun ip => map (fun cp => (("lagged_choice_" ++ dec (fst ip) ++ "_" ++ fst cp)%string, "constant", snd cp))
                          (combine choices (snd ip))) (combine (seq b (List.length l)) l)) =
    match (if Nat.ltb k b then None else nth_error l (k - b)) with
    | Some q => map (fun cp => (fst cp, ("constant", snd cp))) (combine choices q) | None => [] end).
  { intros b l. revert b. induction l as [|q l IH]; intros b; cbn [List.length seq combine flat_map].
    - destruct (Nat.ltb k b); [reflexivity|]. destruct (k - b); reflexivity.
    - rewrite group_rows_app, IH. cbn [fst snd]. rewrite lag_block.
      destruct (Nat.eqb_spec b k) as [->|N].
      + rewrite Nat.sub_diag, Nat.ltb_irrefl. destruct (Nat.ltb_spec k (S k)); [|lia]. cbn [nth_error]. apply app_nil_r.
      + cbn [app]. destruct (Nat.ltb_spec k (S b)); destruct (Nat.ltb_spec k b); try lia; [reflexivity|].
        replace (k - b) with (S (k - S b)) by lia. reflexivity. }
  rewrite G, H. destruct (Nat.ltb_spec k 1); [lia|]. reflexivity.
Qed.

Lemma lag_template : forall k ps, nth_error probs (k - 1) = Some ps -> 1 <= k -> List.length ps = List.length choices ->
  exists c, parse_lag choices (base ++ lagged_choices_probs_template probs choices) k = Ok c /\ map fst c = map Label choices /\
    forall j label p, nth_error choices j = Some label -> nth_error ps j = Some p ->
      logit_probability c (Label label) = (exp p / rsum (map exp ps))%R.
Proof.
  intros k ps H K L. set (params := base ++ lagged_choices_probs_template probs choices).
  pose proof (lag_rows k ps H K) as G. fold params in G.
  assert (LV : forall s, In s (map fst (group_rows (lag_ext k) params)) -> lv (lag_ext k) params s = Label s).
  { intros s I. apply in_map_iff in I. destruct I as [[t [n v]] [E I]]. cbn in E. subst t. apply In_group_rows in I. destruct I as [p [D _]].
    symmetry. apply level_of_iff. apply (lag_level k params p s (Label s) D). reflexivity. }
  assert (FS : map fst (group_rows (lag_ext k) params) = choices).
  { rewrite G, map_map. cbn [fst]. clear - L. revert ps L. induction choices as [|c cs IH]; intros [|p ps] L; try discriminate; [reflexivity|].
    cbn. f_equal. apply IH. injection L as L. exact L. }
  assert (LL : to_numeric (map fst (group_rows (lag_ext k) params)) = map Label choices).
  { rewrite to_numeric_lv. rewrite FS in *. apply map_ext_in. exact LV. }
  assert (SN : map (fun r : string * (string * R) => snd (snd r)) (group_rows (lag_ext k) params) = ps).
  { rewrite G, map_map. cbn [snd]. clear - L. revert ps L. induction choices as [|c cs IH]; intros [|p ps] L; try discriminate; [reflexivity|].
    cbn. f_equal. apply IH. injection L as L. exact L. }
  assert (NN : map (fun r : string * (string * R) => fst (snd r)) (group_rows (lag_ext k) params) = map (fun _ => "constant") ps).
  { rewrite G, map_map. cbn [fst snd]. clear - L. revert ps L. induction choices as [|c cs IH]; intros [|p ps] L; try discriminate; [reflexivity|].
    cbn. f_equal. apply IH. injection L as L. exact L. }
  assert (NL : NoDup (map Label choices)) by (apply FinFun.Injective_map_NoDup; [intros a b E; congruence|exact ND]).
  assert (P : parse_group (lag_ext k) params = Ok (Some (single_container (map Label choices) (map (fun v => ("constant", v)) ps)))).
  { unfold parse_group. rewrite LL, SN, NN.
    assert (LG : List.length (group_rows (lag_ext k) params) = List.length choices) by (rewrite <- FS, map_length; reflexivity).
    rewrite LG. destruct (Nat.eqb_spec (List.length choices) 0) as [Z|Z]; [destruct choices; [contradiction|discriminate]|].
    assert (Z0 : filter (String.eqb "probability") (map (fun _ : R => "constant") ps) = []) by (clear; induction ps as [|p ps IH]; [reflexivity|exact IH]).
    rewrite Z0. rewrite drop_duplicates_NoDup_id by exact NL. cbn [List.length].
    assert (LI : List.length (isort level_leb (map Label choices)) = List.length choices) by (rewrite length_isort, map_length; reflexivity).
    rewrite LI. destruct (Nat.eqb_spec 0 (List.length choices)) as [E|_]; [exfalso; apply Z; symmetry; exact E|]. cbn [andb Nat.ltb Nat.leb].
    unfold single_container. do 2 f_equal. apply map_ext. intros l. f_equal. f_equal. clear. induction ps as [|p ps IH]; [reflexivity|]. cbn. f_equal. exact IH. }
  unfold parse_lag. fold (lag_ext k). rewrite P. cbn [result_bind]. eexists. split; [reflexivity|].
  set (c0 := single_container _ _). set (d := map (fun c => (Label c, constant MIN_FLOAT)) choices).
  assert (K0 : dict_keys c0 = isort level_leb (map Label choices)) by (unfold dict_keys; apply single_keys).
  assert (KD : dict_keys (dict_update level_eq_dec d c0) = map Label choices).
  { rewrite dict_keys_update_incl; [unfold d, dict_keys; rewrite map_map; reflexivity|].
    intros l I. rewrite K0 in I. apply In_isort in I. unfold d, dict_keys. rewrite map_map. exact I. }
  assert (GT : forall j label p, nth_error choices j = Some label -> nth_error ps j = Some p ->
    dict_get level_eq_dec (Label label) (dict_update level_eq_dec d c0) = Some [("constant", p)]).
  { intros j label p J1 J2. rewrite dict_get_update_in.
    - apply (single_get _ _ NL) with (k := j).
      + rewrite !map_length. exact L.
      + rewrite nth_error_map, J1. reflexivity.
      + rewrite nth_error_map, J2. reflexivity.
    - rewrite K0. apply NoDup_isort. exact NL.
    - rewrite K0. apply In_isort. apply in_map. apply (nth_error_In _ _ J1). }
  split; [exact KD|].
  assert (SS : map snd (dict_update level_eq_dec d c0) = map (fun p => [("constant", p)]) ps).
  { assert (LU : List.length (dict_update level_eq_dec d c0) = List.length choices) by (rewrite <- (map_length fst); unfold dict_keys in KD; rewrite KD, map_length; reflexivity).
    apply list_eq_nth_error. intros j. rewrite !nth_error_map.
    destruct (nth_error (dict_update level_eq_dec d c0) j) as [[l v]|] eqn:J.
    - assert (J1 : nth_error (map Label choices) j = Some l) by (rewrite <- KD; unfold dict_keys; rewrite nth_error_map, J; reflexivity).
      rewrite nth_error_map in J1. destruct (nth_error choices j) as [label|] eqn:J2; [|discriminate]. injection J1 as <-.
      assert (J3 : nth_error ps j <> None) by (apply nth_error_Some; rewrite L; apply nth_error_Some; congruence).
      destruct (nth_error ps j) as [p|] eqn:J4; [|contradiction]. cbn [option_map snd].
      pose proof (GT j label p J2 J4) as X.
      assert (Y : dict_get level_eq_dec (Label label) (dict_update level_eq_dec d c0) = Some v).
      { apply dict_get_In_NoDup; [rewrite KD; exact NL|apply (nth_error_In _ _ J)]. }
      congruence.
    - apply nth_error_None in J. assert (Z : nth_error ps j = None) by (apply nth_error_None; lia). rewrite Z. reflexivity. }
  intros j label p J1 J2. unfold logit_probability. rewrite (GT j label p J1 J2), logit_index_constant.
  assert (T : rsum (map (fun lr => exp (logit_index (snd lr))) (dict_update level_eq_dec d c0)) = rsum (map exp ps)); [|rewrite T; reflexivity].
  transitivity (rsum (map (fun r => exp (logit_index r)) (map snd (dict_update level_eq_dec d c0)))); [rewrite map_map; reflexivity|].
  rewrite SS, map_map. f_equal. apply map_ext. intros x. rewrite logit_index_constant. reflexivity.
Qed.
End Lags.

(** ** Types *)

Lemma word_app : forall a b, word a -> word b -> word (a ++ b)%string.
Proof. intros a b A B. unfold word in *. rewrite all_chars_append, A, B. reflexivity. Qed.
Lemma digit_word : forall s, all_chars is_digit s = true -> word s.
Proof.
  unfold word. induction s as [|c s IH]; [reflexivity|]. cbn [all_chars]. intros H. apply andb_true_iff in H. destruct H as [H1 H2].
  rewrite (IH H2), andb_true_r. unfold is_word. rewrite H1, orb_true_r. reflexivity.
Qed.
Lemma dec_word : forall n, word (dec n).
Proof. intros n. apply digit_word. apply dec_digits_only. Qed.

Section TypesTemplate.
Variables (base : list param) (n covs : nat).
Hypothesis WB : forall p, In p base -> word (p_category p) /\ word (p_name p).
Hypothesis NB : forall p d, In p base -> all_digits d = true -> p_category p <> ("type_" ++ d)%string /\ p_name p <> ("type_" ++ d)%string.
Hypothesis N2 : 2 <= n.

Lemma prob_rows : forall p, In p (type_prob_template n covs) -> exists t, 1 <= t < n /\ p_category p = ("type_" ++ dec t)%string /\
  In (p_name p) ["constant"; "up_to_nine_years_edu"; "at_least_ten_years_edu"].
Proof.
  intros p I. apply in_flat_map in I. destruct I as [t [T I]]. apply in_seq in T. exists t. split; [lia|].
  apply in_app_or in I. destruct I as [I|I]; [destruct (Nat.eqb covs 3)|].
  - destruct I as [<-|[]]. cbn. auto.
  - destruct I.
  - destruct I as [<-|[<-|[]]]; cbn; auto.
Qed.
Lemma shift_rows : forall p, In p (type_shift_template n) <-> exists t c, 1 <= t < n /\ In c ["a"; "b"; "edu"; "home"] /\
  p = (((if mem c ["a"; "b"] then "wage_" else "nonpec_") ++ c)%string, ("type_" ++ dec t)%string, 0%R).
Proof.
  intros p. unfold type_shift_template. rewrite in_flat_map. split.
  - intros [t [T I]]. apply in_seq in T. apply in_map_iff in I. destruct I as [c [<- I]]. exists t, c. split; [lia|]. auto.
  - intros [t [c [T [C ->]]]]. exists t. split; [apply in_seq; lia|]. apply in_map_iff. exists c. auto.
Qed.
Lemma prob_row : forall t, 1 <= t < n -> exists p, In p (type_prob_template n covs) /\ p_category p = ("type_" ++ dec t)%string.
Proof.
  intros t T. exists (("type_" ++ dec t)%string, "at_least_ten_years_edu", 0%R). split; [|reflexivity].
  apply in_flat_map. exists t. split; [apply in_seq; lia|]. apply in_or_app. right. right. left. reflexivity.
Qed.

Lemma types_template : exists c, parse_types (csv_template base n covs) = Ok (n, Some c) /\ map fst c = map Number (seq 0 n).
Proof.
  unfold csv_template. destruct (Nat.ltb_spec 1 n) as [_|H]; [|lia].
  set (params := base ++ type_prob_template n covs ++ type_shift_template n).
  assert (SP : forall p, In p params -> In p base \/ In p (type_prob_template n covs) \/ In p (type_shift_template n)).
  { intros p I. apply in_app_or in I. destruct I as [I|I]; [auto|]. apply in_app_or in I. auto. }
  assert (TD : forall d t, ("type_" ++ d = "type_" ++ dec t)%string -> digits_value 0 d = t).
  { intros d t E. apply (append_inj_l "type_") in E. subst d. apply digits_dec. }
  assert (WC : forall p, In p params -> word (p_category p)).
  { intros p I. destruct (SP p I) as [J|[J|J]].
    - apply WB. exact J.
    - destruct (prob_rows p J) as [t [_ [E _]]]. rewrite E. apply word_app; [reflexivity|apply dec_word].
    - apply shift_rows in J. destruct J as [t [c [_ [C ->]]]]. destruct C as [<-|[<-|[<-|[<-|[]]]]]; reflexivity. }
  assert (WN : forall p, In p params -> word (p_name p)).
  { intros p I. destruct (SP p I) as [J|[J|J]].
    - apply WB. exact J.
    - destruct (prob_rows p J) as [t [_ [_ E]]]. destruct E as [<-|[<-|[<-|[]]]]; reflexivity.
    - apply shift_rows in J. destruct J as [t [c [_ [C ->]]]]. cbn [p_name fst snd]. apply word_app; [reflexivity|apply dec_word]. }
  assert (TN : forall i, type_named params i <-> 1 <= i < n).
  { intros i. split.
    - intros [p [d [I [E [A <-]]]]]. destruct (SP p I) as [J|[J|J]].
      + exfalso. destruct (NB p d J A) as [_ Y]. exact (Y E).
      + exfalso. destruct (prob_rows p J) as [t [_ [_ X]]]. rewrite E in X. destruct X as [X|[X|[X|[]]]]; discriminate.
      + apply shift_rows in J. destruct J as [t [c [T [C ->]]]]. cbn [p_name fst snd] in E. rewrite (TD d t (eq_sym E)). exact T.
    - intros T. exists ("wage_a", ("type_" ++ dec i)%string, 0%R), (dec i). split; [|split; [reflexivity|split; [apply all_digits_dec|apply digits_dec]]].
      apply in_or_app. right. apply in_or_app. right. apply shift_rows. exists i, "a". split; [exact T|]. split; [left; reflexivity|reflexivity]. }
  assert (NT : infer_number_of_types params = n).
  { destruct (number_of_types params WN) as [B1 B2]. assert (n - 1 < infer_number_of_types params) by (apply B1; apply TN; lia).
    destruct B2 as [B2|B2]; [lia|]. apply TN in B2. lia. }
  assert (Z1 : ~ In "type_0" (map p_category params)).
  { intros I. apply in_map_iff in I. destruct I as [p [E I]]. destruct (SP p I) as [J|[J|J]].
    - destruct (NB p "0" J eq_refl) as [X _]. apply X. exact E.
    - destruct (prob_rows p J) as [t [T [X _]]]. rewrite E in X. pose proof (TD "0" t X) as D. cbn in D. lia.
    - apply shift_rows in J. destruct J as [t [c [_ [C ->]]]]. destruct C as [<-|[<-|[<-|[<-|[]]]]]; discriminate. }
  assert (Z2 : ~ In "type_0" (map p_name params)).
  { intros I. apply in_map_iff in I. destruct I as [p [E I]].
    assert (X : type_named params 0) by (exists p, "0"; auto). apply TN in X. lia. }
  assert (P : exists c, parse_group (extract "type_" is_digit) params = Ok (Some c)).
  { destruct (prob_row 1 ltac:(lia)) as [p [I E]].
    assert (D : describes (extract "type_" is_digit) params p (dec 1)).
    { split; [apply in_or_app; right; apply in_or_app; left; exact I|]. rewrite E. reflexivity. }
    assert (NP : forall q s, describes (extract "type_" is_digit) params q s -> p_name q <> "probability").
    { intros q s [Iq Eq] X.
      assert (WE : good is_digit s /\ p_category q = ("type_" ++ s)%string).
      { apply (extract_word_iff "type_" is_digit ltac:(discriminate) eq_refl ltac:(intros a A; unfold is_word; rewrite A, orb_true_r; reflexivity)) in Eq; [exact Eq|apply WC; exact Iq]. }
      destruct WE as [[G1 G2] WE]. destruct (SP q Iq) as [J|[J|J]].
      - destruct (NB q s J) as [Y _]; [|exact (Y WE)]. unfold all_digits. rewrite all_digits_go, G2, andb_true_r. destruct (String.eqb_spec s ""); [contradiction|reflexivity].
      - destruct (prob_rows q J) as [t [_ [_ Y]]]. rewrite X in Y. destruct Y as [Y|[Y|[Y|[]]]]; discriminate.
      - apply shift_rows in J. destruct J as [t [c [_ [C ->]]]]. discriminate. }
    destruct (parse_group (extract "type_" is_digit) params) as [[c|]| | | | |] eqn:G; [eauto|..].
    - exfalso. apply Proof_ParamsMore.parse_group_none in G. apply G. exists p, (dec 1). exact D.
    - exfalso. unfold parse_group in G. destruct (Nat.eqb _ 0); try discriminate. destruct (_ && _); try discriminate. destruct (Nat.ltb _ _); discriminate.
    - exfalso. apply mixing in G. destruct G as [[q [s [Dq Nq]]] _]. exact (NP q s Dq Nq).
    - exfalso. unfold parse_group in G. destruct (Nat.eqb _ 0); try discriminate. destruct (_ && _); try discriminate. destruct (Nat.ltb _ _); discriminate.
    - exfalso. unfold parse_group in G. destruct (Nat.eqb _ 0); try discriminate. destruct (_ && _); try discriminate. destruct (Nat.ltb _ _); discriminate.
    - exfalso. unfold parse_group in G. destruct (Nat.eqb _ 0); try discriminate. destruct (_ && _); try discriminate. destruct (Nat.ltb _ _); discriminate. }
  destruct P as [c P]. unfold parse_types.
  assert (M1 : mem "type_0" (map p_category params) = false) by (destruct (mem "type_0" (map p_category params)) eqn:E; [exfalso; apply Z1; apply mem_iff; exact E|reflexivity]).
  assert (M2 : mem "type_0" (map p_name params) = false) by (destruct (mem "type_0" (map p_name params)) eqn:E; [exfalso; apply Z2; apply mem_iff; exact E|reflexivity]).
  rewrite M1, M2, NT. cbv zeta. destruct (Nat.leb_spec 2 n); [|lia]. rewrite P. cbn [result_bind]. eexists. split; [reflexivity|].
  change (map fst (dict_update level_eq_dec (map (fun i => (Number i, constant 0)) (seq 0 n)) c)) with (dict_keys (dict_update level_eq_dec (map (fun i => (Number i, constant 0)) (seq 0 n)) c)).
  rewrite dict_keys_update_incl; [unfold dict_keys; rewrite map_map; reflexivity|].
  intros l I. apply (Proof_ParamsMore.parse_group_keys _ _ _ P) in I. destruct I as [q [s [[Iq Eq] L]]].
  assert (WE : forall q s, In q params -> extract "type_" is_digit (p_category q) = Some s -> all_digits s = true /\ digits_value 0 s < n).
  { clear q s Iq Eq L. intros q s Iq Eq.
    apply (extract_word_iff "type_" is_digit ltac:(discriminate) eq_refl ltac:(intros a A; unfold is_word; rewrite A, orb_true_r; reflexivity)) in Eq; [|apply WC; exact Iq].
    destruct Eq as [[G1 G2] WE].
    assert (AD : all_digits s = true) by (unfold all_digits; rewrite all_digits_go, G2, andb_true_r; destruct (String.eqb_spec s ""); [contradiction|reflexivity]).
    split; [exact AD|]. destruct (SP q Iq) as [J|[J|J]].
    - exfalso. destruct (NB q s J AD) as [Y _]. exact (Y WE).
    - destruct (prob_rows q J) as [t [T [X _]]]. rewrite WE in X. rewrite (TD s t X). lia.
    - exfalso. apply shift_rows in J. destruct J as [t [k [_ [C ->]]]]. destruct C as [<-|[<-|[<-|[<-|[]]]]]; discriminate. }
  inversion L as [NU E|NU E]; subst l.
  - unfold dict_keys. rewrite map_map. cbn [fst]. apply in_map. apply in_seq. destruct (WE q s Iq Eq). lia.
  - exfalso. apply NU. intros p t [Ip Ep]. apply (WE p t Ip Ep).
Qed.
End TypesTemplate.

(** ** Initial experience *)

Lemma combine_some : forall A B (l : list A) (l' : list B), List.length l' = List.length l -> l <> [] -> exists a b, In (a, b) (combine l l').
Proof. intros A B [|a l] [|b l'] E N; try discriminate; [contradiction|]. exists a, b. left. reflexivity. Qed.
Lemma combine_nth : forall A B i (l : list A) (l' : list B) a b, nth_error l i = Some a -> nth_error l' i = Some b -> In (a, b) (combine l l').
Proof.
  intros A B. induction i as [|i IH]; intros [|x l] [|y l'] a b E F; try discriminate; cbn in *; [left; congruence|].
  right. apply IH; assumption.
Qed.

Section Experience.
Variables (base : list param) (starts : list nat) (shares : list R) (top n : nat).
Hypothesis WB : forall p, In p base -> word (p_category p).
Hypothesis NB : forall p d, In p base -> p_category p <> ("initial_exp_edu_" ++ d)%string.
Hypothesis NM : forall v, ~ In ("maximum_exp", "edu", v) base.
Hypothesis LS : List.length shares = List.length starts.
Let params := base ++ initial_and_max_experience_template starts shares (INR top).

Lemma se_words : forall p, In p params -> word (p_category p).
Proof.
  intros p I. apply in_app_or in I. destruct I as [I|I]; [apply WB; exact I|]. apply in_app_or in I. destruct I as [I|[<-|[]]]; [|reflexivity].
  apply in_map_iff in I. destruct I as [[k v] [<- _]]. cbn [p_category fst]. apply word_app; [reflexivity|apply dec_word].
Qed.
Lemma se_level : forall s d, word s -> (exp_levels "edu" s = Some d <-> all_digits d = true /\ s = ("initial_exp_edu_" ++ d)%string).
Proof. intros s d W. rewrite (extract_level "edu" s d W); [reflexivity|]. split; [discriminate|reflexivity]. Qed.
Lemma se_max : param_value params "maximum_exp" "edu" = Ok (INR top).
Proof.
  apply value_is_find. split.
  - apply in_or_app. right. apply in_or_app. right. left. reflexivity.
  - intros w I. apply in_app_or in I. destruct I as [I|I]; [exfalso; exact (NM w I)|]. apply in_app_or in I. destruct I as [I|[I|[]]].
    + apply in_map_iff in I. destruct I as [[k v] [E _]]. discriminate.
    + congruence.
Qed.
Lemma se_rows : group_rows (exp_levels "edu") params = map (fun sp => (dec (fst sp), ("probability", snd sp))) (combine starts shares).
Proof.
  unfold params. rewrite group_rows_app, group_rows_none.
  2:{ intros p I. destruct (exp_levels "edu" (p_category p)) as [d|] eqn:E; [|reflexivity]. exfalso.
      apply se_level in E; [|apply WB; exact I]. destruct E as [_ E]. exact (NB p d I E). }
  cbn [app]. unfold initial_and_max_experience_template. rewrite group_rows_app.
  assert (M : group_rows (exp_levels "edu") [("maximum_exp", "edu", INR top)] = []) by reflexivity. rewrite M, app_nil_r.
  induction (combine starts shares) as [|[k v] l IH]; [reflexivity|]. cbn [map]. rewrite group_rows_cons. unfold p_category, p_name. cbn [fst snd].
  assert (E : exp_levels "edu" ("initial_exp_edu_" ++ dec k)%string = Some (dec k)).
  { apply se_level; [apply word_app; [reflexivity|apply dec_word]|]. split; [apply all_digits_dec|reflexivity]. }
  rewrite E, IH. reflexivity.
Qed.
Lemma se_describes : forall p d, describes (exp_levels "edu") params p d <->
  exists k v, In (k, v) (combine starts shares) /\ d = dec k /\ p = (("initial_exp_edu_" ++ dec k)%string, "probability", v).
Proof.
  intros p d. split.
  - intros [I E]. pose proof (se_words p I) as W. apply se_level in E; [|exact W]. destruct E as [A E].
    apply in_app_or in I. destruct I as [I|I]; [exfalso; exact (NB p d I E)|]. apply in_app_or in I. destruct I as [I|[<-|[]]]; [|discriminate].
    apply in_map_iff in I. destruct I as [[k v] [X I]]. exists k, v. split; [exact I|]. subst p. cbn [p_category fst] in E.
    apply (append_inj_l "initial_exp_edu_") in E. split; [symmetry; exact E|reflexivity].
  - intros [k [v [I [-> ->]]]]. split.
    + apply in_or_app. right. apply in_or_app. left. apply in_map_iff. exists (k, v). auto.
    + apply se_level; [apply word_app; [reflexivity|apply dec_word]|]. split; [apply all_digits_dec|reflexivity].
Qed.
Lemma se_numeric : numeric_levels (exp_levels "edu") params.
Proof. intros p s D. apply se_describes in D. destruct D as [k [v [_ [-> _]]]]. apply all_digits_dec. Qed.
Lemma se_lv : forall k, lv (exp_levels "edu") params (dec k) = Number k.
Proof.
  intros k. symmetry. apply level_of_iff. rewrite <- (digits_dec k) at 2. apply level_number. exact se_numeric.
Qed.
Lemma se_combine : forall A B (l : list A) (l' : list B), List.length l' = List.length l -> map fst (combine l l') = l /\ map snd (combine l l') = l'.
Proof.
  intros A B. induction l as [|x l IH]; intros [|y l'] E; try discriminate; [auto|]. injection E as E. cbn. destruct (IH l' E). split; congruence.
Qed.
Lemma se_total : group_total (exp_levels "edu") params = rsum shares.
Proof. rewrite group_total_rows, se_rows, map_map. cbn [snd]. destruct (se_combine _ _ starts shares LS) as [_ E]. exact (f_equal rsum E). Qed.
Lemma se_levels_list : map (lv (exp_levels "edu") params) (map fst (group_rows (exp_levels "edu") params)) = map Number starts.
Proof.
  rewrite se_rows, !map_map. cbn [fst]. destruct (se_combine _ _ starts shares LS) as [E _]. transitivity (map Number (map fst (combine starts shares))); [rewrite map_map; apply map_ext; intros [k v]; apply se_lv|rewrite E; reflexivity].
Qed.

Lemma truncate_INR : truncate (INR top) = Z.of_nat top.
Proof.
  unfold truncate. destruct (Rle_dec 0 (INR top)) as [_|N]; [|exfalso; apply N; apply pos_INR].
  rewrite INR_IZR_INZ. pose proof (base_Int_part (IZR (Z.of_nat top))) as [B1 B2].
  assert (U : (Int_part (IZR (Z.of_nat top)) <= Z.of_nat top)%Z) by (apply le_IZR; exact B1).
  assert (L : (Z.of_nat top < Int_part (IZR (Z.of_nat top)) + 1)%Z) by (apply lt_IZR; rewrite plus_IZR; lra). lia.
Qed.

Lemma experience_template : starts <> [] -> NoDup starts -> rsum shares = 1%R -> (forall s, In s shares -> (1 / MAX_FLOAT <= s)%R) ->
  exists c, parse_experience n params "edu" = Ok (c, Z.of_nat top) /\
    (forall l, In l (map fst c) <-> exists k, In k starts /\ l = Number k) /\
    forall i k s, nth_error starts i = Some k -> nth_error shares i = Some s -> logit_probability c (Number k) = s.
Proof.
  intros NE ND SUM LARGE.
  destruct (probabilities_ok (exp_levels "edu") params) as [c [C1 [_ [C3 C4]]]].
  - destruct (combine_some _ _ starts shares LS NE) as [k [v I]].
    exists (("initial_exp_edu_" ++ dec k)%string, "probability", v), (dec k). apply se_describes. exists k, v. auto.
  - intros p s D. apply se_describes in D. destruct D as [k [v [_ [_ ->]]]]. reflexivity.
  - apply distinct_of_NoDup. rewrite se_levels_list. apply FinFun.Injective_map_NoDup; [intros a b E; congruence|exact ND].
  - rewrite se_total, SUM. lra.
  - intros p s D. apply se_describes in D. destruct D as [k [v [I [_ ->]]]]. rewrite se_total, SUM. cbn [snd]. apply LARGE. apply in_combine_r in I. exact I.
  - exists c. unfold parse_experience. fold (exp_levels "edu"). rewrite C1. cbn [result_bind]. rewrite se_max, truncate_INR. split; [reflexivity|]. split.
    + intros l. rewrite C3. split.
      * intros [p [s [D L]]]. apply se_describes in D. destruct D as [k [v [I [-> _]]]]. exists k. split; [apply in_combine_l in I; exact I|].
        apply level_of_iff in L. rewrite se_lv in L. exact L.
      * intros [k [I ->]]. apply In_nth_error in I. destruct I as [i I].
        assert (V : nth_error shares i <> None) by (apply nth_error_Some; rewrite LS; apply nth_error_Some; congruence).
        destruct (nth_error shares i) as [v|] eqn:J; [|contradiction].
        exists (("initial_exp_edu_" ++ dec k)%string, "probability", v), (dec k). split.
        -- apply se_describes. exists k, v. split; [exact (combine_nth _ _ i _ _ _ _ I J)|auto].
        -- apply level_of_iff. symmetry. apply se_lv.
    + intros i k s I J. rewrite (C4 (("initial_exp_edu_" ++ dec k)%string, "probability", s) (dec k) (Number k)).
      * cbn [snd]. rewrite se_total, SUM. field.
      * apply se_describes. exists k, s. split; [exact (combine_nth _ _ i _ _ _ _ I J)|auto].
      * apply level_of_iff. symmetry. apply se_lv.
Qed.

Lemma experience_twice : ~ NoDup starts -> parse_experience n params "edu" = ValueError.
Proof.
  intros ND. unfold parse_experience. fold (exp_levels "edu").
  assert (E : parse_group (exp_levels "edu") params = ValueError).
  { apply mixing. split.
    - assert (NE : starts <> []) by (intros Z; apply ND; rewrite Z; constructor).
      destruct (combine_some _ _ starts shares LS NE) as [k [v I]].
      exists (("initial_exp_edu_" ++ dec k)%string, "probability", v), (dec k). split; [|reflexivity]. apply se_describes. exists k, v. auto.
    - right. intros D. apply NoDup_levels in D. rewrite se_levels_list in D. apply NoDup_map_inv in D. contradiction. }
  rewrite E. reflexivity.
Qed.
End Experience.

(** ** Observables *)

Lemma position_unique : forall A (f : A -> bool) l i j c, NoDup (filter f l) -> nth_error l i = Some c -> nth_error l j = Some c -> f c = true -> i = j.
Proof.
  intros A f. induction l as [|x l IH]; intros i j c N Hi Hj F; [destruct i; discriminate|].
  cbn [filter] in N.
  assert (T : forall k, nth_error l k = Some c -> In c (filter f l)) by (intros k K; apply filter_In; split; [apply (nth_error_In _ _ K)|exact F]).
  destruct i as [|i], j as [|j]; cbn in Hi, Hj; [reflexivity|..].
  - injection Hi as ->. rewrite F in N. inversion N; subst. exfalso. apply H1. apply (T j Hj).
  - injection Hj as ->. rewrite F in N. inversion N; subst. exfalso. apply H1. apply (T i Hi).
  - f_equal. apply (IH i j c); auto. destruct (f x); [inversion N; assumption|exact N].
Qed.
Lemma NoDup_map_trans : forall A B C (f : A -> B) (g : B -> C) l, NoDup (map f l) ->
  (forall x y, In x l -> In y l -> g (f x) = g (f y) -> f x = f y) -> NoDup (map (fun x => g (f x)) l).
Proof.
  intros A B C f g. induction l as [|x l IH]; intros N H; [constructor|]. cbn [map] in *. inversion N as [|? ? NI N']; subst. constructor.
  - intros I. apply in_map_iff in I. destruct I as [y [E I]]. apply NI. apply in_map_iff. exists y. split; [|exact I].
    apply H; [right; exact I|left; reflexivity|exact E].
  - apply IH; [exact N'|]. intros y z Y Z. apply H; right; assumption.
Qed.

Section Observables.
Variables (base : list param) (probs : list (list R)).
Hypothesis WB : forall p, In p base -> word (p_category p).
Hypothesis NB : forall p r, In p base -> p_category p <> ("observable_" ++ r)%string.
Hypothesis L2 : forall ps, In ps probs -> 2 <= List.length ps.
Let params := base ++ observable_prob_template probs.

Definition so_name (i : nat) : string := ("observable_" ++ dec i)%string.
Definition so_index : list (nat * nat * R) :=
  flat_map (fun ip => map (fun jp => (fst ip, fst jp, snd jp)) (enumerate (snd ip))) (enumerate probs).
Definition so_row (t : nat * nat * R) : string * string := (so_name (fst (fst t)), dec (snd (fst t))).
Definition so_param (t : nat * nat * R) : param := (observable_category "observable" (so_row t), "probability", snd t).

Lemma so_template : observable_prob_template probs = map so_param so_index.
Proof.
  unfold observable_prob_template, so_index. rewrite !flat_map_concat_map, concat_map, map_map. f_equal. apply map_ext. intros [i ps].
  rewrite map_map. apply map_ext. intros [j p]. unfold so_param, so_row, so_name, observable_category. cbn [fst snd].
  rewrite !append_assoc_s. reflexivity.
Qed.
Lemma so_In : forall i j p, In (i, j, p) so_index <-> exists ps, nth_error probs i = Some ps /\ nth_error ps j = Some p.
Proof.
  intros i j p. unfold so_index. rewrite in_flat_map. split.
  - intros [[i' ps] [I J]]. apply In_enumerate in I. apply in_map_iff in J. destruct J as [[j' p'] [E J]]. cbn in E. injection E as -> -> ->.
    apply In_enumerate in J. eauto.
  - intros [ps [I J]]. exists (i, ps). split; [apply In_enumerate; exact I|]. apply in_map_iff. exists (j, p). split; [reflexivity|]. apply In_enumerate. exact J.
Qed.
Lemma so_NoDup_rows : NoDup (map so_row so_index).
Proof.
  assert (K : NoDup (map fst so_index)).
  { unfold so_index. rewrite flat_map_concat_map, concat_map, map_map, <- flat_map_concat_map.
    apply NoDup_flat_map_intro.
    - apply NoDup_enumerate_from.
    - intros [i ps] _. rewrite map_map. cbn [fst snd]. 
      rewrite <- (map_map fst (fun j => (i, j))). apply FinFun.Injective_map_NoDup; [intros a b E; congruence|]. unfold enumerate. rewrite map_fst_enumerate_from. apply seq_NoDup.
    - intros [i ps] [i' ps'] [a b] I I' J J'. rewrite map_map in J, J'. apply in_map_iff in J. apply in_map_iff in J'.
      destruct J as [[j p] [E _]]. destruct J' as [[j' p'] [E' _]]. cbn in E, E'. apply In_enumerate in I. apply In_enumerate in I'.
      assert (i = i') by congruence. subst i'. congruence. }
  assert (EQ : map so_row so_index = map (fun ij : nat * nat => (so_name (fst ij), dec (snd ij))) (map fst so_index)) by (rewrite map_map; reflexivity).
  rewrite EQ.
  apply FinFun.Injective_map_NoDup; [|exact K]. intros [a b] [a' b'] E. cbn in E. injection E as E1 E2.
  apply dec_inj in E1. apply dec_inj in E2. congruence.
Qed.

Definition so_rows : list (string * string) := map so_row so_index.
Lemma so_categories : map p_category (observable_prob_template probs) = map (observable_category "observable") so_rows.
Proof. rewrite so_template. unfold so_rows. rewrite !map_map. reflexivity. Qed.
Lemma so_prefix : forall r, prefix "observable_" (observable_category "observable" r) = true.
Proof. intros [n l]. apply prefix_iff. exists (n ++ "_" ++ l)%string. reflexivity. Qed.
Lemma so_filter : filter (prefix ("observable" ++ "_")) (map p_category params) = map (observable_category "observable") so_rows.
Proof.
  unfold params. rewrite map_app, filter_app, so_categories.
  assert (Z : filter (prefix ("observable" ++ "_")) (map p_category base) = []).
  { clear - NB. induction base as [|p b IH]; [reflexivity|]. cbn [map filter].
    assert (E : prefix ("observable" ++ "_") (p_category p) = false).
    { destruct (prefix _ _) eqn:E; [|reflexivity]. exfalso. apply prefix_iff in E. destruct E as [r E]. exact (NB p r (or_introl eq_refl) E). }
    rewrite E. apply IH. intros q r I. apply NB. right. exact I. }
  rewrite Z. cbn [app]. clear. induction so_rows as [|r l IH]; [reflexivity|]. cbn [map filter].
  change ("observable" ++ "_")%string with "observable_" in *. rewrite so_prefix, IH. reflexivity.
Qed.
Lemma so_In_rows : forall n l, In (n, l) so_rows <-> exists i j p ps, n = so_name i /\ l = dec j /\ nth_error probs i = Some ps /\ nth_error ps j = Some p.
Proof.
  intros n l. unfold so_rows. rewrite in_map_iff. split.
  - intros [[[i j] p] [E I]]. apply so_In in I. destruct I as [ps [I J]]. unfold so_row in E. cbn [fst snd] in E. injection E as <- <-. exists i, j, p, ps. auto.
  - intros [i [j [p [ps [-> [-> [I J]]]]]]]. exists (i, j, p). split; [reflexivity|]. apply so_In. eauto.
Qed.
Lemma so_names : forall n, In n (map fst so_rows) <-> exists i, i < List.length probs /\ n = so_name i.
Proof.
  intros n. split.
  - intros I. apply in_map_iff in I. destruct I as [[m l] [E I]]. cbn in E. subst m. apply so_In_rows in I. destruct I as [i [j [p [ps [-> [_ [I _]]]]]]].
    exists i. split; [apply nth_error_Some; congruence|reflexivity].
  - intros [i [I ->]]. destruct (nth_error probs i) as [ps|] eqn:E; [|exfalso; apply nth_error_Some in I; contradiction].
    pose proof (L2 ps (nth_error_In _ _ E)) as L. destruct ps as [|p ps]; [cbn in L; lia|].
    apply in_map_iff. exists (so_name i, dec 0). split; [reflexivity|]. apply so_In_rows. exists i, 0, p, (p :: ps). auto.
Qed.
Lemma so_proper : forall i, proper_name (so_name i).
Proof.
  intros i. split; [discriminate|]. intros [m E].
  assert (H : has_char "_" (dec i) = true).
  { assert (D : exists y, y <> "" /\ dec i = y). { exists (dec i). split; [apply dec_nonempty|reflexivity]. }
    destruct D as [y [NE D]]. unfold so_name in E. rewrite D in E.
    assert (G : forall a y m, y <> "" -> (a ++ y = m ++ "_")%string -> has_char "_" y = true).
    { clear. induction a as [|c a IH]; intros y m N E.
      - cbn in E. subst y. rewrite has_char_append. cbn. apply orb_true_r.
      - destruct m as [|d m]; cbn in E; injection E as E1 E2; [|apply (IH y m N E2)].
        destruct a; [cbn in E2; contradiction|discriminate]. }
    rewrite D. exact (G _ _ _ NE E). }
  rewrite digits_no_underscore in H. discriminate.
Qed.
Lemma so_count : forall i, i < List.length probs -> 2 <= count_occ string_dec (map fst so_rows) (so_name i).
Proof.
  intros i I. destruct (nth_error probs i) as [ps|] eqn:E; [|exfalso; apply nth_error_Some in I; contradiction].
  pose proof (L2 ps (nth_error_In _ _ E)) as L. destruct ps as [|p [|q ps]]; [cbn in L; lia..|].
  assert (R0 : In (so_name i, dec 0) so_rows) by (apply so_In_rows; exists i, 0, p, (p :: q :: ps); auto).
  assert (R1 : In (so_name i, dec 1) so_rows) by (apply so_In_rows; exists i, 1, q, (p :: q :: ps); auto).
  apply in_split in R0. destruct R0 as [a [b R0]]. rewrite R0 in R1 |- *. rewrite map_app, count_occ_app. cbn [map fst count_occ].
  destruct (string_dec (so_name i) (so_name i)) as [_|N]; [|contradiction].
  apply in_app_or in R1. destruct R1 as [R1|[R1|R1]]; [|discriminate|].
  - apply (in_map fst) in R1. apply (count_occ_In string_dec) in R1. cbn [fst] in R1. lia.
  - apply (in_map fst) in R1. apply (count_occ_In string_dec) in R1. cbn [fst] in R1. lia.
Qed.
Lemma so_simple : simple_rows so_rows.
Proof.
  intros n l I. pose proof I as I'. apply so_In_rows in I. destruct I as [i [j [p [ps [-> [-> [I J]]]]]]].
  split; [apply so_proper|]. split.
  - intros S1. apply has_underscore_iff in S1. assert (X : has_char "_" (dec j) = has_underscore (dec j)).
    { clear. induction (dec j) as [|c s IH]; [reflexivity|]. cbn. rewrite IH. reflexivity. }
    rewrite digits_no_underscore in X. congruence.
  - apply so_count. apply nth_error_Some. congruence.
Qed.

Lemma so_too_many : 11 <= List.length probs -> parse_variables "observable" params = ValueError.
Proof.
  intros L. unfold parse_variables.
  rewrite (substring_names_error "observable" (map p_category params) so_rows so_filter so_simple (so_name 1) (so_name 10)); [reflexivity|..].
  - apply so_names. exists 1. split; [lia|reflexivity].
  - apply so_names. exists 10. split; [lia|reflexivity].
  - discriminate.
  - apply substring_contains. reflexivity.
Qed.

Hypothesis L10 : List.length probs <= 10.

Lemma so_variables : variables "observable" params so_rows.
Proof.
  constructor.
  - intros p I. apply in_app_or in I. destruct I as [I|I]; [apply WB; exact I|]. rewrite so_template in I. apply in_map_iff in I.
    destruct I as [[[i j] v] [<- _]]. cbn [p_category so_param fst]. unfold observable_category, so_row, so_name. cbn [fst snd].
    repeat apply word_app; try reflexivity; apply dec_word.
  - exact so_filter.
  - exact so_simple.
  - intros n l I. apply so_In_rows in I. destruct I as [i [j [p [ps [-> [-> _]]]]]]. split; [apply dec_nonempty|].
    pose proof (dec_digits_only j) as D. revert D. generalize (dec j). clear. induction s as [|c s IH]; [reflexivity|]. cbn [all_chars]. intros H.
    apply andb_true_iff in H. destruct H as [H1 H2]. rewrite H1, (IH H2). reflexivity.
  - intros a b A B H. apply so_names in A. apply so_names in B. destruct A as [i [I ->]]. destruct B as [j [J ->]].
    apply substring_contains in H.
    assert (T : forallb (fun i => forallb (fun j => implb (contains (so_name i) (so_name j)) (Nat.eqb i j)) (seq 0 10)) (seq 0 10) = true) by (vm_compute; reflexivity).
    rewrite forallb_forall in T. specialize (T i ltac:(apply in_seq; lia)). rewrite forallb_forall in T. specialize (T j ltac:(apply in_seq; lia)).
    rewrite H in T. apply Nat.eqb_eq in T. subst. reflexivity.
Qed.

Lemma so_written : forall i j level, written_as so_rows (so_name i) (dec j) level <-> level = Number j.
Proof.
  intros i j level. unfold written_as. rewrite digits_dec.
  assert (A : forall l, In (so_name i, l) so_rows -> all_digits l = true).
  { intros l I. apply so_In_rows in I. destruct I as [i' [j' [p [ps [_ [-> _]]]]]]. apply all_digits_dec. }
  split.
  - intros [[_ H]|[[l [I H]] _]]; [exact H|]. rewrite (A l I) in H. discriminate.
  - intros ->. left. auto.
Qed.
Lemma so_name_inj : forall i j, so_name i = so_name j -> i = j.
Proof. intros i j E. apply (append_inj_l "observable_") in E. apply dec_inj. exact E. Qed.
Lemma so_category_inj : forall i j i' j', observable_category "observable" (so_name i, dec j) = observable_category "observable" (so_name i', dec j') -> i = i' /\ j = j'.
Proof.
  intros i j i' j' E. unfold observable_category, so_name in E. cbn [fst snd] in E. rewrite !append_assoc_s in E.
  apply (append_inj_l "observable") in E. apply (append_inj_l "_") in E. apply (append_inj_l "observable_") in E.
  change (dec i ++ String "_" (dec j) = dec i' ++ String "_" (dec j'))%string in E.
  apply split_at_char in E; [|apply digits_no_underscore..]. destruct E as [E1 E2]. split; apply dec_inj; assumption.
Qed.
Lemma so_param_In : forall p i j, In p params -> p_category p = observable_category "observable" (so_name i, dec j) ->
  exists v, In (i, j, v) so_index /\ p = so_param (i, j, v).
Proof.
  intros p i j I E. apply in_app_or in I. destruct I as [I|I].
  - exfalso. apply (NB p (so_name i ++ "_" ++ dec j)%string I). exact E.
  - rewrite so_template in I. apply in_map_iff in I. destruct I as [[[i' j'] v] [<- I]]. cbn [so_param p_category fst] in E.
    unfold so_row in E. cbn [fst snd] in E. apply so_category_inj in E. destruct E as [-> ->]. exists v. auto.
Qed.
Lemma so_no_mixture : forall n, In n (map fst so_rows) -> ~ mixture "observable" params so_rows n.
Proof.
  intros n Hn [_ M]. apply so_names in Hn. destruct Hn as [k [K ->]].
  assert (LV : forall p l, In p params -> p_category p = observable_category "observable" (so_name k, l) -> exists j v, l = dec j /\ p = so_param (k, j, v)).
  { intros p l I E. apply in_app_or in I. destruct I as [I|I].
    - exfalso. apply (NB p (so_name k ++ "_" ++ l)%string I). exact E.
    - rewrite so_template in I. apply in_map_iff in I. destruct I as [[[i' j'] v] [<- I]]. cbn [so_param p_category fst] in E.
      unfold so_row, observable_category, so_name in E. cbn [fst snd] in E. rewrite !append_assoc_s in E.
      apply (append_inj_l "observable") in E. apply (append_inj_l "_") in E. apply (append_inj_l "observable_") in E.
      change (dec i' ++ String "_" (dec j') = dec k ++ String "_" l)%string in E.
      apply split_at_char in E; [|apply digits_no_underscore..]. destruct E as [E1 E2]. apply dec_inj in E1. subst i'. exists j', v. auto. }
  destruct M as [[p [l [I [E N]]]]|M].
  - destruct (LV p l I E) as [j [v [_ ->]]]. apply N. reflexivity.
  - destruct M as [i [j [p [q [l [l' [level [N [Hi [Hj [Ei [Ej [Wi Wj]]]]]]]]]]]]]. apply N.
    destruct (LV p l (nth_error_In _ _ Hi) Ei) as [a [v [-> _]]]. destruct (LV q l' (nth_error_In _ _ Hj) Ej) as [b [w [-> _]]].
    apply so_written in Wi. apply so_written in Wj. assert (a = b) by congruence. subst b.
    apply (position_unique _ (prefix ("observable" ++ "_")) (map p_category params) i j (observable_category "observable" (so_name k, dec a))).
    + rewrite so_filter. unfold so_rows. rewrite map_map.
      apply (NoDup_map_trans _ _ _ so_row (observable_category "observable") so_index); [exact so_NoDup_rows|].
      intros [[i1 j1] v1] [[i2 j2] v2] _ _ E. unfold so_row in *. cbn [fst snd] in *. apply so_category_inj in E. destruct E as [-> ->]. reflexivity.
    + rewrite nth_error_map, Hi. exact (f_equal Some Ei).
    + rewrite nth_error_map, Hj. exact (f_equal Some Ej).
    + apply so_prefix.
Qed.

Lemma so_filter_block : forall i (f : param -> bool), (forall p t, In p params -> p = so_param t -> f p = Nat.eqb (fst (fst t)) i) ->
  (forall p, In p base -> f p = false) -> forall ps, nth_error probs i = Some ps -> map snd (filter f params) = ps.
Proof.
  intros i f F B ps H. unfold params. rewrite filter_app.
  assert (Z : filter f base = []).
  { clear - B. induction base as [|p b IH]; [reflexivity|]. cbn [filter]. rewrite (B p (or_introl eq_refl)). apply IH. intros q I. apply B. right. exact I. }
  rewrite Z. cbn [app]. rewrite so_template.
  assert (F' : forall t, In t so_index -> f (so_param t) = Nat.eqb (fst (fst t)) i).
  { intros t I. apply (F (so_param t) t); [|reflexivity]. apply in_or_app. right. rewrite so_template. apply in_map. exact I. }
  assert (G : map snd (filter f (map so_param so_index)) = map snd (filter (fun t => Nat.eqb (fst (fst t)) i) so_index)).
  { clear - F'. induction so_index as [|t l IH]; [reflexivity|]. cbn [map filter]. rewrite (F' t (or_introl eq_refl)).
    assert (IH' := IH (fun t' I => F' t' (or_intror I))). destruct (Nat.eqb _ _); cbn [map]; rewrite IH'; reflexivity. }
  rewrite G. clear - H. unfold so_index, enumerate.
  assert (K : forall l k, map snd (filter (fun t : nat * nat * R => Nat.eqb (fst (fst t)) i)
      (flat_map (fun ip => map (fun jp => (fst ip, fst jp, snd jp)) (enumerate_from 0 (snd ip))) (enumerate_from k l))) =
    match (if Nat.ltb i k then None else nth_error l (i - k)) with Some ps => ps | None => [] end).
  { clear. induction l as [|q l IH]; intros k; cbn [enumerate_from flat_map].
    - destruct (Nat.ltb i k); [reflexivity|]. destruct (i - k); reflexivity.
    - rewrite filter_app, map_app, IH. cbn [fst snd].
      assert (BL : forall m, map snd (filter (fun t : nat * nat * R => Nat.eqb (fst (fst t)) i) (map (fun jp => (k, fst jp, snd jp)) (enumerate_from m q))) = if Nat.eqb k i then q else []).
      { clear. induction q as [|x q IH]; intros m; [destruct (Nat.eqb k i); reflexivity|]. cbn [enumerate_from map filter fst snd].
        specialize (IH (S m)). destruct (Nat.eqb k i); cbn [map snd]; rewrite IH; reflexivity. }
      rewrite BL. clear BL IH. destruct (Nat.eqb_spec k i) as [E|N].
      + rewrite E, Nat.ltb_irrefl, Nat.sub_diag. destruct (Nat.ltb_spec i (S i)); [|lia]. cbn [nth_error]. apply app_nil_r.
      + cbn [app]. destruct (Nat.ltb_spec i (S k)); destruct (Nat.ltb_spec i k); try lia; [reflexivity|].
        replace (i - k) with (S (i - S k)) by lia. reflexivity. }
  rewrite K. cbn [Nat.ltb Nat.leb]. rewrite Nat.sub_0_r, H. reflexivity.
Qed.
Lemma so_sum : forall i ps, nth_error probs i = Some ps -> sum_of "observable" params so_rows (so_name i) = rsum ps.
Proof.
  intros i ps H. unfold sum_of. f_equal. apply (so_filter_block i); [| |exact H].
  - intros p t I ->. destruct t as [[i' j] v]. cbn [fst snd]. destruct (in_dec _ _ _) as [J|J].
    + apply in_map_iff in J. destruct J as [[n l] [E J]]. apply filter_In in J. destruct J as [J X]. cbn in X. apply String.eqb_eq in X. subst n.
      apply so_In_rows in J. destruct J as [i2 [j2 [p2 [ps2 [E1 [-> _]]]]]]. apply so_name_inj in E1. subst i2.
      unfold so_param, so_row, p_category in E. cbn [fst snd] in E. apply so_category_inj in E. destruct E as [-> _]. symmetry. apply Nat.eqb_refl.
    + destruct (Nat.eqb_spec i' i) as [->|N]; [|reflexivity]. exfalso. apply J. apply in_map_iff. exists (so_name i, dec j). split; [reflexivity|].
      apply filter_In. split; [|apply String.eqb_refl].
      destruct (so_param_In _ i j I eq_refl) as [w [W _]]. apply so_In in W. destruct W as [qs [W1 W2]]. apply so_In_rows. exists i, j, w, qs. auto.
  - intros p I. destruct (in_dec _ _ _) as [J|J]; [|reflexivity]. exfalso. apply in_map_iff in J. destruct J as [[n l] [E J]].
    apply (NB p (n ++ "_" ++ l)%string I). rewrite <- E. reflexivity.
Qed.

Lemma observables_template : (forall ps, In ps probs -> rsum ps = 1%R /\ forall p, In p ps -> (1 / MAX_FLOAT <= p)%R) ->
  exists vars, parse_variables "observable" params = Ok vars /\
  (forall n, In n (map fst vars) <-> exists i, i < List.length probs /\ n = ("observable_" ++ dec i)%string) /\
  forall i ps c, nth_error probs i = Some ps -> In (("observable_" ++ dec i)%string, c) vars ->
    (forall l, In l (map fst c) <-> exists j, j < List.length ps /\ l = Number j) /\
    forall j p, nth_error ps j = Some p -> logit_probability c (Number j) = p.
Proof.
  intros OK. destruct (variables_accepted _ _ _ so_variables) as [[_ A] _]. destruct (A so_no_mixture) as [vars V]. exists vars. split; [exact V|].
  destruct (variables_levels _ _ _ so_variables vars V) as [[_ LN] LV]. split; [intros n; rewrite LN; apply so_names|].
  intros i ps c H I. destruct (OK ps (nth_error_In _ _ H)) as [SUM LARGE]. split.
  - intros l. rewrite (LV _ _ I l). split.
    + intros [s [J W]]. apply so_In_rows in J. destruct J as [i' [j [p [qs [E [-> [I' J]]]]]]]. apply (so_name_inj i i') in E. subst i'.
      change (written_as so_rows (so_name i) (dec j) l) in W. apply so_written in W. exists j. split; [|exact W].
      apply nth_error_Some. congruence.
    + intros [j [J ->]]. destruct (nth_error ps j) as [p|] eqn:E; [|exfalso; apply nth_error_Some in J; contradiction].
      exists (dec j). split; [apply so_In_rows; exists i, j, p, ps; auto|]. apply (so_written i j). reflexivity.
  - intros j p J. assert (R0 : In (so_name i, dec j) so_rows) by (apply so_In_rows; exists i, j, p, ps; auto).
    rewrite (variables_probabilities _ _ _ so_variables vars (so_name i) c V I) with (p := so_param (i, j, p)) (l := dec j).
    + rewrite (so_sum i ps H), SUM. cbn. field.
    + intros q l Iq Eq Il. rewrite (so_sum i ps H), SUM. apply so_In_rows in Il. destruct Il as [i' [j' [v [qs [E1 [-> [I1 I2]]]]]]].
      apply so_name_inj in E1. subst i'. destruct (so_param_In q i j' Iq Eq) as [w [W ->]]. split; [reflexivity|]. cbn [so_param snd].
      apply so_In in W. destruct W as [rs [W1 W2]]. assert (rs = ps) by congruence. subst rs. apply LARGE. apply (nth_error_In _ _ W2).
    + rewrite (so_sum i ps H), SUM. lra.
    + apply in_or_app. right. rewrite so_template. apply in_map. apply so_In. eauto.
    + reflexivity.
    + exact R0.
    + apply so_written. reflexivity.
Qed.
End Observables.

Lemma list_prod_NoDup : forall A B (l : list A) (l' : list B), NoDup l -> NoDup l' -> NoDup (list_prod l l').
Proof.
  intros A B l l' N N'. induction N as [|x l NI N IH]; [constructor|]. cbn [list_prod]. apply NoDup_app_intro.
  - apply FinFun.Injective_map_NoDup; [intros a b E; congruence|exact N'].
  - exact IH.
  - intros [a b] I J. apply in_map_iff in I. destruct I as [y [E _]]. injection E as -> _. apply in_prod_iff in J. destruct J as [J _]. contradiction.
Qed.

(** All labels of coefficients of observables are different. *)
Lemma labels_different : forall observables index, NoDup index -> NoDup (generate_obs_labels observables index) /\
  (forall r n, In (r, n) (generate_obs_labels observables index) <-> In r index /\
     exists x y m, nth_error observables x = Some m /\ y < m /\ n = ("observable_" ++ dec x ++ "_" ++ dec y)%string).
Proof.
  intros observables index N. split.
  - unfold generate_obs_labels. apply list_prod_NoDup; [exact N|].
    apply NoDup_flat_map_intro.
    + apply NoDup_enumerate_from.
    + intros [x m] _. apply FinFun.Injective_map_NoDup; [|apply seq_NoDup]. intros a b E. cbn [fst] in E.
      apply (append_inj_l "observable_") in E. apply append_inj_l in E. apply (append_inj_l "_") in E. apply dec_inj. exact E.
    + intros [x m] [x' m'] z I I' J J'. apply in_map_iff in J. apply in_map_iff in J'. destruct J as [y [<- _]]. destruct J' as [y' [E _]]. cbn [fst] in E.
      apply (append_inj_l "observable_") in E. change (dec x' ++ String "_" (dec y') = dec x ++ String "_" (dec y))%string in E.
      apply split_at_char in E; [|apply dec_no_underscore..]. destruct E as [E _]. apply dec_inj in E. subst x'.
      apply In_enumerate in I. apply In_enumerate in I'. congruence.
  - intros r n. unfold generate_obs_labels. rewrite in_prod_iff, in_flat_map. split; intros [R0 H]; (split; [exact R0|]).
    + destruct H as [[x m] [I J]]. apply In_enumerate in I. apply in_map_iff in J. destruct J as [y [<- J]]. apply in_seq in J. exists x, y, m. cbn in J. split; [exact I|]. split; [lia|reflexivity].
    + destruct H as [x [y [m [I [L ->]]]]]. exists (x, m). split; [apply In_enumerate; exact I|]. apply in_map_iff. exists y. split; [reflexivity|]. apply in_seq. cbn. lia.
Qed.
