(** Types and lagged choices. *)
From Coq Require Import List Arith Bool String Ascii Reals Lra Lia Permutation Sorted.
From Verif Require Import Base Proof_Base Model_Strings Proof_Strings Model_Cache Model_Choices Spec_Choices Proof_Regex Proof_Choices
  Spec_Solve Proof_Exogenous Proof_Likelihood Proof_LikelihoodPanel Model_Params Spec_Params Proof_Params.
Import ListNotations.
Open Scope string_scope.
Local Open Scope nat_scope.

(** ** Dictionaries *)

Lemma dict_get_update_in : forall K V (eqd : forall x y : K, {x = y} + {x <> y}) k (d2 d1 : list (K * V)),
  NoDup (dict_keys d2) -> In k (dict_keys d2) -> dict_get eqd k (dict_update eqd d1 d2) = dict_get eqd k d2.
Proof.
  intros K V eqd k d2. induction d2 as [|[k' v] d2 IH]; intros d1 N I; [destruct I|].
  inversion N as [|? ? NI N']; subst. change (dict_update eqd d1 ((k', v) :: d2)) with (dict_update eqd (dict_set eqd k' v d1) d2).
  cbn [dict_get]. destruct (eqd k k') as [->|n].
  - rewrite dict_get_update by exact NI. apply dict_get_set_same.
  - destruct I as [I|I]; [cbn in I; congruence|]. apply IH; assumption.
Qed.
Lemma dict_keys_update_incl : forall K V (eqd : forall x y : K, {x = y} + {x <> y}) (d2 d1 : list (K * V)),
  (forall k, In k (dict_keys d2) -> In k (dict_keys d1)) -> dict_keys (dict_update eqd d1 d2) = dict_keys d1.
Proof.
  intros K V eqd d2. induction d2 as [|[k' v] d2 IH]; intros d1 H; [reflexivity|].
  change (dict_update eqd d1 ((k', v) :: d2)) with (dict_update eqd (dict_set eqd k' v d1) d2).
  assert (E : dict_keys (dict_set eqd k' v d1) = dict_keys d1).
  { rewrite dict_keys_set. destruct (in_dec eqd k' (dict_keys d1)) as [_|n]; [reflexivity|].
    exfalso. apply n. apply H. left. reflexivity. }
  rewrite IH; [exact E|]. intros k I. rewrite E. apply H. right. exact I.
Qed.
Lemma dict_keys_update_firstn : forall K V (eqd : forall x y : K, {x = y} + {x <> y}) (d2 d1 : list (K * V)),
  exists l, dict_keys (dict_update eqd d1 d2) = (dict_keys d1 ++ l)%list.
Proof.
  intros K V eqd d2. induction d2 as [|[k' v] d2 IH]; intros d1; [exists []; cbn; rewrite app_nil_r; reflexivity|].
  change (dict_update eqd d1 ((k', v) :: d2)) with (dict_update eqd (dict_set eqd k' v d1) d2).
  destruct (IH (dict_set eqd k' v d1)) as [l E]. rewrite E, dict_keys_set.
  destruct (in_dec eqd k' (dict_keys d1)); [exists l; reflexivity|].
  exists (k' :: l). rewrite <- app_assoc. reflexivity.
Qed.
Lemma dict_sum : forall K V (eqd : forall x y : K, {x = y} + {x <> y}) (F : V -> R) (d : list (K * V)),
  NoDup (dict_keys d) ->
  rsum (map (fun kv => F (snd kv)) d) =
  rsum (map (fun k => match dict_get eqd k d with Some v => F v | None => 0%R end) (dict_keys d)).
Proof.
  intros K V eqd F d N. unfold dict_keys. rewrite map_map. apply rsum_map_ext. intros [k v] I.
  cbn [fst snd]. rewrite (dict_get_In_NoDup eqd k v d N I). reflexivity.
Qed.

(** ** Digits *)

Lemma all_digits_iff : forall d, all_digits d = true <-> d <> "" /\ all_chars is_digit d = true.
Proof.
  intros d. unfold all_digits. rewrite andb_true_iff, negb_true_iff, String.eqb_neq.
  assert (E : forall s, (fix go s := match s with EmptyString => true | String c r => is_digit c && go r end) s = all_chars is_digit s)
    by (induction s as [|c r IH]; cbn; [reflexivity|rewrite IH; reflexivity]).
  rewrite E. reflexivity.
Qed.
Lemma digit_is_word : forall c, is_digit c = true -> is_word c = true.
Proof. intros c H. unfold is_word. rewrite H. destruct (is_letter c); reflexivity. Qed.

Lemma extract_type : forall s d, word s -> (extract "type_" is_digit s = Some d <-> all_digits d = true /\ s = "type_" ++ d).
Proof.
  intros s d W. rewrite (extract_word_iff "type_" is_digit); [|discriminate|reflexivity|exact digit_is_word|exact W].
  rewrite all_digits_iff. reflexivity.
Qed.

(** ** Types *)

Lemma list_max_attained : forall l, list_max l = 0 \/ In (list_max l) l.
Proof.
  induction l as [|x r IH]; [left; reflexivity|]. change (list_max (x :: r)) with (Nat.max x (list_max r)).
  destruct (Nat.max_spec x (list_max r)) as [[H ->]|[H ->]]; [|right; left; reflexivity].
  destruct IH as [E|I]; [left; exact E|right; right; exact I].
Qed.
Lemma list_max_upper : forall l x, In x l -> x <= list_max l.
Proof.
  intros l x I. pose proof (proj1 (list_max_le l (list_max l)) (le_n _)) as F.
  rewrite Forall_forall in F. auto.
Qed.

Lemma number_of_types : forall params, (forall p, In p params -> word (p_name p)) ->
  (forall i, type_named params i -> i < infer_number_of_types params) /\
  (infer_number_of_types params = 1 \/ type_named params (infer_number_of_types params - 1)).
Proof.
  intros params W. unfold infer_number_of_types.
  set (f := fun p => match extract "type_" is_digit (p_name p) with Some d => digits_value 0 d | None => 0 end).
  split.
  - intros i [p [d [I [E [A V]]]]]. apply Nat.lt_succ_r.
    assert (X : extract "type_" is_digit (p_name p) = Some d) by (apply extract_type; [apply W; exact I | auto]).
    apply list_max_upper. apply in_map_iff. exists p. split; [|exact I]. unfold f. rewrite X. exact V.
  - fold f. destruct (list_max_attained (map f params)) as [Z|I]; [left; rewrite Z; reflexivity|].
    destruct (Nat.eq_dec (list_max (map f params)) 0) as [Z|NZ]; [left; rewrite Z; reflexivity|].
    right. cbn [Nat.sub]. rewrite Nat.sub_0_r. apply in_map_iff in I. destruct I as [p [E I]].
    change (f p) with (match extract "type_" is_digit (p_name p) with Some d => digits_value 0 d | None => 0 end) in E.
    destruct (extract "type_" is_digit (p_name p)) as [d|] eqn:X; [|congruence].
    apply extract_type in X; [|apply W; exact I]. destruct X as [A S]. exists p, d. auto.
Qed.

Definition type_ext := extract "type_" is_digit.

Lemma type_0_rejected : forall params,
  In "type_0" (map p_category params) \/ In "type_0" (map p_name params) -> parse_types params = ValueError.
Proof.
  intros params H. unfold parse_types. destruct (mem "type_0" (map p_category params)) eqn:M; [reflexivity|].
  apply mem_false_iff in M. destruct H as [H|H]; [contradiction|]. apply mem_iff in H. rewrite H. reflexivity.
Qed.

Lemma types_without_probabilities : forall params,
  ~ In "type_0" (map p_category params) -> ~ In "type_0" (map p_name params) ->
  2 <= infer_number_of_types params ->
  (forall p d, In p params -> p_category p = "type_" ++ d -> all_digits d = true -> False) ->
  (forall p, In p params -> word (p_category p)) ->
  parse_types params = OtherError.
Proof.
  intros params C N L NO W. unfold parse_types. apply mem_false_iff in C, N. rewrite C, N.
  destruct (Nat.leb_spec 2 (infer_number_of_types params)) as [_|H]; [|lia].
  assert (G : group_rows type_ext params = []).
  { destruct (group_rows type_ext params) as [|[s [n v]] r] eqn:G; [reflexivity|]. exfalso.
    assert (I : In (s, (n, v)) (group_rows type_ext params)) by (rewrite G; left; reflexivity).
    apply In_group_rows in I. destruct I as [p [[I E] _]]. apply extract_type in E; [|apply W; exact I].
    destruct E as [A E]. exact (NO p s I E A). }
  unfold parse_group. fold type_ext. rewrite G. reflexivity.
Qed.

(** The container returned for types. *)
Lemma types_shape : forall params c0,
  ~ In "type_0" (map p_category params) -> ~ In "type_0" (map p_name params) ->
  2 <= infer_number_of_types params -> parse_group type_ext params = Ok (Some c0) ->
  parse_types params = Ok (infer_number_of_types params,
    Some (dict_update level_eq_dec (map (fun i => (Number i, constant 0)) (seq 0 (infer_number_of_types params))) c0)).
Proof.
  intros params c0 C N L P. unfold parse_types. apply mem_false_iff in C, N. rewrite C, N.
  destruct (Nat.leb_spec 2 (infer_number_of_types params)) as [_|H]; [|lia].
  fold type_ext. rewrite P. reflexivity.
Qed.

Lemma default_keys : forall n, dict_keys (map (fun i => (Number i, constant 0)) (seq 0 n)) = map Number (seq 0 n).
Proof. intros n. unfold dict_keys. rewrite map_map. reflexivity. Qed.
Lemma NoDup_numbers : forall l, NoDup l -> NoDup (map Number l).
Proof.
  intros l N. induction N as [|x l NI N IH]; constructor; [|exact IH]. intros I. apply in_map_iff in I.
  destruct I as [y [E I]]. inversion E; subst. contradiction.
Qed.
Lemma default_get : forall n i, i < n ->
  dict_get level_eq_dec (Number i) (map (fun i => (Number i, constant 0)) (seq 0 n)) = Some (constant 0).
Proof.
  intros n i L. apply dict_get_In_NoDup.
  - rewrite default_keys. apply NoDup_numbers. apply seq_NoDup.
  - apply in_map_iff. exists i. split; [reflexivity|]. apply in_seq. lia.
Qed.

Lemma type_probabilities : forall params n, n = infer_number_of_types params ->
  (forall p, In p params -> word (p_category p)) ->
  ~ In "type_0" (map p_category params) -> ~ In "type_0" (map p_name params) -> 2 <= n ->
  (forall p s, describes type_ext params p s -> p_name p = "probability") ->
  distinct_levels type_ext params ->
  (forall i, 1 <= i < n <-> exists p s, describes type_ext params p s /\ digits_value 0 s = i) ->
  (0 < group_total type_ext params)%R ->
  (forall p s, describes type_ext params p s -> (group_total type_ext params / MAX_FLOAT <= snd p)%R) ->
  exists c, parse_types params = Ok (n, Some c) /\
    map fst c = map Number (seq 0 n) /\
    logit_probability c (Number 0) = (1 / 2)%R /\
    (forall p s, describes type_ext params p s ->
       logit_probability c (Number (digits_value 0 s)) = (snd p / group_total type_ext params / 2)%R).
Proof.
  intros params n EN W C N L ALL D RANGE POS LARGE.
  assert (NE : exists p s, describes type_ext params p s).
  { destruct (proj1 (RANGE 1)) as [p [s [H _]]]; [lia|]. exists p, s. exact H. }
  pose proof (parse_probabilities type_ext params NE ALL D) as P.
  set (c0 := single_container (the_levels type_ext params) (constants (rescaled (the_values type_ext params)))) in *.
  assert (SH := types_shape params c0 C N ltac:(lia) P). rewrite <- EN in SH.
  set (d := map (fun i => (Number i, constant 0)) (seq 0 n)) in *.
  assert (NUM : numeric_levels type_ext params).
  { intros p s [I E]. apply extract_type in E; [|apply W; exact I]. tauto. }
  assert (LO : forall s, level_of type_ext params s (Number (digits_value 0 s))) by (intros; constructor; exact NUM).
  assert (K0 : NoDup (dict_keys c0)).
  { unfold dict_keys, c0. rewrite single_keys. apply NoDup_isort. apply NoDup_levels. exact D. }
  assert (KI : forall l, In l (dict_keys c0) <-> In l (map Number (seq 1 (n - 1)))).
  { intros l. unfold dict_keys, c0. rewrite single_keys, In_isort. unfold the_levels. rewrite !in_map_iff. split.
    - intros [s [E I]]. apply in_map_iff in I. destruct I as [[t [m v]] [Et I]]. cbn in Et. subst t.
      apply In_group_rows in I. destruct I as [p [H _]]. exists (digits_value 0 s). split.
      + rewrite <- E. apply (level_of_iff type_ext params s). apply LO.
      + apply in_seq. destruct (proj2 (RANGE (digits_value 0 s))) as [A B]; [exists p, s; auto|]. lia.
    - intros [i [<- I]]. apply in_seq in I. destruct (proj1 (RANGE i)) as [p [s [H E]]]; [lia|].
      exists s. split; [rewrite <- E; symmetry; apply level_of_iff; apply LO|].
      apply in_map_iff. exists (s, (p_name p, snd p)). split; [reflexivity|]. apply In_group_rows. exists p. auto. }
  assert (KU : dict_keys (dict_update level_eq_dec d c0) = map Number (seq 0 n)).
  { rewrite dict_keys_update_incl; [apply default_keys|]. intros k I. apply KI in I. unfold d. rewrite default_keys.
    apply in_map_iff in I. destruct I as [i [<- I]]. apply in_map_iff. exists i. split; [reflexivity|].
    apply in_seq in I. apply in_seq. lia. }
  assert (G0 : dict_get level_eq_dec (Number 0) (dict_update level_eq_dec d c0) = Some (constant 0)).
  { rewrite dict_get_update; [apply default_get; lia|]. rewrite KI. intros I. apply in_map_iff in I.
    destruct I as [i [E I]]. inversion E; subst. apply in_seq in I. lia. }
  assert (GI : forall i, 1 <= i < n -> dict_get level_eq_dec (Number i) (dict_update level_eq_dec d c0) = dict_get level_eq_dec (Number i) c0).
  { intros i I. apply dict_get_update_in; [exact K0|]. apply KI. apply in_map_iff. exists i. split; [reflexivity|].
    apply in_seq. lia. }
  assert (SUM : rsum (map (fun lr => exp (logit_index (snd lr))) (dict_update level_eq_dec d c0)) = 2%R).
  { rewrite (dict_sum _ _ level_eq_dec (fun r => exp (logit_index r))).
    2:{ rewrite KU. apply NoDup_numbers. apply seq_NoDup. }
    rewrite KU. destruct n as [|m]; [lia|]. rewrite <- cons_seq. cbn [map]. rewrite G0.
    change (rsum (?a :: ?b)) with (a + rsum b)%R.
    assert (E0 : logit_index (constant 0) = 0%R) by apply logit_index_constant.
    rewrite E0, exp_0.
    assert (R1 : rsum (map (fun k => match dict_get level_eq_dec k (dict_update level_eq_dec d c0) with
                                     | Some v => exp (logit_index v) | None => 0%R end) (map Number (seq 1 m))) = 1%R).
    { rewrite (rsum_map_ext _ _ (fun k => match dict_get level_eq_dec k c0 with
                                     | Some v => exp (logit_index v) | None => 0%R end)).
      2:{ intros k I. apply in_map_iff in I. destruct I as [i [<- I]]. apply in_seq in I. rewrite GI by lia. reflexivity. }
      rewrite (rsum_perm _ (map (fun k => match dict_get level_eq_dec k c0 with
                                     | Some v => exp (logit_index v) | None => 0%R end) (dict_keys c0))).
      2:{ apply Permutation_map. apply NoDup_Permutation; [apply NoDup_numbers; apply seq_NoDup | exact K0|].
          intros l. rewrite KI. replace (S m - 1) with m by lia. reflexivity. }
      rewrite <- (dict_sum _ _ level_eq_dec (fun r => exp (logit_index r))) by exact K0.
      unfold c0. apply exp_sum; assumption. }
    rewrite R1. lra. }
  exists (dict_update level_eq_dec d c0). split; [exact SH|]. split; [exact KU|]. split.
  - unfold logit_probability. rewrite G0, SUM.
    assert (E0 : logit_index (constant 0) = 0%R) by apply logit_index_constant. rewrite E0, exp_0. reflexivity.
  - intros p s H. unfold logit_probability. rewrite GI.
    2:{ apply RANGE. exists p, s. auto. }
    unfold c0. rewrite (get_level type_ext params NE D POS LARGE p s _ H (LO s)). rewrite <- EN in SUM || idtac.
    fold c0. rewrite SUM. rewrite logit_index_constant, exp_ln; [reflexivity|].
    apply (positive_quotient type_ext params p s POS LARGE H).
Qed.

(** ** Lagged choices *)

Lemma lag_codes : forall choices params lag c, parse_lag choices params lag = Ok c ->
  exists l, map fst c = (map Label choices ++ l)%list.
Proof.
  intros choices params lag c. unfold parse_lag.
  destruct (parse_group _ params) as [[c0|]| | | | |]; cbn [result_bind]; try discriminate; intros E; inversion E; subst.
  - destruct (dict_keys_update_firstn _ _ level_eq_dec c0 (map (fun c => (Label c, constant MIN_FLOAT)) choices)) as [l H].
    exists l. unfold dict_keys in H. rewrite H, map_map. reflexivity.
  - exists []. rewrite map_map, app_nil_r. reflexivity.
Qed.

(** Occurrences of a prefix followed by characters of a class. *)
Section SearchAll.
  Variable x : ascii.
  Variable q : string.
  Variable cls : ascii -> bool.
  Hypothesis Q : all_chars (fun c => negb (Ascii.eqb c x)) q = true.
  Hypothesis CX : cls x = false.
  Let p := String x q.

  Definition mention (s g : string) : Prop :=
    exists a b, s = a ++ p ++ g ++ b /\ g <> "" /\ all_chars cls g = true /\
      match b with String c _ => cls c = false | EmptyString => True end.

  Lemma search_all_skip : forall u s, search_all p cls (String.length u) (u ++ s) = search_all p cls 0 s.
  Proof. induction u as [|c u IH]; intros s; [reflexivity|]. cbn [String.length append search_all]. apply IH. Qed.

  Lemma no_x_inside : forall w, all_chars (fun c => negb (Ascii.eqb c x)) w = true ->
    forall a rest t, a ++ String x rest = w ++ t -> exists a', a = w ++ a'.
  Proof.
    induction w as [|c w IH]; intros H a rest t E; [exists a; reflexivity|].
    cbn in H. apply andb_true_iff in H. destruct H as [H1 H2]. destruct a as [|d a].
    - cbn in E. inversion E; subst. rewrite Ascii.eqb_refl in H1. discriminate.
    - cbn in E. inversion E; subst. destruct (IH H2 a rest t H3) as [a' ->]. exists a'. reflexivity.
  Qed.
  Lemma no_x_cls : forall g, all_chars cls g = true -> all_chars (fun c => negb (Ascii.eqb c x)) g = true.
  Proof.
    induction g as [|c g IH]; cbn; [reflexivity|]. intros H. apply andb_true_iff in H. destruct H as [H1 H2].
    rewrite IH by exact H2. destruct (Ascii.eqb_spec c x) as [->|_]; [congruence|reflexivity].
  Qed.

  Lemma mention_cons : forall c r g, mention r g -> mention (String c r) g.
  Proof. intros c r g [a [b [E H]]]. exists (String c a), b. split; [cbn; rewrite E; reflexivity|exact H]. Qed.

  Lemma head_rest : forall g rest, all_chars cls g = true ->
    match rest with String c _ => cls c = false | EmptyString => True end -> span cls (g ++ rest) = (g, rest).
  Proof.
    intros g rest G R. apply span_unique; [exact G|]. destruct rest; [left; reflexivity|right]. eauto.
  Qed.

  Lemma mentions_at : forall s g, (exists b, s = p ++ g ++ b /\ g <> "" /\ all_chars cls g = true /\
      match b with String c _ => cls c = false | EmptyString => True end) <->
    exists rest, after_prefix p s = Some rest /\ fst (span cls rest) = g /\ g <> "".
  Proof.
    intros s g. split.
    - intros [b [E [G1 [G2 B]]]]. exists (g ++ b). split; [apply after_prefix_iff; exact E|].
      rewrite head_rest by assumption. auto.
    - intros [rest [E [S G]]]. apply after_prefix_iff in E. pose proof (span_app cls rest) as A.
      destruct (span cls rest) as [g' b]. cbn in S. subst g'. destruct A as [-> [A1 A2]].
      exists b. split; [exact E|]. split; [exact G|]. split; [exact A1|].
      destruct b as [|c b]; [exact I|]. destruct A2 as [A2|[c' [b' [A2 A3]]]]; [discriminate|]. inversion A2; subst. exact A3.
  Qed.

  Lemma mention_first : forall s g g' b, s = p ++ g ++ b -> all_chars cls g = true -> g <> "" ->
    match b with String c _ => cls c = false | EmptyString => True end ->
    (mention s g' <-> g' = g \/ mention b g').
  Proof.
    intros s g g' b E G1 G2 B. split.
    - intros [a [b' [E' [H1 [H2 H3]]]]]. destruct a as [|c a].
      + left. cbn [append] in E'. rewrite E in E'. apply append_inj_l in E'.
        pose proof (head_rest g b G1 B) as S. rewrite E' in S. rewrite head_rest in S by assumption.
        inversion S. reflexivity.
      + right. rewrite E in E'. unfold p in E'. cbn [append] in E'. inversion E' as [[Hx Et]]. subst c.
        assert (W : all_chars (fun c => negb (Ascii.eqb c x)) (q ++ g) = true)
          by (rewrite all_chars_append, Q, (no_x_cls g G1); reflexivity).
        symmetry in Et. rewrite <- (append_assoc_s q g b) in Et.
        destruct (no_x_inside (q ++ g) W a (q ++ g' ++ b') b) as [a' ->]; [exact Et|].
        rewrite (append_assoc_s (q ++ g) a') in Et. apply append_inj_l in Et.
        exists a', b'. split; [|auto]. unfold p. cbn [append]. symmetry. exact Et.
    - intros [->|[a [b' [E' H]]]].
      + exists "", b. auto.
      + exists (p ++ g ++ a), b'. split; [|exact H]. rewrite E, E'. rewrite !append_assoc_s. reflexivity.
  Qed.

  Lemma search_all_iff : forall n s g, String.length s <= n -> (In g (search_all p cls 0 s) <-> mention s g).
  Proof.
    induction n as [|n IH]; intros s g L.
    - destruct s; [|cbn in L; lia]. cbn. split; [intros []|]. intros [a [b [E _]]]. destruct a; discriminate.
    - destruct s as [|c r]; [cbn; split; [intros []|]; intros [a [b [E _]]]; destruct a; discriminate|].
      cbn in L. cbn [search_all].
      assert (NO : (forall b g', String c r = p ++ g' ++ b -> g' <> "" -> all_chars cls g' = true ->
                  match b with String c _ => cls c = false | EmptyString => True end -> False) ->
                (In g (search_all p cls 0 r) <-> mention (String c r) g)).
      { intros H. rewrite IH by lia. split; [apply mention_cons|]. intros [a [b [E [H1 [H2 H3]]]]].
        destruct a as [|d a]; [exfalso; exact (H b g E H1 H2 H3)|]. cbn in E. inversion E; subst. exists a, b. auto. }
      destruct (after_prefix p (String c r)) as [rest|] eqn:A.
      + destruct (String.eqb (fst (span cls rest)) "") eqn:Z.
        * apply NO. intros b g' E H1 H2 H3. destruct (proj1 (mentions_at (String c r) g')) as [rest' [A' [S _]]]; [eauto|].
          rewrite A in A'. inversion A'; subst rest'. apply String.eqb_eq in Z. congruence.
        * apply String.eqb_neq in Z. set (g0 := fst (span cls rest)) in *.
          destruct (proj2 (mentions_at (String c r) g0)) as [b [E [G1 [G2 B]]]]; [exists rest; auto|].
          rewrite (mention_first (String c r) g0 g b E G2 G1 B).
          assert (R : r = (q ++ g0) ++ b) by (unfold p in E; cbn in E; inversion E; rewrite append_assoc_s; reflexivity).
          assert (K : String.length p + String.length g0 - 1 = String.length (q ++ g0)).
          { unfold p. cbn [String.length]. rewrite length_append. lia. }
          rewrite K, R, search_all_skip. cbn [In]. rewrite IH; [|rewrite R, length_append in L; lia].
          split; (intros [H|H]; [left; congruence|right; exact H]).
      + apply NO. intros b g' E H1 H2 H3. destruct (proj1 (mentions_at (String c r) g')) as [rest' [A' _]]; [eauto|]. congruence.
  Qed.
End SearchAll.

Lemma lags_ok : forall covariates,
  (forall c f i, In (c, f) covariates -> mentions_lag f i -> i <= number_of_lags covariates) /\
  (number_of_lags covariates = 0 \/
   exists c f, In (c, f) covariates /\ mentions_lag f (number_of_lags covariates)).
Proof.
  intros covariates. unfold number_of_lags.
  assert (M : forall f d, In d (search_all "lagged_choice_" is_digit 0 f) <->
     exists a b, f = a ++ "lagged_choice_" ++ d ++ b /\ all_digits d = true /\
       match b with String c _ => is_digit c = false | EmptyString => True end).
  { intros f d. rewrite (search_all_iff "l" "agged_choice_" is_digit eq_refl eq_refl (String.length f)) by lia.
    unfold mention. split.
    - intros [a [b [E [H1 [H2 H3]]]]]. exists a, b. rewrite all_digits_iff. auto.
    - intros [a [b [E [H1 H2]]]]. apply all_digits_iff in H1. exists a, b. tauto. }
  set (ds := flat_map _ covariates).
  split.
  - intros c f i I [a [d [b [E [A [V B]]]]]]. apply list_max_upper. apply in_map_iff. exists d. split; [exact V|].
    unfold ds. apply in_flat_map. exists (c, f). split; [exact I|]. cbn [snd]. apply M. exists a, b. auto.
  - destruct (list_max_attained (map (digits_value 0) ds)) as [Z|I]; [left; exact Z|right].
    apply in_map_iff in I. destruct I as [d [V I]]. unfold ds in I. apply in_flat_map in I. destruct I as [[c f] [I D]].
    cbn [snd] in D. apply M in D. destruct D as [a [b [E [A B]]]]. exists c, f. split; [exact I|]. exists a, d, b. auto.
Qed.
