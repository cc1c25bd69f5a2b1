(** Initial and maximum experience, covariates of types. *)
From Coq Require Import List Arith Bool String Ascii Reals ZArith Lia Lra Sorted Permutation.
From Verif Require Import Base Proof_Base Model_Strings Proof_Strings Proof_Regex Model_Cache Model_Choices Spec_Choices
  Proof_Choices Model_CoreStateSpace Spec_CoreStateSpace Proof_CoreStateSpace Model_StateSpace Spec_Solve
  Model_Params Spec_Params Proof_Params Proof_Types Proof_Names Proof_MSM Model_Processing Spec_Processing.
Import ListNotations.
Local Open Scope nat_scope.
Open Scope string_scope.

(** ** Keys of a container *)

Lemma parse_group_keys : forall ext params c, parse_group ext params = Ok (Some c) ->
  group_rows ext params <> [] /\
  map fst c = isort level_leb (drop_duplicates level_eq_dec (to_numeric (map fst (group_rows ext params)))).
Proof.
  intros ext params c H. unfold parse_group in H.
  destruct (Nat.eqb_spec (List.length (group_rows ext params)) 0) as [E|NE]; [discriminate|].
  split; [intros E; rewrite E in NE; apply NE; reflexivity|].
  cbv zeta in H.
  match type of H with (if ?b then _ else _) = _ => destruct b end.
  - injection H as <-. rewrite map_map. apply map_id.
  - match type of H with (if ?b then _ else _) = _ => destruct b end; [discriminate|].
    injection H as <-. rewrite map_map. apply map_id.
Qed.
Lemma parse_group_none : forall ext params, parse_group ext params = Ok None -> group_rows ext params = [].
Proof.
  intros ext params H. unfold parse_group in H.
  destruct (Nat.eqb_spec (List.length (group_rows ext params)) 0) as [E|NE]; [apply length_zero_iff_nil; exact E|].
  cbv zeta in H. match type of H with (if ?b then _ else _) = _ => destruct b end; [discriminate|].
  match type of H with (if ?b then _ else _) = _ => destruct b end; discriminate.
Qed.

Definition exp_levels (choice : string) := extract ("initial_exp_" ++ choice ++ "_") is_digit.

Lemma name_chars_word : forall c, all_chars is_name c = true -> all_chars is_word c = true.
Proof.
  induction c as [|x c IH]; intros H; [reflexivity|]. cbn in *. apply andb_true_iff in H. destruct H as [A B].
  rewrite IH by exact B. rewrite andb_true_r. unfold is_name in A. unfold is_word.
  apply orb_true_iff in A. destruct A as [A|A]; rewrite A; [reflexivity|apply orb_true_r].
Qed.

Lemma extract_level : forall choice s d, word s -> well_named choice ->
  (exp_levels choice s = Some d <-> all_digits d = true /\ s = "initial_exp_" ++ choice ++ "_" ++ d).
Proof.
  intros choice s d W [NE G]. unfold exp_levels.
  assert (P : all_chars is_word ("initial_exp_" ++ choice ++ "_") = true).
  { rewrite !all_chars_append. rewrite (name_chars_word _ G). reflexivity. }
  rewrite (extract_word_iff _ is_digit); [|discriminate|exact P|exact digit_is_word|exact W].
  assert (A : forall a b c, ((a ++ b) ++ c = a ++ (b ++ c))%string).
  { clear. induction a as [|x a IH]; intros; cbn; [reflexivity|f_equal; apply IH]. }
  rewrite !A, all_digits_iff. unfold good. reflexivity.
Qed.

Section Experience.
  Variables (n : nat) (params : list param) (choice : string).
  Hypothesis W : forall p, In p params -> word (p_category p).
  Hypothesis G : well_named choice.

  Lemma declared_iff : forall k, declares_level params choice k <->
    exists p d, describes (exp_levels choice) params p d /\ digits_value 0 d = k.
  Proof.
    intros k. unfold declares_level, describes. split.
    - intros [p [d [I [C [D V]]]]]. exists p, d. split; [split; [exact I|]|exact V].
      apply extract_level; [apply W; exact I|exact G|]. auto.
    - intros [p [d [[I E] V]]]. apply extract_level in E; [|apply W; exact I|exact G]. destruct E as [D C].
      exists p, d. auto.
  Qed.

  Lemma group_levels_numeric : to_numeric (map fst (group_rows (exp_levels choice) params)) =
    map (fun s => Number (digits_value 0 s)) (map fst (group_rows (exp_levels choice) params)).
  Proof.
    unfold to_numeric. replace (forallb all_digits _) with true; [reflexivity|]. symmetry. apply forallb_forall.
    intros s I. apply in_map_iff in I. destruct I as [[t [m v]] [E I]]. cbn in E. subst t.
    apply In_group_rows in I. destruct I as [p [[I E] _]]. apply extract_level in E; [tauto|apply W; exact I|exact G].
  Qed.

  Lemma sorted_numbers : forall c, (forall l, In l (map fst c) -> exists k, l = Number k) ->
    StronglySorted level_lt (map fst c) -> map fst c = map Number (numbers c) /\ StronglySorted lt (numbers c).
  Proof.
    induction c as [|[l r] c IH]; intros H S; [split; [reflexivity|constructor]|].
    cbn [map fst] in S. inversion S as [|? ? S' F]; subst.
    destruct IH as [E T]; [intros x I; apply H; right; exact I|exact S'|].
    destruct (H l (or_introl eq_refl)) as [k ->]. cbn [numbers flat_map fst app]. fold (numbers c).
    split; [cbn [map fst]; rewrite E; reflexivity|].
    constructor; [exact T|]. rewrite E in F. apply Forall_forall. intros j J.
    rewrite Forall_forall in F. destruct (F (Number j)) as [A B]; [apply in_map; exact J|].
    cbn in A. apply Nat.leb_le in A. assert (k <> j) by congruence. lia.
  Qed.

  Lemma levels_ok : forall start m, parse_experience n params choice = Ok (start, m) ->
    map fst start = map Number (numbers start) /\ StronglySorted lt (numbers start) /\
    (forall k, In k (numbers start) <-> initial_level params choice k) /\
    m = match param_value params "maximum_exp" choice with
        | Ok v => truncate v
        | _ => (Z.of_nat (list_max_nat (numbers start)) + Z.of_nat n - 1)%Z
        end.
  Proof.
    intros start m H. unfold parse_experience in H. fold (exp_levels choice) in H.
    destruct (parse_group (exp_levels choice) params) as [parsed| | | | |] eqn:P; try discriminate.
    cbn [result_bind] in H. injection H as <- <-.
    destruct parsed as [c|].
    - destruct (parse_group_keys _ _ _ P) as [NE K]. rewrite group_levels_numeric in K.
      assert (A : forall l, In l (map fst c) <-> exists k, l = Number k /\ declares_level params choice k).
      { intros l. rewrite K, In_isort, In_drop_duplicates, map_map, in_map_iff. split.
        - intros [[s [nm v]] [<- I]]. apply In_group_rows in I. destruct I as [p [D _]]. cbn [fst].
          exists (digits_value 0 s). split; [reflexivity|]. apply declared_iff. exists p, s. auto.
        - intros [k [-> D]]. apply declared_iff in D. destruct D as [p [d [D V]]].
          exists (d, (p_name p, snd p)). cbn [fst]. rewrite V. split; [reflexivity|].
          apply In_group_rows. exists p. auto. }
      destruct (sorted_numbers c) as [E S].
      + intros l I. apply A in I. destruct I as [k [-> _]]. exists k. reflexivity.
      + rewrite K. apply sorted_levels. apply NoDup_drop_duplicates.
      + split; [exact E|]. split; [exact S|]. split; [|reflexivity]. intros k.
        assert (B : In k (numbers c) <-> declares_level params choice k).
        { split.
          - intros I. apply (in_map Number) in I. rewrite <- E in I. apply A in I. destruct I as [j [X D]].
            injection X as ->. exact D.
          - intros D. assert (I : In (Number k) (map fst c)) by (apply A; exists k; auto).
            rewrite E in I. apply in_map_iff in I. destruct I as [j [X I]]. injection X as ->. exact I. }
        rewrite B. unfold initial_level. split; [auto|]. intros [D|[-> N]]; [exact D|]. exfalso.
        destruct (group_rows (exp_levels choice) params) as [|[s [nm v]] r] eqn:GR; [congruence|].
        assert (I : In (s, (nm, v)) (group_rows (exp_levels choice) params)) by (rewrite GR; left; reflexivity).
        apply In_group_rows in I. destruct I as [p [D _]]. apply (N (digits_value 0 s)). apply declared_iff.
        exists p, s. auto.
    - apply parse_group_none in P. split; [reflexivity|]. split; [repeat constructor|]. split; [|reflexivity].
      intros k. cbn. unfold initial_level. split.
      + intros [<-|[]]. right. split; [reflexivity|]. intros j D. apply declared_iff in D.
        destruct D as [p [d [D _]]]. assert (I : In (d, (p_name p, snd p)) (group_rows (exp_levels choice) params)).
        { apply In_group_rows. exists p. auto. }
        rewrite P in I. destruct I.
      + intros [D|[-> _]]; [|left; reflexivity]. apply declared_iff in D. destruct D as [p [d [D _]]].
        assert (I : In (d, (p_name p, snd p)) (group_rows (exp_levels choice) params)).
        { apply In_group_rows. exists p. auto. }
        rewrite P in I. destruct I.
  Qed.
End Experience.

Lemma truncate_nonneg : forall v, (0 <= v)%R -> (IZR (truncate v) <= v < IZR (truncate v) + 1)%R.
Proof.
  intros v H. unfold truncate. destruct (Rle_dec 0 v) as [_|N]; [|contradiction].
  destruct (base_Int_part v) as [A B]. lra.
Qed.
Lemma value_is_find : forall params category name v, value_is params category name v ->
  param_value params category name = Ok v.
Proof.
  intros params category name v [I U]. unfold param_value.
  destruct (find _ params) as [[[c m] w]|] eqn:F.
  - apply find_some in F. destruct F as [J E]. cbn in E. apply andb_true_iff in E. destruct E as [E1 E2].
    apply String.eqb_eq in E1, E2. subst. rewrite (U w J). reflexivity.
  - exfalso. pose proof (find_none _ _ F _ I) as X. cbn in X. rewrite !String.eqb_refl in X. discriminate.
Qed.
Lemma value_missing : forall (params : list param) category name, (forall v, ~ In (category, name, v) params) ->
  param_value params category name = KeyError.
Proof.
  intros params category name N. unfold param_value.
  destruct (find _ params) as [[[c m] w]|] eqn:F; [|reflexivity].
  apply find_some in F. destruct F as [J E]. cbn in E. apply andb_true_iff in E. destruct E as [E1 E2].
  apply String.eqb_eq in E1, E2. subst. destruct (N w J).
Qed.
Lemma list_max_nat_spec : forall l, l <> [] -> In (list_max_nat l) l /\ forall x, In x l -> x <= list_max_nat l.
Proof.
  intros [|x r] H; [congruence|]. unfold list_max_nat. clear H. revert x.
  induction r as [|y r IH]; intros x; cbn [fold_left]; [cbn; intuition lia|].
  destruct (IH (Nat.max x y)) as [A B]. split.
  - destruct A as [A|A].
    + destruct (Nat.max_spec x y) as [[L E]|[L E]]; rewrite E in A at 1.
      * right. left. exact A.
      * left. exact A.
    + right. right. exact A.
  - intros z [<-|[<-|I]].
    + specialize (B _ (or_introl eq_refl)). lia.
    + specialize (B _ (or_introl eq_refl)). lia.
    + apply B. right. exact I.
Qed.

Lemma maximum_ok : forall n params choice start m, (forall p, In p params -> word (p_category p)) ->
  well_named choice -> parse_experience n params choice = Ok (start, m) -> maximum_of n params choice m.
Proof.
  intros n params choice start m W G H. destruct (levels_ok n params choice W G start m H) as [_ [_ [L M]]].
  split.
  - intros v V P. rewrite (value_is_find _ _ _ _ V) in M. subst m. apply truncate_nonneg. exact P.
  - intros N. rewrite (value_missing _ _ _ N) in M.
    assert (NE : numbers start <> []).
    { intros E. assert (D : forall j, ~ declares_level params choice j).
      { intros j D. assert (I : In j (numbers start)) by (apply L; left; exact D). rewrite E in I. destruct I. }
      assert (I : In 0 (numbers start)) by (apply L; right; auto). rewrite E in I. destruct I. }
    destruct (list_max_nat_spec _ NE) as [A B]. exists (list_max_nat (numbers start)).
    split; [apply L; exact A|]. split; [intros k K; apply B; apply L; exact K|exact M].
Qed.

Lemma experience_fails : forall n params choice, (forall p, In p params -> word (p_category p)) ->
  well_named choice ->
  (parse_experience n params choice = ValueError <->
   parse_group (exp_levels choice) params = ValueError).
Proof.
  intros n params choice W G. unfold parse_experience. fold (exp_levels choice).
  destruct (parse_group (exp_levels choice) params) as [[c|]| | | | |]; cbn; split; intros; congruence.
Qed.

(** ** The first period *)

Lemma spec_starts : forall n lags filters with_exp choices params sp,
  core_spec_of n lags filters with_exp choices params = Ok sp ->
  exists parsed, Forall2 (fun c sm => parse_experience n params c = Ok sm) with_exp parsed /\
    sp = mkSpec n (map (fun sm => numbers (fst sm)) parsed) (map (fun sm => Z.to_nat (snd sm)) parsed)
                (List.length choices) lags filters.
Proof.
  intros n lags filters with_exp choices params sp H. unfold core_spec_of in H.
  destruct (result_all (map (parse_experience n params) with_exp)) as [parsed| | | | |] eqn:E; try discriminate.
  cbn [result_bind] in H. injection H as <-. exists parsed. split; [|reflexivity].
  revert parsed E. induction with_exp as [|c r IH]; intros parsed E; cbn in E.
  - injection E as <-. constructor.
  - destruct (parse_experience n params c) as [sm| | | | |] eqn:P; try discriminate.
    destruct (result_all (map (parse_experience n params) r)) as [l| | | | |] eqn:R; try discriminate.
    injection E as <-. constructor; [exact P|]. apply IH. reflexivity.
Qed.

Lemma vec_add_zero : forall init gain, List.length gain = List.length init -> list_sum gain = 0 ->
  vec_add init gain = init.
Proof.
  induction init as [|x r IH]; intros [|g gain] L S; try discriminate; [reflexivity|].
  unfold list_sum in *. cbn in L, S. unfold vec_add in *. cbn [combine map fst snd]. rewrite IH by lia. f_equal. lia.
Qed.
Lemma zeros_sum : forall A (l : list A), list_sum (map (fun _ => 0) l) = 0.
Proof. induction l as [|x l IH]; cbn; auto. Qed.

Lemma Forall2_map_r : forall A B C (P : A -> C -> Prop) (f : B -> C) l l',
  Forall2 P l (map f l') <-> Forall2 (fun a b => P a (f b)) l l'.
Proof.
  intros A B C P f. induction l as [|a l IH]; intros [|b l']; cbn; split; intros H; inversion H; subst; constructor; auto;
    apply IH; auto.
Qed.
Lemma Forall2_impl : forall A B (P Q : A -> B -> Prop) l l', (forall a b, P a b -> Q a b) ->
  Forall2 P l l' -> Forall2 Q l l'.
Proof. intros A B P Q l l' H F. induction F; constructor; auto. Qed.
Lemma Forall2_length : forall A B (P : A -> B -> Prop) l l', Forall2 P l l' -> List.length l = List.length l'.
Proof. intros A B P l l' F. induction F; cbn; auto. Qed.
Lemma Forall2_In : forall A B (P : A -> B -> Prop) l l', Forall2 P l l' -> Forall2 (fun a b => In a l /\ P a b) l l'.
Proof.
  intros A B P l l' F. induction F as [|x y l l' H F IH]; constructor; [split; [left; reflexivity|exact H]|].
  eapply Forall2_impl; [|exact IH]. intros a b [I Q]. split; [right; exact I|exact Q].
Qed.
Lemma Forall2_In_r : forall A B (P : A -> B -> Prop) l l' b, Forall2 P l l' -> In b l' -> exists a, In a l /\ P a b.
Proof.
  intros A B P l l' b F. induction F as [|x y l l' H F IH]; intros I; [destruct I|].
  destruct I as [<-|I]; [exists x; split; [left; reflexivity|exact H]|].
  destruct (IH I) as [a [Ia Pa]]. exists a. split; [right; exact Ia|exact Pa].
Qed.

Lemma first_period : forall n lags with_exp choices params sp,
  (forall p, In p params -> word (p_category p)) ->
  (forall c, In c with_exp -> well_named c) -> List.length with_exp <= List.length choices -> 0 < n -> lags <= 1 ->
  (forall c k, In c with_exp -> initial_level params c k -> k < 256) ->
  (forall c start m, In c with_exp -> parse_experience n params c = Ok (start, m) -> (0 <= m < 256)%Z) ->
  core_spec_of n lags [] with_exp choices params = Ok sp ->
  exists maxima, Forall2 (maximum_of n params) with_exp maxima /\
  forall experience lagged,
    In (mkState 0 experience lagged) (create_core_state_space sp) <->
    Forall2 (initial_level params) with_exp experience /\
    Forall2 (fun e m => (Z.of_nat e <= m)%Z) experience maxima /\
    complete_lags lags (List.length choices) lagged.
Proof.
  intros n lags with_exp choices params sp W G LC N LL B1 B2 H.
  destruct (spec_starts _ _ _ _ _ _ _ H) as [parsed [F ->]].
  assert (Q : Forall2 (fun c sm => In c with_exp /\ parse_experience n params c = Ok sm /\
                (forall k, In k (numbers (fst sm)) <-> initial_level params c k) /\
                maximum_of n params c (snd sm) /\ (0 <= snd sm < 256)%Z) with_exp parsed).
  { apply Forall2_In in F. eapply Forall2_impl; [|exact F]. intros c [st m] [I P]. cbn [fst snd].
    split; [exact I|]. split; [exact P|].
    destruct (levels_ok n params c W (G c I) st m P) as [_ [_ [L _]]]. split; [exact L|].
    split; [exact (maximum_ok n params c st m W (G c I) P)|exact (B2 c st m I P)]. }
  assert (LEN : List.length with_exp = List.length parsed) by (eapply Forall2_length; eauto).
  set (sp := mkSpec _ _ _ _ _ _).
  assert (WF : wf_spec sp).
  { unfold wf_spec, sp; cbn. rewrite !map_length. split; [reflexivity|]. split; [lia|]. split; [|split].
    - intros l I. apply in_map_iff in I. destruct I as [sm [<- I]].
      destruct (Forall2_In_r _ _ _ _ _ _ Q I) as [c [Ic [_ [_ [L _]]]]]. intros E.
      assert (D : forall j, ~ declares_level params c j).
      { intros j D. assert (X : In j (numbers (fst sm))) by (apply L; left; exact D). rewrite E in X. destruct X. }
      assert (X : In 0 (numbers (fst sm))) by (apply L; right; auto). rewrite E in X. destruct X.
    - intros l x I X. apply in_map_iff in I. destruct I as [sm [<- I]].
      destruct (Forall2_In_r _ _ _ _ _ _ Q I) as [c [Ic [_ [_ [L _]]]]]. apply (B1 c); [exact Ic|apply L; exact X].
    - intros m I. apply in_map_iff in I. destruct I as [sm [<- I]].
      destruct (Forall2_In_r _ _ _ _ _ _ Q I) as [c [Ic [_ [_ [_ [_ M]]]]]]. lia. }
  exists (map snd parsed). split.
  { apply Forall2_map_r. eapply Forall2_impl; [|exact Q]. cbn. tauto. }
  intros experience lagged. rewrite (core_exact sp _ WF) by exact LL. unfold feasible. cbn [cs_period cs_lag cs_exp].
  unfold sp at 1 2 3 4 5 6. cbn [sp_nperiods sp_starts sp_max sp_nchoices sp_nlags sp_filters].
  rewrite map_length.
  assert (EQ : forall exp, Forall2 (fun x levels => In x levels) exp (map (fun sm => numbers (fst sm)) parsed) <->
               Forall2 (initial_level params) with_exp exp).
  { intros exp. rewrite Forall2_map_r. clear - Q. revert exp. induction Q as [|c sm l l' [_ [_ [L _]]] Q IH]; intros exp.
    - split; intros X; inversion X; constructor.
    - split; intros X; inversion X; subst; constructor.
      + apply L. assumption.
      + apply IH. assumption.
      + apply L. assumption.
      + apply IH. assumption. }
  assert (EM : forall exp, Forall2 le exp (map (fun sm => Z.to_nat (snd sm)) parsed) <->
               Forall2 (fun e m => (Z.of_nat e <= m)%Z) exp (map snd parsed)).
  { intros exp. rewrite !Forall2_map_r. clear - Q. revert exp. induction Q as [|c sm l l' [_ [_ [_ [_ M]]]] Q IH]; intros exp.
    - split; intros X; inversion X; constructor.
    - split; intros X; inversion X; subst; constructor; try (apply IH; assumption); lia. }
  split.
  - intros [_ [CL [init [gain [I1 [I2 [I3 [I4 [I5 _]]]]]]]]].
    assert (LI : List.length init = List.length parsed).
    { apply Forall2_length in I1. rewrite map_length in I1. exact I1. }
    rewrite vec_add_zero in I4 by lia. subst experience. split; [apply EQ; exact I1|]. split; [apply EM; exact I5|exact CL].
  - intros [I1 [I2 CL]]. split; [exact N|]. split; [exact CL|].
    exists experience, (map (fun _ => 0) parsed). rewrite map_length, zeros_sum.
    split; [apply EQ; exact I1|]. split; [reflexivity|]. split; [lia|]. split.
    + symmetry. apply vec_add_zero; [|apply zeros_sum]. rewrite map_length. apply Forall2_length in I1. lia.
    + split; [apply EM; exact I2|]. intros f [].
Qed.

(** ** Covariates of types *)

Lemma type_name_inj : forall i j, ("type_" ++ dec i = "type_" ++ dec j)%string -> i = j.
Proof.
  intros i j E. apply Proof_Cache.dec_inj. cbn in E. injection E as E. exact E.
Qed.
Lemma type_covariates_ok : forall n covariates,
  (forall i, 1 <= i < n -> dict_get string_dec ("type_" ++ dec i) (add_type_covariates n covariates) =
                           Some ("type == " ++ dec i)) /\
  (forall x, (forall i, 1 <= i < n -> x <> "type_" ++ dec i) ->
     dict_get string_dec x (add_type_covariates n covariates) = dict_get string_dec x covariates).
Proof.
  intros n covariates. unfold add_type_covariates. destruct (Nat.leb_spec 2 n) as [L|L].
  - set (t := map _ _).
    assert (K : dict_keys t = map (fun i => "type_" ++ dec i) (seq 1 (n - 1))).
    { unfold dict_keys, t. rewrite map_map. reflexivity. }
    assert (ND : NoDup (dict_keys t)).
    { rewrite K. apply FinFun.Injective_map_NoDup; [|apply seq_NoDup]. intros i j. apply type_name_inj. }
    split.
    + intros i I. rewrite dict_get_update_in; [|exact ND|].
      * apply dict_get_In_NoDup; [exact ND|]. unfold t. apply in_map_iff. exists i. split; [reflexivity|].
        apply in_seq. lia.
      * rewrite K. apply in_map_iff. exists i. split; [reflexivity|]. apply in_seq. lia.
    + intros x X. apply dict_get_update. rewrite K. intros I. apply in_map_iff in I. destruct I as [i [E I]].
      apply in_seq in I. apply (X i); [lia|congruence].
  - split; [intros i I; lia|reflexivity].
Qed.
