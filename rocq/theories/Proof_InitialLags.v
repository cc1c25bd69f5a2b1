(** Proofs about the distribution of lagged choices in the first period. *)
From Coq Require Import List Arith Bool String Ascii Reals Lra Lia Permutation Sorted.
From Verif Require Import Base Proof_Base Model_Strings Proof_Strings Model_Cache Model_Choices Spec_Choices Proof_Regex Proof_Choices
  Spec_Solve Proof_Likelihood Proof_LikelihoodPanel Model_Params Spec_Params Proof_Params Proof_Types Proof_Names Proof_ParamsMore
  Model_SpecificationHelpers Proof_SpecificationHelpers Spec_InitialLags.
Import ListNotations.
Open Scope string_scope.
Local Open Scope nat_scope.

Lemma lag_ext_category : forall k i c, plain_name c -> lag_ext k (lag_category i c) = if Nat.eqb i k then Some c else None.
Proof. intros k i c [W N]. apply lag_of_template; assumption. Qed.
Lemma lag_ext_other : forall k s, ~ substring "lagged_choice_" s -> lag_ext k s = None.
Proof.
  intros k s H. destruct (lag_ext k s) as [g|] eqn:E; [|reflexivity]. exfalso. apply H. apply search_substring in E.
  destruct E as [x [y E]]. exists x, ((dec k ++ "_") ++ y)%string. rewrite E, !append_assoc_s. reflexivity.
Qed.
Lemma lag_category_substring : forall k c, substring "lagged_choice_" (lag_category k c).
Proof. intros k c. exists "", (dec k ++ "_" ++ c). reflexivity. Qed.
Lemma lag_category_inj : forall k c d, lag_category k c = lag_category k d -> c = d.
Proof.
  intros k c d H. unfold lag_category in H. apply (append_inj_l "lagged_choice_") in H. apply append_inj_l in H. apply (append_inj_l "_") in H. exact H.
Qed.

Section Lag.
  Variables (choices : list string) (params : list param) (k : nat).
  Hypothesis PL : proper_lags params.

  Lemma lag_describes : forall p s, describes (lag_ext k) params p s <-> In p params /\ plain_name s /\ p_category p = lag_category k s.
  Proof.
    intros p s. unfold describes. split.
    - intros [I E]. split; [exact I|]. destruct (PL p I) as [N|(i & c & W & Ec)]; [rewrite (lag_ext_other k _ N) in E; discriminate|].
      rewrite Ec, lag_ext_category in E by exact W. destruct (Nat.eqb_spec i k) as [->|n]; [|discriminate]. injection E as <-. auto.
    - intros (I & W & E). split; [exact I|]. rewrite E, lag_ext_category, Nat.eqb_refl by exact W. reflexivity.
  Qed.

  Lemma listed_iff : forall c, listed params k c = true <-> exists p, In p params /\ p_category p = lag_category k c.
  Proof.
    intros c. unfold listed. rewrite existsb_exists. split; intros [p [I E]]; exists p; (split; [exact I|]); apply String.eqb_eq; exact E.
  Qed.

  (** ** No parameters *)
  Lemma equiprobable : NoDup choices -> (forall p c, In p params -> plain_name c -> p_category p <> lag_category k c) ->
    exists c, parse_lag choices params k = Ok c /\ map fst c = map Label choices /\
      forall ch, In ch choices -> logit_probability c (Label ch) = (1 / INR (List.length choices))%R.
  Proof.
    intros ND H. unfold parse_lag. fold (lag_ext k).
    assert (P : parse_group (lag_ext k) params = Ok None).
    { apply parse_group_none. intros [p [s D]]. apply lag_describes in D. destruct D as (I & W & E). exact (H p s I W E). }
    rewrite P. cbn [result_bind]. eexists. split; [reflexivity|]. rewrite map_map. cbn [fst]. split; [reflexivity|].
    intros ch I. unfold logit_probability.
    assert (G : dict_get level_eq_dec (Label ch) (map (fun c => (Label c, constant 0)) choices) = Some (constant 0)).
    { clear ND H P. induction choices as [|a l IH]; [destruct I|]. cbn [map dict_get]. destruct (level_eq_dec (Label ch) (Label a)) as [_|n]; [reflexivity|].
      apply IH. destruct I as [I|I]; [congruence|exact I]. }
    rewrite G. unfold constant. rewrite logit_index_constant, exp_0. f_equal. rewrite map_map. cbn [snd].
    clear. induction choices as [|a l IH]; [reflexivity|]. cbn [map List.length]. change (rsum (?a :: ?m)) with (a + rsum m)%R.
    rewrite IH, logit_index_constant, exp_0, S_INR. lra.
  Qed.

  (** ** Probabilities *)
  Hypothesis ND : NoDup choices.
  Hypothesis WN : forall c, In c choices -> plain_name c.
  Hypothesis LP : lag_probabilities choices params k.

  Lemma lag_total_group : group_total (lag_ext k) params = lag_total choices params k.
  Proof.
    unfold group_total, lag_total. f_equal. f_equal. apply filter_ext_in. intros p I.
    destruct (lag_ext k (p_category p)) as [s|] eqn:E.
    - assert (D : describes (lag_ext k) params p s) by (split; assumption). apply lag_describes in D. destruct D as (_ & W & Ec).
      destruct (lp_probability _ _ _ LP p s I W Ec) as (Ic & _). symmetry. apply existsb_exists. exists s. split; [exact Ic|]. apply String.eqb_eq. exact Ec.
    - symmetry. destruct (existsb _ choices) eqn:X; [|reflexivity]. apply existsb_exists in X. destruct X as [c [Ic Ec]]. apply String.eqb_eq in Ec.
      rewrite Ec, lag_ext_category, Nat.eqb_refl in E by (apply WN; exact Ic). discriminate.
  Qed.

  Lemma some_parameter : exists p s, describes (lag_ext k) params p s.
  Proof.
    destruct (group_rows (lag_ext k) params) as [|[s [n v]] r] eqn:G.
    - exfalso. pose proof (lp_total _ _ _ LP) as T. rewrite <- lag_total_group, group_total_rows, G in T. cbn in T. lra.
    - assert (I : In (s, (n, v)) (group_rows (lag_ext k) params)) by (rewrite G; left; reflexivity).
      apply In_group_rows in I. destruct I as [p [D _]]. exists p, s. exact D.
  Qed.

  Lemma lag_distinct : distinct_levels (lag_ext k) params.
  Proof.
    intros i j p q s t l Hi Hj Es Et Ls Lt.
    assert (Dp : describes (lag_ext k) params p s) by (split; [eapply nth_error_In; exact Hi|exact Es]).
    assert (Dq : describes (lag_ext k) params q t) by (split; [eapply nth_error_In; exact Hj|exact Et]).
    apply (lag_level k params p s l Dp) in Ls. apply (lag_level k params q t l Dq) in Lt. subst l. injection Lt as <-.
    apply lag_describes in Dp. apply lag_describes in Dq. destruct Dp as (_ & _ & E1), Dq as (_ & _ & E2).
    exact (lp_once _ _ _ LP i j p q s Hi Hj E1 E2).
  Qed.

  Lemma rsum_split : forall A (f : A -> R) (P : A -> bool) l,
    rsum (map f l) = (rsum (map f (filter P l)) + rsum (map f (filter (fun x => negb (P x)) l)))%R.
  Proof.
    intros A f P l. induction l as [|x l IH]; [cbn; lra|]. cbn [filter map]. destruct (P x); cbn [negb map]; change (rsum (?a :: ?m)) with (a + rsum m)%R;
      rewrite IH; lra.
  Qed.

  Lemma sum_by_keys : forall (d : container) F, NoDup (map fst d) ->
    rsum (map (fun lr => F (snd lr)) d) = rsum (map (fun l => match dict_get level_eq_dec l d with Some rows => F rows | None => 0%R end) (map fst d)).
  Proof.
    intros d F. induction d as [|[l rows] d IH]; intros N; [reflexivity|]. cbn [map fst] in *. apply NoDup_cons_iff in N. destruct N as [N1 N2].
    change (rsum (?a :: ?m)) with (a + rsum m)%R. cbn [snd]. rewrite (IH N2). f_equal.
    - cbn [dict_get]. destruct (level_eq_dec l l); [reflexivity|contradiction].
    - rewrite !map_map. f_equal. apply map_ext_in. intros [l' r'] I. cbn [fst dict_get]. destruct (level_eq_dec l' l) as [->|_]; [|reflexivity].
      exfalso. apply N1. apply in_map_iff. exists (l, r'). auto.
  Qed.

  Lemma probabilities_of_lags :
    exists c, parse_lag choices params k = Ok c /\ map fst c = map Label choices /\
      let missing := INR (List.length (filter (fun ch => negb (listed params k ch)) choices)) in
      (forall p ch, In p params -> In ch choices -> p_category p = lag_category k ch ->
         logit_probability c (Label ch) = (snd p / lag_total choices params k / (1 + missing * exp (- 10 ^ 200)))%R) /\
      (forall ch, In ch choices -> (forall p, In p params -> p_category p <> lag_category k ch) ->
         logit_probability c (Label ch) = (exp (- 10 ^ 200) / (1 + missing * exp (- 10 ^ 200)))%R).
  Proof.
    assert (ALL : forall p s, describes (lag_ext k) params p s -> p_name p = "probability").
    { intros p s D. apply lag_describes in D. destruct D as (I & W & E). apply (lp_probability _ _ _ LP p s I W E). }
    assert (POS : (0 < group_total (lag_ext k) params)%R) by (rewrite lag_total_group; apply LP).
    assert (LARGE : forall p s, describes (lag_ext k) params p s -> (group_total (lag_ext k) params / MAX_FLOAT <= snd p)%R).
    { intros p s D. apply lag_describes in D. destruct D as (I & W & E). rewrite lag_total_group. apply (lp_probability _ _ _ LP p s I W E). }
    assert (P := parse_probabilities (lag_ext k) params some_parameter ALL lag_distinct).
    assert (GL := get_level (lag_ext k) params some_parameter lag_distinct POS LARGE).
    assert (ES := exp_sum (lag_ext k) params some_parameter lag_distinct POS LARGE).
    set (c0 := single_container _ _) in *.
    assert (KS := parse_group_keys _ _ _ P).
    assert (N0 : NoDup (map fst c0)).
    { destruct (probabilities_ok (lag_ext k) params some_parameter ALL lag_distinct POS LARGE) as (c' & P' & SS & _).
      rewrite P in P'. injection P' as <-. clear -SS. induction SS as [|l m SS IH F]; constructor; [|exact IH].
      intros I. rewrite Forall_forall in F. destruct (F l I) as [_ X]. contradiction. }
    assert (K0 : forall l, In l (map fst c0) <-> exists ch, In ch choices /\ listed params k ch = true /\ l = Label ch).
    { intros l. rewrite KS. split.
      - intros (p & s & D & L). apply (lag_level k params p s l D) in L. subst l. apply lag_describes in D. destruct D as (I & W & E).
        exists s. split; [apply (lp_probability _ _ _ LP p s I W E)|]. split; [apply listed_iff; eauto|reflexivity].
      - intros (ch & I & L & ->). apply listed_iff in L. destruct L as [p [Ip E]]. exists p, ch.
        assert (D : describes (lag_ext k) params p ch) by (apply lag_describes; auto). split; [exact D|]. apply (lag_level k params p ch _ D). reflexivity. }
    set (d := dict_update level_eq_dec (map (fun c => (Label c, constant MIN_FLOAT)) choices) c0).
    assert (Pd : parse_lag choices params k = Ok d) by (unfold parse_lag; fold (lag_ext k); rewrite P; reflexivity).
    assert (Kd : map fst d = map Label choices).
    { apply (lag_known choices params k d Pd). intros p s D. apply lag_describes in D. destruct D as (I & W & E). apply (lp_probability _ _ _ LP p s I W E). }
    assert (Nl : NoDup (map Label choices)) by (apply FinFun.Injective_map_NoDup; [intros a b E; congruence|exact ND]).
    assert (Gd : forall ch, In ch choices -> dict_get level_eq_dec (Label ch) d =
       if listed params k ch then dict_get level_eq_dec (Label ch) c0 else Some (constant MIN_FLOAT)).
    { intros ch I. unfold d. destruct (listed params k ch) eqn:L.
      - apply dict_get_update_in; [exact N0|]. apply K0. eauto.
      - rewrite dict_get_update.
        + clear -I. induction choices as [|a l IH]; [destruct I|]. cbn [map dict_get]. destruct (level_eq_dec (Label ch) (Label a)) as [_|n]; [reflexivity|].
          apply IH. destruct I as [I|I]; [congruence|exact I].
        + intros X. apply K0 in X. destruct X as (ch' & _ & L' & E). injection E as <-. congruence. }
    assert (SD : rsum (map (fun lr => exp (logit_index (snd lr))) d) =
      (1 + INR (List.length (filter (fun ch => negb (listed params k ch)) choices)) * exp (- 10 ^ 200))%R).
    { rewrite (sum_by_keys d (fun r => exp (logit_index r))) by (rewrite Kd; exact Nl). rewrite Kd, map_map.
      rewrite (rsum_split _ _ (listed params k) choices). f_equal.
      - rewrite <- ES, (sum_by_keys c0 (fun r => exp (logit_index r)) N0).
        rewrite (rsum_perm (map _ (map fst c0)) (map (fun l => match dict_get level_eq_dec l c0 with Some rows => exp (logit_index rows) | None => 0%R end)
          (map Label (filter (listed params k) choices)))).
        + rewrite map_map. f_equal. apply map_ext_in. intros ch I. apply filter_In in I. destruct I as [I L]. rewrite (Gd ch I), L. reflexivity.
        + apply Permutation_map. apply NoDup_Permutation; [exact N0| |].
          * apply FinFun.Injective_map_NoDup; [intros a b E; congruence|]. apply NoDup_filter. exact ND.
          * intros l. rewrite K0, in_map_iff. split; intros (ch & X); exists ch; rewrite filter_In in *; intuition (symmetry; assumption).
      - assert (X : forall l, (forall ch, In ch l -> In ch choices /\ listed params k ch = false) ->
          rsum (map (fun ch => match dict_get level_eq_dec (Label ch) d with Some rows => exp (logit_index rows) | None => 0%R end) l) = (INR (List.length l) * exp (- 10 ^ 200))%R).
        { induction l as [|ch l IH]; intros H; [cbn; lra|]. cbn [map]. change (rsum (?a :: ?m)) with (a + rsum m)%R.
          change (List.length (ch :: l)) with (S (List.length l)). rewrite S_INR, IH by (intros; apply H; right; assumption). destruct (H ch (or_introl eq_refl)) as [H1 H2].
          rewrite (Gd ch H1), H2. unfold constant. rewrite logit_index_constant. unfold MIN_FLOAT, MAX_FLOAT. lra. }
        apply X. intros ch I. apply filter_In in I. destruct I as [I L]. split; [exact I|]. destruct (listed params k ch); [discriminate|reflexivity]. }
    exists d. split; [exact Pd|]. split; [exact Kd|]. cbv zeta. split.
    - intros p ch I Ic E. unfold logit_probability. rewrite (Gd ch Ic).
      assert (L : listed params k ch = true) by (apply listed_iff; eauto). rewrite L, SD.
      assert (D : describes (lag_ext k) params p ch) by (apply lag_describes; auto).
      rewrite (GL p ch (Label ch) D) by (apply (lag_level k params p ch _ D); reflexivity).
      rewrite logit_index_constant, exp_ln by (apply (positive_quotient (lag_ext k) params p ch POS LARGE D)). rewrite lag_total_group. reflexivity.
    - intros ch Ic H. unfold logit_probability. rewrite (Gd ch Ic).
      assert (L : listed params k ch = false).
      { destruct (listed params k ch) eqn:L; [|reflexivity]. apply listed_iff in L. destruct L as [p [I E]]. exfalso. exact (H p I E). }
      rewrite L, SD. unfold constant. rewrite logit_index_constant. reflexivity.
  Qed.
End Lag.

(** ** Superfluous lags *)
Lemma superfluous_lags : forall choices covariates before extra after,
  (forall p, In p extra -> exists i c, number_of_lags covariates < i /\ plain_name c /\ p_category p = lag_category i c) ->
  parse_lagged_choices choices covariates (before ++ extra ++ after) = parse_lagged_choices choices covariates (before ++ after).
Proof.
  intros choices covariates before extra after H. unfold parse_lagged_choices. f_equal. apply map_ext_in. intros k I. apply in_seq in I.
  unfold parse_lag. f_equal. fold (lag_ext k). unfold parse_group.
  rewrite !group_rows_app, (group_rows_none (lag_ext k) extra); [reflexivity|].
  intros p Hp. destruct (H p Hp) as (i & c & L & W & E). rewrite E, lag_ext_category by exact W. destruct (Nat.eqb_spec i k); [lia|reflexivity].
Qed.
