(** Proofs about the columns of the simulated data. *)
From Coq Require Import List Arith Bool String Reals Lia Lra Permutation.
From Verif Require Import Base Proof_Base Model_CoreStateSpace Model_StateSpace Model_Solve Spec_Solve
  Model_Parallel Model_Simulate Spec_Simulate Model_Choices Model_OutputColumns Spec_OutputColumns
  Spec_Choices Proof_Columns Proof_Solve Proof_Shocks Proof_Simulate Proof_StateSpace Proof_MSMStructure.
Import ListNotations.
Open Scope string_scope.

(** ** Cells *)
Lemma cell_put_same : forall n v r, cell_of (put n v r) n = v.
Proof. intros. unfold cell_of, put. rewrite dict_get_set_same. reflexivity. Qed.
Lemma cell_put_other : forall n n' v r, n' <> n -> cell_of (put n v r) n' = cell_of r n'.
Proof. intros. unfold cell_of, put. rewrite dict_get_set_other by assumption. reflexivity. Qed.

Lemma append_inj : forall p a b, p ++ a = p ++ b -> a = b.
Proof. induction p as [|c p IH]; intros a b H; simpl in H; [exact H | injection H as H; auto]. Qed.

Ltac other := rewrite cell_put_other; [| solve [cbn; discriminate | cbn; congruence | intros HH; apply append_inj in HH; congruence ] ].

(** The loops write the columns of their choices and leave all others. *)
Lemma fold_other : forall (f : row -> nat * string -> row) l r n,
  (forall r p, In p l -> cell_of (f r p) n = cell_of r n) ->
  cell_of (fold_left f l r) n = cell_of r n.
Proof.
  induction l as [|p l IH]; intros r n H; [reflexivity|]. cbn [fold_left].
  rewrite IH by (intros; apply H; right; assumption). apply H. left. reflexivity.
Qed.

Lemma fold_hit : forall (f : row -> nat * string -> row) pre names r i x v,
  NoDup names -> nth_error names i = Some x ->
  (forall r, cell_of (f r (i, x)) (pre ++ x) = v) ->
  (forall r j y, y <> x -> cell_of (f r (j, y)) (pre ++ x) = cell_of r (pre ++ x)) ->
  cell_of (fold_left f (enumerate names) r) (pre ++ x) = v.
Proof.
  intros f pre names r i x v N Hi Hv Ho.
  assert (G : forall names n r i, NoDup names -> nth_error names i = Some x ->
     (forall r, cell_of (f r ((n + i)%nat, x)) (pre ++ x) = v) ->
     cell_of (fold_left f (enumerate_from n names) r) (pre ++ x) = v).
  { clear - Ho. induction names as [|y names IH]; intros n r i N Hi Hv; [destruct i; discriminate|].
    cbn [enumerate_from fold_left]. inversion N as [|? ? N1 N2]; subst.
    destruct i as [|i]; simpl in Hi.
    - injection Hi as ->. rewrite fold_other.
      + rewrite Nat.add_0_r in Hv. apply Hv.
      + intros r' [j z] Hin. apply Ho. intros ->. apply N1.
        apply (in_map snd) in Hin. rewrite (map_snd_enumerate_from _ names) in Hin. exact Hin.
    - apply (IH (S n) _ i N2 Hi). intros r'. replace (S n + i)%nat with (n + S i)%nat by lia. apply Hv. }
  apply (G names 0%nat r i); auto.
Qed.

Lemma fold_leaves : forall (f : row -> nat * string -> row) prefixes names r n,
  (forall r p, ~ In n (map (fun q => q ++ snd p) prefixes) -> cell_of (f r p) n = cell_of r n) ->
  (forall x, In x names -> ~ In n (map (fun q => q ++ x) prefixes)) ->
  cell_of (fold_left f (enumerate names) r) n = cell_of r n.
Proof.
  intros f prefixes names r n H1 H2. apply fold_other. intros r' [i x] Hin. apply H1, H2.
  apply In_enumerate in Hin. eapply nth_error_In. exact Hin.
Qed.

(** ** Before the period *)
Section Prepare.
  Variables (choices : list string) (e : entrant).
  Hypothesis N : NoDup choices.

  Lemma prepare_shock : forall c x, nth_error choices c = Some x ->
    cell_of (prepare choices e) ("shock_reward_" ++ x) = Num (nth c (e_shocks e) 0%R).
  Proof.
    intros c x H. unfold prepare. do 2 other. apply (fold_hit _ _ _ _ c x _ N H).
    - intros r. cbn [fst snd]. other. apply cell_put_same.
    - intros r j y Hy. cbn [fst snd]. do 2 other. reflexivity.
  Qed.

  Lemma prepare_meas : forall c x, nth_error choices c = Some x ->
    cell_of (prepare choices e) ("meas_error_wage_" ++ x) = Num (nth c (e_meas e) 0%R).
  Proof.
    intros c x H. unfold prepare. do 2 other. apply (fold_hit _ _ _ _ c x _ N H).
    - intros r. cbn [fst snd]. apply cell_put_same.
    - intros r j y Hy. cbn [fst snd]. do 2 other. reflexivity.
  Qed.

  Lemma prepare_index : cell_of (prepare choices e) "core_index" = Code (e_index e).
  Proof. unfold prepare. apply cell_put_same. Qed.

  Lemma prepare_other : forall n, n <> "core_index" -> n <> "dense_key" ->
    (forall x, In x choices -> n <> "shock_reward_" ++ x /\ n <> "meas_error_wage_" ++ x) ->
    cell_of (prepare choices e) n = cell_of (e_state e) n.
  Proof.
    intros n H1 H2 H3. unfold prepare. rewrite !cell_put_other by assumption.
    apply (fold_leaves _ ["shock_reward_"; "meas_error_wage_"]).
    - intros r p H. cbn [map In] in H. rewrite !cell_put_other by (intros E; apply H; auto). reflexivity.
    - intros x Hx [E|[E|[]]]; destruct (H3 x Hx); congruence.
  Qed.
End Prepare.

(** ** After the period *)
Section Store.
  Variables (valid : list string) (choice : nat) (wage : cell) (delta beta : R)
    (nonpecs : list R) (wages : list (option R)) (flows values conts shocks : list R) (r : row).
  Hypothesis N : NoDup valid.
  Let s := store valid choice wage delta beta nonpecs wages flows values conts shocks r.

  Lemma store_choice_columns : forall j x, nth_error valid j = Some x ->
    cell_of s ("shock_reward_" ++ x) = Num (nth j shocks 0%R) /\
    cell_of s ("continuation_value_" ++ x) = Num (nth j conts 0%R) /\
    cell_of s ("value_function_" ++ x) = Num (nth j values 0%R) /\
    cell_of s ("flow_utility_" ++ x) = Num (nth j flows 0%R) /\
    cell_of s ("wage_" ++ x) = of_option (nth j wages None) /\
    cell_of s ("nonpecuniary_reward_" ++ x) = Num (nth j nonpecs 0%R).
  Proof.
    intros j x H. unfold s, store.
    repeat split; (apply (fold_hit _ _ _ _ j x _ N H); intros; cbn [fst snd]; [repeat (rewrite cell_put_same || other); reflexivity | repeat other; reflexivity]).
  Qed.

  Lemma store_leaves : forall n, ~ In n ["choice"; "wage"; "discount_rate"; "present_bias"] ->
    (forall x, In x valid -> ~ In n (map (fun q => q ++ x)
       ["shock_reward_"; "continuation_value_"; "value_function_"; "flow_utility_"; "wage_"; "nonpecuniary_reward_"])) ->
    cell_of s n = cell_of r n.
  Proof.
    intros n H1 H2. unfold s, store.
    rewrite (fold_leaves _ ["shock_reward_"; "continuation_value_"; "value_function_"; "flow_utility_"; "wage_"; "nonpecuniary_reward_"]).
    - cbn [In] in H1. rewrite !cell_put_other by (intros E; apply H1; auto 6). reflexivity.
    - intros r' p H. cbn [map In] in H. rewrite !cell_put_other by (intros E; apply H; auto 8). reflexivity.
    - exact H2.
  Qed.

  Lemma store_row_columns :
    cell_of s "choice" = Code choice /\ cell_of s "wage" = wage /\
    cell_of s "discount_rate" = Num delta /\ cell_of s "present_bias" = Num beta.
  Proof.
    unfold s, store. repeat split;
      (rewrite fold_other; [repeat (rewrite cell_put_same || other); reflexivity
        | intros r' [i x] _; cbn [fst snd]; repeat other; reflexivity]).
  Qed.
End Store.

(** ** Names of the available choices *)
Lemma valid_eq : forall choices cs, List.length cs = List.length choices ->
  select_valid_choices choices cs = map (fun c => nth c choices "") (positions cs).
Proof.
  intros choices cs L. rewrite <- (compress_positions _ cs choices "" L).
  unfold select_valid_choices, enumerate.
  assert (G : forall (choices : list string) cs n all, List.length cs = List.length choices ->
     (forall i, nth (n + i)%nat all false = nth i cs false) ->
     map snd (filter (fun p => nth (fst p) all false) (enumerate_from n choices)) = compress cs choices).
  { clear. induction choices as [|x choices IH]; intros [|b cs] n all L H; simpl in *; try lia; [reflexivity|].
    assert (H0 := H 0%nat). rewrite Nat.add_0_r in H0. simpl in H0. rewrite H0.
    assert (IH' := IH cs (S n) all ltac:(lia)).
    assert (Hs : forall i, nth (S n + i) all false = nth i cs false)
      by (intros i; specialize (H (S i)); rewrite Nat.add_succ_r in H; exact H).
    specialize (IH' Hs). destruct b; simpl; rewrite IH'; reflexivity. }
  apply G; auto.
Qed.

Lemma valid_nth : forall (choices : list string) cs j x, List.length cs = List.length choices ->
  (nth_error (select_valid_choices choices cs) j = Some x <->
   exists c, nth_error (positions cs) j = Some c /\ nth_error choices c = Some x).
Proof.
  intros choices cs j x L. rewrite valid_eq by exact L. rewrite nth_error_map. split.
  - destruct (nth_error (positions cs) j) as [c|] eqn:E; [|discriminate]. intros H. injection H as H.
    exists c. split; [reflexivity|]. rewrite (nth_error_nth' choices ""); [congruence|].
    rewrite <- L. assert (In c (positions cs)) by (eapply nth_error_In; eauto).
    apply In_positions in H0. apply nth_error_Some. congruence.
  - intros [c [E H]]. rewrite E. simpl. f_equal. apply nth_error_nth. exact H.
Qed.

Lemma NoDup_valid : forall (choices : list string) cs, NoDup choices -> NoDup (select_valid_choices choices cs).
Proof.
  intros choices cs N. unfold select_valid_choices, enumerate.
  assert (G : forall (l : list string) n, NoDup l ->
    NoDup (map snd (filter (fun p : nat * string => nth (fst p) cs false) (enumerate_from n l)))).
  { clear. induction l as [|x l IH]; intros n N; [constructor|]. inversion N; subst. simpl.
    destruct (nth n cs false); simpl; [constructor|]; auto. intros H. apply H1.
    apply in_map_iff in H. destruct H as [[i y] [<- H]]. apply filter_In in H. destruct H as [H _].
    apply (in_map snd) in H. rewrite map_snd_enumerate_from in H. exact H. }
  apply G; assumption.
Qed.

Lemma In_valid : forall (choices : list string) cs c x, List.length cs = List.length choices -> NoDup choices ->
  nth_error choices c = Some x -> (In x (select_valid_choices choices cs) <-> available cs c).
Proof.
  intros choices cs c x L N H. split.
  - intros Hin. apply In_nth_error in Hin. destruct Hin as [j Hj]. apply valid_nth in Hj; [|exact L].
    destruct Hj as [c' [Hp Hc']]. assert (c = c') as ->.
    { rewrite NoDup_nth_error in N. apply N; [apply nth_error_Some|]; congruence. }
    apply In_positions. eapply nth_error_In. exact Hp.
  - intros A. apply In_positions in A. apply In_nth_error in A. destruct A as [j Hj].
    apply (nth_error_In _ j). apply valid_nth; [exact L|]. exists c. auto.
Qed.

Lemma name_positions_eq : forall (choices : list string) cs, NoDup choices -> List.length cs = List.length choices ->
  name_positions choices (select_valid_choices choices cs) = positions cs.
Proof.
  intros choices cs N L. unfold name_positions, positions, enumerate.
  assert (HV : forall i x, nth_error choices i = Some x ->
    (if in_dec string_dec x (select_valid_choices choices cs) then true else false) = nth i cs false).
  { intros i x Hi. assert (A := In_valid choices cs i x L N Hi). unfold available in A.
    destruct (in_dec string_dec x _) as [H|H].
    - symmetry. apply nth_error_nth. apply A, H.
    - destruct (nth_error cs i) as [[|]|] eqn:E.
      + exfalso. apply H, A. reflexivity.
      + symmetry. apply nth_error_nth. exact E.
      + apply nth_error_None in E. assert (i < List.length choices)%nat by (apply nth_error_Some; congruence). lia. }
  revert HV. generalize (select_valid_choices choices cs) as valid. intros valid. clear N.
  generalize 0%nat as n. revert cs L. induction choices as [|x choices IH]; intros [|b cs] L n HV; simpl in *; try lia; [reflexivity|].
  rewrite (HV 0%nat x eq_refl). simpl. specialize (IH cs ltac:(lia) (S n) (fun i => HV (S i))).
  destruct b; simpl; rewrite IH; reflexivity.
Qed.

(** ** One row *)
Lemma read_all : forall r prefix (names : list string) (g : nat -> R) (codes : list nat),
  List.length names = List.length codes ->
  (forall j x c, nth_error names j = Some x -> nth_error codes j = Some c ->
     cell_of r (prefix ++ x) = Num (g c)) ->
  result_all (map (fun x => read_number r (prefix ++ x)) names) = Ok (map g codes).
Proof.
  induction names as [|x names IH]; intros g [|c codes] L H; simpl in *; try lia; [reflexivity|].
  assert (H0 := H 0%nat x c eq_refl eq_refl). unfold cell_of in H0. unfold read_number at 1.
  destruct (dict_get string_dec (prefix ++ x) r) as [[y| |]|]; try discriminate.
  injection H0 as ->. rewrite (IH g codes ltac:(lia)).
  - reflexivity.
  - intros j. exact (H (S j)).
Qed.

Lemma rank_wage : forall cs nw j c, nth_error (positions cs) j = Some c ->
  (Nat.ltb j (count_true (firstn nw cs)) = Nat.ltb c nw).
Proof.
  intros cs nw j c Hj. assert (F := firstn_positions cs nw j c Hj).
  destruct (Nat.ltb_spec j (count_true (firstn nw cs))), (Nat.ltb_spec c nw); lia || reflexivity.
Qed.

Section Row.
  Variables (k : constants) (g : group) (e : entrant).
  Hypothesis N : NoDup (k_choices k).
  Hypothesis SQ : square (List.length (k_choices k)) (p_chol (k_params k)).
  Hypothesis C : complete k g e.
  Let choices := k_choices k.
  Let p := k_params k.
  Let cs := g_choice_set g.
  Let valid := select_valid_choices choices cs.

  Lemma not_written : forall n, In n (map fst (e_state e)) -> ~ In n (written_columns choices).
  Proof. destruct C. assumption. Qed.

  Lemma state_missing : forall n, In n (written_columns choices) -> cell_of (e_state e) n = Missing.
  Proof.
    intros n H. unfold cell_of. destruct (dict_get string_dec n (e_state e)) as [v|] eqn:E; [|reflexivity].
    exfalso. apply (not_written n); [|exact H]. apply dict_get_Some_In in E. apply (in_map fst) in E. exact E.
  Qed.

  Lemma row_account : exists r,
    single_row k cs (g_wages g) (g_nonpecs g) (g_conts g) (prepare choices e) = Ok r /\
    account choices p (k_beta k) cs (e_shocks e) (e_meas e) (cell_of r) /\
    (forall n, ~ In n (written_columns choices) -> cell_of r n = cell_of (e_state e) n).
  Proof.
    destruct C as [LC [c0 A0] LS LM [w [np [ct [Hw [Hn [Hc [Lw [Ln [Lc One]]]]]]]]] _].
    fold cs in LC, A0, Lw, Ln, Lc, One. fold choices in LC, LS, LM. fold p in One.
    unfold single_row. rewrite prepare_index. rewrite Hw, Hn, Hc.
    assert (Hlen : List.length (select_valid_choices choices cs) = List.length (positions cs))
      by (rewrite valid_eq by exact LC; apply map_length).
    fold choices. rewrite (read_all _ "shock_reward_" _ (fun c => nth c (e_shocks e) 0%R) (positions cs) Hlen).
    2: { intros j x c Hx Hp. apply valid_nth in Hx; [|exact LC]. destruct Hx as [c' [Hp' Hx]].
         assert (c' = c) as -> by congruence. apply prepare_shock; assumption. }
    cbn [result_bind].
    rewrite (read_all _ "meas_error_wage_" _ (fun c => nth c (e_meas e) 0%R) (positions cs) Hlen).
    2: { intros j x c Hx Hp. apply valid_nth in Hx; [|exact LC]. destruct Hx as [c' [Hp' Hx]].
         assert (c' = c) as -> by congruence. apply prepare_meas; assumption. }
    cbn [result_bind]. fold p.
    rewrite <- (compress_positions _ cs (e_shocks e) 0%R) by congruence.
    set (shocks := transform_draw _ _ _).
    set (bd := (k_beta k * p_delta p)%R).
    set (values := value_functions w np ct shocks bd).
    set (flows := flow_utilities w np ct shocks bd).
    set (obs := observed_wages w shocks _ _).
    assert (LV : List.length values = count_true cs) by (unfold values, value_functions; rewrite map_length, seq_length; exact Lw).
    assert (Hs : forall j c, nth_error (positions cs) j = Some c -> nth j shocks 0%R = shock_of p cs (e_shocks e) c).
    { intros j c Hj. apply nth_error_nth. unfold shocks. eapply transform_draw_nth; eauto; fold choices; congruence. }
    assert (Lj : forall j c, nth_error (positions cs) j = Some c -> (j < count_true cs)%nat).
    { intros j c Hj. rewrite <- length_positions. apply nth_error_Some. congruence. }
    assert (Pos : (0 < count_true cs)%nat).
    { apply In_positions in A0. apply In_nth_error in A0. destruct A0 as [j Hj]. apply Lj in Hj. lia. }
    destruct (argmax_some values) as [jm Ej]; [intros E; rewrite E in LV; simpl in LV; lia|].
    rewrite Ej. rewrite name_positions_eq by assumption.
    eexists. split; [reflexivity|].
    set (r := store _ _ _ _ _ _ _ _ _ _ _ _).
    assert (NV : NoDup (select_valid_choices choices cs)) by (apply NoDup_valid; exact N).
    destruct (store_row_columns (select_valid_choices choices cs) (recode (positions cs) jm)
                (of_option (nth jm obs None)) (p_delta p) (k_beta k) np obs flows values ct shocks
                (prepare choices e)) as [RC [RW [RD RB]]]. fold r in RC, RW, RD, RB.
    assert (Cols : forall j x, nth_error (select_valid_choices choices cs) j = Some x -> _)
      by (exact (store_choice_columns (select_valid_choices choices cs) (recode (positions cs) jm)
                (of_option (nth jm obs None)) (p_delta p) (k_beta k) np obs flows values ct shocks
                (prepare choices e) NV)). fold r in Cols.
    assert (Leave : forall n, _) by (exact (store_leaves (select_valid_choices choices cs) (recode (positions cs) jm)
                (of_option (nth jm obs None)) (p_delta p) (k_beta k) np obs flows values ct shocks
                (prepare choices e))). fold r in Leave.
    assert (Val : forall j c, nth_error (positions cs) j = Some c ->
      nth_error values j = Some (nth j w 0%R * shock_of p cs (e_shocks e) c + nth j np 0%R + bd * nth j ct 0%R)%R).
    { intros j c Hj. unfold values, value_functions. rewrite nth_error_map_seq by (rewrite Lw; eapply Lj; eauto).
      simpl. rewrite (Hs _ _ Hj). reflexivity. }
    assert (Flow : forall j c, nth_error (positions cs) j = Some c ->
      nth j flows 0%R = (nth j w 0%R * shock_of p cs (e_shocks e) c + nth j np 0%R)%R).
    { intros j c Hj. apply nth_error_nth. unfold flows, flow_utilities.
      rewrite nth_error_map_seq by (rewrite Lw; eapply Lj; eauto). simpl. rewrite (Hs _ _ Hj). reflexivity. }
    assert (Obs : forall j c, nth_error (positions cs) j = Some c ->
      nth j obs None = if Nat.ltb c (p_nwages p)
        then Some (nth j w 0%R * shock_of p cs (e_shocks e) c * nth c (e_meas e) 0%R)%R else None).
    { intros j c Hj. apply nth_error_nth. unfold obs, observed_wages.
      rewrite nth_error_map_seq by (rewrite Lw; eapply Lj; eauto).
      rewrite (rank_wage cs (p_nwages p) j c Hj). rewrite (Hs _ _ Hj).
      rewrite (nth_error_nth (map _ (positions cs)) j 0%R (x := nth c (e_meas e) 0%R)); [reflexivity|].
      rewrite nth_error_map, Hj. reflexivity. }
    split.
    - constructor.
      + split; assumption.
      + intros c x Hx A. assert (Ap := A). apply In_positions in Ap. apply In_nth_error in Ap. destruct Ap as [j Hj].
        destruct (Cols j x) as [C1 [C2 [C3 [C4 [C5 C6]]]]]; [apply valid_nth; [exact LC|]; eauto|].
        exists (nth j np 0%R), (nth j flows 0%R), (nth j values 0%R), (nth j ct 0%R), (nth j shocks 0%R), (nth c (e_meas e) 0%R).
        unfold number. split; [exact C6|]. split; [exact C4|]. split; [exact C3|]. split; [exact C2|]. split; [exact C1|].
        split.
        { rewrite Leave; [apply prepare_meas; assumption | |].
          - cbn. intuition discriminate.
          - intros y _. cbn. intuition discriminate. }
        split; [apply Hs; exact Hj|].
        split; [apply nth_error_nth'; rewrite LM; apply nth_error_Some; congruence|].
        rewrite (nth_error_nth _ _ 0%R (Val _ _ Hj)), (Flow _ _ Hj).
        split; [unfold bd; ring|]. rewrite C5, (Obs _ _ Hj). split.
        { intros Hlt. apply Nat.ltb_lt in Hlt. rewrite Hlt. simpl. f_equal. ring. }
        { intros Hge. assert (Hge' := Hge). apply Nat.ltb_ge in Hge'. rewrite Hge'. split; [reflexivity|].
          rewrite (One _ _ Hj Hge), (Hs _ _ Hj). ring. }
      + intros c x Hx U.
        assert (NI : ~ In x (select_valid_choices choices cs)).
        { rewrite (In_valid choices cs c x LC N Hx). unfold available, unavailable in *. congruence. }
        assert (Hcx : In x choices) by (eapply nth_error_In; eauto).
        assert (Sep : forall q y, In y (select_valid_choices choices cs) -> q ++ x <> q ++ y).
        { intros q y Hy E. apply append_inj in E. subst y. contradiction. }
        split.
        { exists (nth c (e_shocks e) 0%R), (nth c (e_meas e) 0%R). unfold number.
          split; [apply nth_error_nth'; rewrite LS; apply nth_error_Some; congruence|].
          split; [apply nth_error_nth'; rewrite LM; apply nth_error_Some; congruence|].
          split; (rewrite Leave; [| cbn; intuition discriminate
             | intros y Hy HI; cbn [map In] in HI; repeat (destruct HI as [HI|HI]; [first [discriminate | symmetry in HI; eapply Sep; eassumption]|]); exact HI]).
          - apply prepare_shock; assumption.
          - apply prepare_meas; assumption. }
        { intros q Hq. rewrite Leave.
          - rewrite prepare_other.
            + apply state_missing. unfold written_columns. apply in_or_app. right. apply in_flat_map.
              exists x. split; [exact Hcx|]. apply in_map_iff. exists q. split; [reflexivity|].
              cbn in Hq |- *. intuition.
            + cbn in Hq. intuition (subst; discriminate).
            + cbn in Hq. intuition (subst; discriminate).
            + intros y Hy. cbn in Hq. intuition (subst; discriminate).
          - cbn in Hq |- *. intuition (subst; discriminate).
          - intros y Hy HI. cbn [map In] in HI. cbn [In] in Hq.
            repeat (destruct Hq as [<-|Hq]; [repeat (destruct HI as [HI|HI]; [first [discriminate | symmetry in HI; eapply Sep; eassumption]|]); exact HI|]).
            exact Hq. }
      + pose proof (argmax_spec _ _ Ej) as [v [Hv [Hmax _]]].
        assert (Lm : (jm < count_true cs)%nat) by (rewrite <- LV; apply nth_error_Some; congruence).
        destruct (nth_error (positions cs) jm) as [c|] eqn:Hj;
          [|apply nth_error_None in Hj; rewrite length_positions in Hj; lia].
        assert (A : available cs c) by (apply In_positions; eapply nth_error_In; eauto).
        destruct (nth_error choices c) as [x|] eqn:Hx.
        2: { apply nth_error_None in Hx. unfold available in A. assert (c < List.length cs)%nat by (apply nth_error_Some; congruence). lia. }
        destruct (Cols jm x) as [C1 [C2 [C3 [C4 [C5 C6]]]]]; [apply valid_nth; [exact LC|]; eauto|].
        exists c, x, v. split; [exact Hx|]. split; [exact A|].
        split; [unfold number; rewrite C3; f_equal; apply nth_error_nth; exact Hv|].
        split; [rewrite RW, C5; reflexivity|]. split.
        { intros c' x' v' Hx' A' Hv'. apply In_positions in A'. apply In_nth_error in A'. destruct A' as [j' Hj'].
          destruct (Cols j' x') as [_ [_ [C3' _]]]; [apply valid_nth; [exact LC|]; eauto|].
          unfold number in Hv'. rewrite C3' in Hv'. injection Hv' as <-. apply (Hmax j').
          rewrite (Val _ _ Hj') at 1. f_equal. symmetry. apply nth_error_nth. apply Val. exact Hj'. }
        { intros IP. rewrite RC. f_equal. apply recode_in_place; [exact Hj|].
          rewrite length_positions. apply IP. exact Hj. }
    - intros n Hn'. unfold written_columns in Hn'.
      assert (Hrow : ~ In n row_columns) by (intros H; apply Hn'; apply in_or_app; left; exact H).
      assert (Hch : forall q x, In q choice_prefixes -> In x choices -> n <> q ++ x).
      { intros q x Hq Hx E. apply Hn'. apply in_or_app. right. apply in_flat_map. exists x. split; [exact Hx|].
        apply in_map_iff. exists q. auto. }
      rewrite Leave.
      + apply prepare_other; [intros ->; apply Hrow; cbn; auto | intros ->; apply Hrow; cbn; auto |].
        intros x Hx. split; apply Hch; auto; cbn; auto.
      + intros H. apply Hrow. cbn in H |- *. intuition.
      + intros x Hx HI. apply in_map_iff in HI. destruct HI as [q [E Hq]].
        assert (Hxc : In x choices).
        { apply In_nth_error in Hx. destruct Hx as [j Hx]. apply valid_nth in Hx; [|exact LC].
          destruct Hx as [c [_ Hx]]. eapply nth_error_In; eauto. }
        apply (Hch q x); auto. cbn in Hq |- *. intuition.
  Qed.
  (** The same row in the model of the panel. *)
  Lemma same_outcome : forall si next cx i x o, si_params si = p -> si_beta si = k_beta k ->
    NoDup (si_choices si) -> List.length (si_choices si) = List.length choices -> cx_choice_set cx = cs ->
    simulate_row si next cx (g_wages g) (g_nonpecs g) (g_conts g) i
      (mkRow x (e_key e) (e_index e) (e_shocks e) (e_meas e)) = Ok o ->
    exists r, single_row k cs (g_wages g) (g_nonpecs g) (g_conts g) (prepare choices e) = Ok r /\
      cell_of r "choice" = Code (o_choice o) /\
      cell_of r "wage" = match o_wage o with Some w => Num w | None => Missing end /\
      forall j c y, nth_error (positions cs) j = Some c -> nth_error choices c = Some y ->
        cell_of r ("value_function_" ++ y) = Num (nth j (o_values o) 0%R).
  Proof.
    intros si next cx i x o Ep Eb NS LSi Ecx E.
    destruct C as [LC _ LS LM [w [np [ct [Hw [Hn [Hc _]]]]]] _].
    fold cs in LC. fold choices in LC, LS, LM.
    unfold simulate_row in E. rewrite Ecx, Ep, Eb in E. cbn [r_index r_shocks r_meas r_ind r_key] in E. rewrite Hw, Hn, Hc in E.
    rewrite record_choice_eq in E by congruence.
    unfold single_row. rewrite prepare_index. rewrite Hw, Hn, Hc.
    assert (Hlen : List.length (select_valid_choices choices cs) = List.length (positions cs))
      by (rewrite valid_eq by exact LC; apply map_length).
    fold choices. rewrite (read_all _ "shock_reward_" _ (fun c => nth c (e_shocks e) 0%R) (positions cs) Hlen).
    2: { intros j y c Hx Hp. apply valid_nth in Hx; [|exact LC]. destruct Hx as [c' [Hp' Hx]].
         assert (c' = c) as -> by congruence. apply prepare_shock; assumption. }
    cbn [result_bind].
    rewrite (read_all _ "meas_error_wage_" _ (fun c => nth c (e_meas e) 0%R) (positions cs) Hlen).
    2: { intros j y c Hx Hp. apply valid_nth in Hx; [|exact LC]. destruct Hx as [c' [Hp' Hx]].
         assert (c' = c) as -> by congruence. apply prepare_meas; assumption. }
    cbn [result_bind]. fold p.
    rewrite <- (compress_positions _ cs (e_shocks e) 0%R) by congruence.
    rewrite <- (compress_positions _ cs (e_meas e) 0%R) by congruence.
    rewrite name_positions_eq by assumption.
    destruct (argmax _) as [jm|]; [|discriminate]. cbn [option_map] in E. injection E as <-.
    eexists. split; [reflexivity|]. cbn [o_choice o_wage o_values].
    match goal with |- context [store ?v ?a ?b ?d ?be ?n1 ?n2 ?n3 ?n4 ?n5 ?n6 ?r0] =>
      destruct (store_row_columns v a b d be n1 n2 n3 n4 n5 n6 r0) as [R1 [R2 _]];
      assert (Cols := store_choice_columns v a b d be n1 n2 n3 n4 n5 n6 r0 (NoDup_valid choices cs N)) end.
    split; [exact R1|]. split; [exact R2|].
    intros j c y Hj Hy. destruct (Cols j y) as [_ [_ [C3 _]]]; [apply valid_nth; [exact LC|]; eauto|]. exact C3.
  Qed.
End Row.

(** ** Names of the columns *)
Lemma keys_put : forall n m v r, In n (dict_keys (put m v r)) -> n = m \/ In n (dict_keys r).
Proof.
  intros n m v r H. unfold put in H. rewrite dict_keys_set in H.
  destruct (in_dec string_dec m (dict_keys r)); [right; exact H|].
  apply in_app_or in H. destruct H as [H|[H|[]]]; auto.
Qed.
Lemma keys_fold : forall (f : row -> nat * string -> row) (S : string -> Prop) names r n,
  (forall r p n, In (snd p) names -> In n (dict_keys (f r p)) -> S n \/ In n (dict_keys r)) ->
  In n (dict_keys (fold_left f (enumerate names) r)) -> S n \/ In n (dict_keys r).
Proof.
  intros f S names r n H. 
  assert (G : forall l r, (forall p, In p l -> In (snd p) names) ->
    In n (dict_keys (fold_left f l r)) -> S n \/ In n (dict_keys r)).
  { induction l as [|p l IH]; intros r' Hl Hn; [right; exact Hn|]. cbn [fold_left] in Hn.
    apply IH in Hn; [|intros; apply Hl; right; assumption]. destruct Hn as [Hn|Hn]; [auto|].
    apply H in Hn; [exact Hn | apply Hl; left; reflexivity]. }
  apply G. intros [i x] Hp. apply In_enumerate in Hp. eapply nth_error_In; exact Hp.
Qed.

Lemma In_written_choice : forall choices q x, In q choice_prefixes -> In x choices ->
  In (q ++ x) (written_columns choices).
Proof.
  intros. unfold written_columns. apply in_or_app. right. apply in_flat_map. exists x. split; [assumption|].
  apply in_map_iff. exists q. auto.
Qed.
Lemma In_written_row : forall choices n, In n row_columns -> In n (written_columns choices).
Proof. intros. unfold written_columns. apply in_or_app. left. assumption. Qed.

Lemma keys_prepare : forall choices e n, In n (dict_keys (prepare choices e)) ->
  In n (written_columns choices) \/ In n (dict_keys (e_state e)).
Proof.
  intros choices e n H. unfold prepare in H.
  apply keys_put in H. destruct H as [->|H]; [left; apply In_written_row; cbn; auto|].
  apply keys_put in H. destruct H as [->|H]; [left; apply In_written_row; cbn; auto|].
  apply (keys_fold _ (fun n => In n (written_columns choices)) choices) in H; [exact H|].
  intros r [i x] n' Hx Hn. cbn [fst snd] in *.
  do 2 (apply keys_put in Hn; destruct Hn as [->|Hn]; [left; apply In_written_choice; [cbn; auto|exact Hx]|]).
  right. exact Hn.
Qed.

Lemma keys_single : forall k cs w n c r r' m, List.length cs = List.length (k_choices k) ->
  single_row k cs w n c r = Ok r' -> In m (dict_keys r') ->
  In m (written_columns (k_choices k)) \/ In m (dict_keys r).
Proof.
  intros k cs w n c r r' m LC E H. unfold single_row in E.
  destruct (cell_of r "core_index"); try discriminate.
  destruct (nth_error w n0); [|discriminate]. destruct (nth_error n n0); [|discriminate].
  destruct (nth_error c n0); [|discriminate].
  destruct (result_all (map (fun x => read_number r ("shock_reward_" ++ x)) _)); try discriminate. cbn [result_bind] in E.
  destruct (result_all (map (fun x => read_number r ("meas_error_wage_" ++ x)) _)); try discriminate. cbn [result_bind] in E.
  destruct (argmax _); [|discriminate]. injection E as <-. unfold store in H.
  apply (keys_fold _ (fun m => In m (written_columns (k_choices k)))) in H.
  - destruct H as [H|H]; [left; exact H|].
    do 4 (apply keys_put in H; destruct H as [->|H]; [left; apply In_written_row; cbn; auto 8|]). right. exact H.
  - intros r' [i x] m' Hx Hn. cbn [fst snd] in *.
    assert (Hxc : In x (k_choices k)).
    { apply In_nth_error in Hx. destruct Hx as [j Hx]. apply valid_nth in Hx; [|exact LC].
      destruct Hx as [c' [_ Hx]]. eapply nth_error_In; eauto. }
    do 6 (apply keys_put in Hn; destruct Hn as [->|Hn]; [left; apply In_written_choice; [cbn; auto 9|exact Hxc]|]).
    right. exact Hn.
Qed.

(** ** Frames *)
Lemma concat_frames_cells : forall frames i r, In (i, r) (List.concat frames) ->
  exists r', In (i, r') (concat_frames frames) /\ forall n, cell_of r' n = cell_of r n.
Proof.
  intros frames i r H. unfold concat_frames.
  set (columns := drop_duplicates _ _).
  exists (map (fun c => (c, cell_of r c)) columns). split.
  - apply in_map_iff. exists (i, r). auto.
  - intros n. unfold cell_of at 1. destruct (in_dec string_dec n columns) as [I|I].
    + rewrite (dict_get_map _ (cell_of r) columns n I). reflexivity.
    + replace (dict_get string_dec n (map (fun c => (c, cell_of r c)) columns)) with (@None cell).
      * unfold cell_of. destruct (dict_get string_dec n r) as [v|] eqn:E; [|reflexivity].
        exfalso. apply I. apply In_drop_duplicates. apply in_flat_map. exists (i, r). split; [exact H|].
        apply dict_get_Some_In in E. apply (in_map fst) in E. exact E.
      * symmetry. apply dict_get_None. unfold dict_keys. rewrite map_map. cbn. rewrite map_id. exact I.
Qed.
Lemma concat_frames_index : forall frames, map fst (concat_frames frames) = map fst (List.concat frames).
Proof. intros. unfold concat_frames. rewrite map_map. reflexivity. Qed.
Lemma concat_frames_keys : forall frames i r n, In (i, r) (concat_frames frames) -> In n (dict_keys r) ->
  exists i' r', In (i', r') (List.concat frames) /\ In n (dict_keys r').
Proof.
  intros frames i r n H Hn. unfold concat_frames in H. apply in_map_iff in H. destruct H as [[i0 r0] [E H]].
  injection E as <- <-. unfold dict_keys in Hn. rewrite map_map in Hn. cbn in Hn. rewrite map_id in Hn.
  apply In_drop_duplicates in Hn. apply in_flat_map in Hn. destruct Hn as [[i' r'] [H1 H2]]. eauto.
Qed.
Lemma sort_index_In : forall A (l : frame A) x, In x (sort_index l) <-> In x l.
Proof. intros. unfold sort_index. apply In_isort. Qed.
Lemma sort_index_Permutation : forall A (l : frame A), Permutation (sort_index l) l.
Proof. intros. unfold sort_index. apply Permutation_isort. Qed.

Lemma all_Ok : forall A B (f : A -> result B) l, (forall x, In x l -> exists y, f x = Ok y) ->
  exists ys, result_all (map f l) = Ok ys /\ Forall2 (fun x y => f x = Ok y) l ys.
Proof.
  induction l as [|x l IH]; intros H; [exists []; split; [reflexivity|constructor]|].
  destruct (H x) as [y E]; [left; reflexivity|]. destruct IH as [ys [E' F]]; [intros; apply H; right; assumption|].
  exists (y :: ys). cbn [map result_all]. rewrite E, E'. split; [reflexivity|]. constructor; assumption.
Qed.
Lemma Forall2_left : forall A B (P : A -> B -> Prop) l l' x, Forall2 P l l' -> In x l -> exists y, In y l' /\ P x y.
Proof.
  induction 1 as [|a b l l' H F IH]; intros Hx; [destruct Hx|]. destruct Hx as [<-|Hx].
  - exists b. split; [left; reflexivity|exact H].
  - destruct (IH Hx) as [y [H1 H2]]. exists y. split; [right; exact H1|exact H2].
Qed.
Lemma Forall2_right : forall A B (P : A -> B -> Prop) l l' y, Forall2 P l l' -> In y l' -> exists x, In x l /\ P x y.
Proof.
  induction 1 as [|a b l l' H F IH]; intros Hx; [destruct Hx|]. destruct Hx as [<-|Hx].
  - exists a. split; [left; reflexivity|exact H].
  - destruct (IH Hx) as [y' [H1 H2]]. exists y'. split; [right; exact H1|exact H2].
Qed.
Lemma Permutation_concat : forall A B (f : A -> list B) (g : A -> list B) l,
  (forall x, In x l -> Permutation (f x) (g x)) -> Permutation (flat_map f l) (flat_map g l).
Proof.
  induction l as [|x l IH]; intros H; [constructor|]. cbn [flat_map]. apply Permutation_app.
  - apply H. left. reflexivity.
  - apply IH. intros. apply H. right. assumption.
Qed.
Lemma Forall2_index : forall A B C (P : A -> list (C * B) -> Prop) (g : A -> list C) l ys,
  Forall2 P l ys -> (forall x y, In x l -> P x y -> Permutation (map fst y) (g x)) ->
  Permutation (map fst (List.concat ys)) (flat_map g l).
Proof.
  induction 1 as [|x y l ys H F IH]; intros G; [constructor|]. cbn [List.concat flat_map]. rewrite map_app.
  apply Permutation_app; [apply G; [left; reflexivity|exact H]|]. apply IH. intros. apply G; [right; assumption|assumption].
Qed.

Definition row_good (k : constants) (g : group) (e : entrant) (r : row) : Prop :=
  account (k_choices k) (k_params k) (k_beta k) (g_choice_set g) (e_shocks e) (e_meas e) (cell_of r) /\
  (forall n, ~ In n (written_columns (k_choices k)) -> cell_of r n = cell_of (e_state e) n).
Definition group_good (k : constants) (g : group) (rows : frame row) : Prop :=
  map fst rows = map fst (g_rows g) /\
  (forall i e, In (i, e) (g_rows g) -> exists r, In (i, r) rows /\ row_good k g e r) /\
  (forall i r n, In (i, r) rows -> In n (dict_keys r) -> In n (written_columns (k_choices k)) \/
     exists i' e, In (i', e) (g_rows g) /\ In n (map fst (e_state e))).
Definition period_good (k : constants) (groups : list group) (rows : frame row) : Prop :=
  Permutation (map fst rows) (flat_map (fun g => map fst (g_rows g)) groups) /\
  (forall g i e, In g groups -> In (i, e) (g_rows g) -> exists r, In (i, r) rows /\ row_good k g e r) /\
  (forall i r n, In (i, r) rows -> In n (dict_keys r) -> In n (written_columns (k_choices k)) \/
     exists g i' e, In g groups /\ In (i', e) (g_rows g) /\ In n (map fst (e_state e))).

Lemma group_columns : forall k g, NoDup (k_choices k) -> square (List.length (k_choices k)) (p_chol (k_params k)) ->
  (forall i e, In (i, e) (g_rows g) -> complete k g e) ->
  exists rows, simulate_group_columns k g = Ok rows /\ group_good k g rows.
Proof.
  intros k g N SQ H. unfold simulate_group_columns, group_good.
  destruct (all_Ok _ _ (fun e => result_bind (single_row k (g_choice_set g) (g_wages g) (g_nonpecs g) (g_conts g)
                   (prepare (k_choices k) (snd e))) (fun r => Ok (fst e, r))) (g_rows g)) as [rows [E F]].
  { intros [i e] Hin. destruct (row_account k g e N SQ (H i e Hin)) as [r [Er _]]. cbn [snd fst]. rewrite Er. cbn [result_bind]. eexists. reflexivity. }
  exists rows. split; [exact E|]. split; [|split].
  - clear - F. induction F as [|x y l ys Hx F IH]; [reflexivity|]. cbn [map]. rewrite IH. f_equal.
    destruct (single_row _ _ _ _ _ _); try discriminate. cbn in Hx. injection Hx as <-. reflexivity.
  - intros i e Hin. destruct (Forall2_left _ _ _ _ _ _ F Hin) as [[i' r] [H1 H2]].
    destruct (row_account k g e N SQ (H i e Hin)) as [r' [Er [A L]]]. cbn [snd fst] in H2. rewrite Er in H2. cbn in H2.
    injection H2 as <- <-. exists r'. unfold row_good. auto.
  - intros i r n Hin Hn. destruct (Forall2_right _ _ _ _ _ _ F Hin) as [[i' e] [H1 H2]]. cbn [snd fst] in H2.
    destruct (single_row _ _ _ _ _ _) as [r'| | | | |] eqn:Er; try discriminate. cbn in H2. injection H2 as <- <-.
    apply (keys_single _ _ _ _ _ _ _ n (cp_set _ _ _ (H _ _ H1)) Er) in Hn. destruct Hn as [Hn|Hn]; [left; exact Hn|].
    apply keys_prepare in Hn. destruct Hn as [Hn|Hn]; [left; exact Hn|]. right. exists i', e. auto.
Qed.

Lemma account_ext : forall choices p beta cs base meas f f', (forall n, In n (written_columns choices) -> f' n = f n) ->
  account choices p beta cs base meas f -> account choices p beta cs base meas f'.
Proof.
  intros choices p beta cs base meas f f' E [A1 A2 A3 A4]. unfold number in *.
  assert (R : forall n, In n row_columns -> f' n = f n) by (intros; apply E, In_written_row; assumption).
  assert (P : forall q c x, In q choice_prefixes -> nth_error choices c = Some x -> f' (q ++ x) = f (q ++ x)).
  { intros q c x Hq Hx. apply E, In_written_choice; [exact Hq|]. eapply nth_error_In; exact Hx. }
  constructor; unfold number.
  - rewrite !R by (cbn; auto 9). exact A1.
  - intros c x Hx A. destruct (A2 c x Hx A) as [n [u [v [e [s [m H]]]]]]. exists n, u, v, e, s, m.
    rewrite !(fun q Hq => P q c x Hq Hx) by (cbn; auto 9). exact H.
  - intros c x Hx U. destruct (A3 c x Hx U) as [[s [m H]] H']. split.
    + exists s, m. rewrite !(fun q Hq => P q c x Hq Hx) by (cbn; auto 9). exact H.
    + intros q Hq. rewrite (P q c x); [apply H'; exact Hq | | exact Hx]. cbn in Hq |- *. intuition.
  - destruct A4 as [c [x [v [H1 [H2 [H3 [H4 [H5 H6]]]]]]]]. exists c, x, v.
    rewrite !(fun q Hq => P q c x Hq H1) by (cbn; auto 9). rewrite !R by (cbn; auto 9).
    repeat (split; [assumption|]). split; [|exact H6].
    intros c' x' v' Hx' A' Hv'. rewrite (P _ c' x') in Hv' by (cbn; auto 9). eapply H5; eassumption.
Qed.

Section Output.
  Variable k : constants.
  Hypothesis N : NoDup (k_choices k).
  Hypothesis SQ : square (List.length (k_choices k)) (p_chol (k_params k)).

  Lemma period_spec : forall groups,
    (forall g, In g groups -> forall i e, In (i, e) (g_rows g) -> complete k g e) ->
    exists rows, period_columns k groups = Ok rows /\ period_good k groups rows.
  Proof.
    intros groups H. unfold period_columns.
    destruct (all_Ok _ _ (simulate_group_columns k) groups) as [frames [E F]].
    { intros g Hg. destruct (group_columns k g N SQ (H g Hg)) as [rows [Er _]]. eauto. }
    rewrite E. cbn [result_bind]. eexists. split; [reflexivity|]. unfold period_good.
    assert (F' : forall g rows, In g groups -> simulate_group_columns k g = Ok rows -> group_good k g rows).
    { intros g rows Hg Er. destruct (group_columns k g N SQ (H g Hg)) as [rows' [Er' R]].
      assert (rows' = rows) as <- by congruence. exact R. }
    split; [|split].
    - rewrite (sort_index_Permutation _ (concat_frames frames)), concat_frames_index.
      apply (Forall2_index _ _ _ _ (fun g => map fst (g_rows g)) _ _ F).
      intros g rows Hg Er. rewrite (proj1 (F' g rows Hg Er)). reflexivity.
    - intros g i e Hg Hin. destruct (Forall2_left _ _ _ _ _ _ F Hg) as [rows [Hr Er]].
      destruct (F' g rows Hg Er) as [_ [R _]]. destruct (R i e Hin) as [r [Hr' [A L]]].
      destruct (concat_frames_cells frames i r) as [r' [Hr'' EQ]]; [apply in_concat; eauto|].
      exists r'. split; [apply sort_index_In; exact Hr''|]. split; [eapply account_ext; [|eassumption]; intros; apply EQ|].
      intros n Hn. rewrite EQ. apply L. exact Hn.
    - intros i r n Hin Hn. apply (proj1 (sort_index_In _ (concat_frames frames) (i, r))) in Hin.
      destruct (concat_frames_keys _ _ _ _ Hin Hn) as [i' [r' [H1 H2]]].
      apply in_concat in H1. destruct H1 as [rows [Hrows H1]].
      destruct (Forall2_right _ _ _ _ _ _ F Hrows) as [g [Hg Er]].
      destruct (F' g rows Hg Er) as [_ [_ K]]. destruct (K i' r' n H1 H2) as [K'|[i'' [e [K1 K2]]]]; [left; exact K'|].
      right. exists g, i'', e. auto.
  Qed.

  Lemma renamed_cell : forall (columns : list string) (r : row) n,
    (forall a, In a (dict_keys r) -> In a columns) -> In n columns -> kept_apart columns ->
    cell_of (map (fun c => (rename_labels_from_internal (fst c), snd c)) r) (rename_labels_from_internal n) = cell_of r n.
  Proof.
    intros columns r n Hr Hn K. unfold cell_of. induction r as [|[a v] r IH]; [reflexivity|]. cbn [map dict_get fst snd].
    destruct (string_dec n a) as [->|Ne].
    - destruct (string_dec (rename_labels_from_internal a) (rename_labels_from_internal a)); congruence.
    - destruct (string_dec (rename_labels_from_internal n) (rename_labels_from_internal a)) as [E|_].
      + exfalso. apply Ne. apply K; [exact Hn | apply Hr; left; reflexivity | exact E].
      + apply IH. intros b Hb. apply Hr. right. exact Hb.
  Qed.

  Lemma output_spec : forall periods,
    (forall groups g i e, In groups periods -> In g groups -> In (i, e) (g_rows g) -> complete k g e) ->
    kept_apart (all_columns k periods) ->
    exists out, output_columns k periods = Ok out /\
      Permutation (map fst out) (flat_map (flat_map (fun g => map fst (g_rows g))) periods) /\
      forall groups g i e, In groups periods -> In g groups -> In (i, e) (g_rows g) ->
        exists r, In (i, r) out /\
          account (k_choices k) (k_params k) (k_beta k) (g_choice_set g) (e_shocks e) (e_meas e)
            (fun n => cell_of r (rename_labels_from_internal n)) /\
          forall n, In n (map fst (e_state e)) -> cell_of r (rename_labels_from_internal n) = cell_of (e_state e) n.
  Proof.
    intros periods H K. unfold output_columns.
    destruct (all_Ok _ _ (period_columns k) periods) as [data [E F]].
    { intros groups Hg. destruct (period_spec groups) as [rows [Er _]]; [intros; eapply H; eassumption|]. eauto. }
    rewrite E. cbn [result_bind]. eexists. split; [reflexivity|].
    assert (F' : forall groups rows, In groups periods -> period_columns k groups = Ok rows -> period_good k groups rows).
    { intros groups rows Hg Er. destruct (period_spec groups) as [rows' [Er' R]]; [intros; eapply H; eassumption|].
      assert (rows' = rows) as <- by congruence. exact R. }
    assert (Keys : forall i r n, In (i, r) (concat_frames data) -> In n (dict_keys r) -> In n (all_columns k periods)).
    { intros i r n Hin Hn. destruct (concat_frames_keys _ _ _ _ Hin Hn) as [i' [r' [H1 H2]]].
      apply in_concat in H1. destruct H1 as [rows [Hrows H1]].
      destruct (Forall2_right _ _ _ _ _ _ F Hrows) as [groups [Hg Er]].
      destruct (F' groups rows Hg Er) as [_ [_ KK]]. unfold all_columns. apply in_or_app.
      destruct (KK i' r' n H1 H2) as [K'|[g [i'' [e [K1 [K2 K3]]]]]]; [left; exact K'|]. right.
      apply in_flat_map. exists groups. split; [exact Hg|]. apply in_flat_map. exists g. split; [exact K1|].
      apply in_flat_map. exists (i'', e). auto. }
    split.
    - rewrite map_map. cbn [fst].
      rewrite (Permutation_map (fun x : Model_Parallel.index * row => fst x) (sort_index_Permutation _ (concat_frames data))).
      change (map (fun x : Model_Parallel.index * row => fst x) (concat_frames data)) with (map fst (concat_frames data)).
      rewrite concat_frames_index. apply (Forall2_index _ _ _ _ (flat_map (fun g => map fst (g_rows g))) _ _ F).
      intros groups rows Hg Er. exact (proj1 (F' groups rows Hg Er)).
    - intros groups g i e Hg Hgg Hin. destruct (Forall2_left _ _ _ _ _ _ F Hg) as [rows [Hr Er]].
      destruct (F' groups rows Hg Er) as [_ [R _]]. destruct (R g i e Hgg Hin) as [r [Hr' [A L]]].
      destruct (concat_frames_cells data i r) as [r' [Hr'' EQ]]; [apply in_concat; eauto|].
      exists (map (fun c => (rename_labels_from_internal (fst c), snd c)) r'). split.
      { apply in_map_iff. exists (i, r'). split; [reflexivity|]. apply sort_index_In. exact Hr''. }
      assert (RC : forall n, In n (all_columns k periods) ->
        cell_of (map (fun c => (rename_labels_from_internal (fst c), snd c)) r') (rename_labels_from_internal n) = cell_of r n).
      { intros n Hn. rewrite (renamed_cell (all_columns k periods)); [apply EQ| | exact Hn | exact K].
        intros a Ha. eapply Keys; eassumption. }
      split.
      + eapply account_ext; [|exact A]. intros n Hn. cbv beta. apply RC.
        unfold all_columns. apply in_or_app. left. exact Hn.
      + intros n Hn. rewrite RC.
        * apply L. exact (cp_state _ _ _ (H groups g i e Hg Hgg Hin) n Hn).
        * unfold all_columns. apply in_or_app. right. apply in_flat_map. exists groups. split; [exact Hg|].
          apply in_flat_map. exists g. split; [exact Hgg|]. apply in_flat_map. exists (i, e). auto.
  Qed.
End Output.
