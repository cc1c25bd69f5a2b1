(** Proofs about the curvature of the solution. *)
From Coq Require Import List Arith Bool Reals Lra Lia.
From Verif Require Import Base Proof_Base Proof_CoreStateSpace Model_CoreStateSpace Model_StateSpace Model_Solve Spec_Solve Proof_Solve Proof_Value
  Proof_Shocks Spec_StateSpace Proof_StateSpace Proof_SolveProps Spec_Convexity.
Import ListNotations.
Open Scope R_scope.

(** ** Convexity *)
Definition below (l x y z : R) : Prop := z <= l * x + (1 - l) * y.

Inductive Forall3 {A B C} (P : A -> B -> C -> Prop) : list A -> list B -> list C -> Prop :=
| F3_nil : Forall3 P [] [] []
| F3_cons : forall a b c la lb lc, P a b c -> Forall3 P la lb lc -> Forall3 P (a :: la) (b :: lb) (c :: lc).

Lemma max0_convex : forall l, 0 <= l <= 1 -> forall u u' u'', Forall3 (below l) u u' u'' -> below l (max0 u) (max0 u') (max0 u'').
Proof.
  intros l H u u' u'' F. unfold below in *. induction F as [|a b c la lb lc P F IH]; simpl; [nra|].
  apply Rmax_lub.
  - pose proof (Rmax_l a (max0 la)). pose proof (Rmax_l b (max0 lb)). nra.
  - pose proof (Rmax_r a (max0 la)). pose proof (Rmax_r b (max0 lb)). nra.
Qed.

Lemma rsum_convex : forall l u u' u'', Forall3 (below l) u u' u'' -> below l (rsum u) (rsum u') (rsum u'').
Proof. intros l u u' u'' F. unfold below in *. induction F; simpl; [lra|]. lra. Qed.

Lemma F3_length : forall A B C (P : A -> B -> C -> Prop) u u' u'', Forall3 P u u' u'' -> length u' = length u /\ length u'' = length u.
Proof. intros A B C P u u' u'' F. induction F; simpl; [auto|]. destruct IHF. split; congruence. Qed.

Lemma mean_convex : forall l u u' u'', Forall3 (below l) u u' u'' -> below l (mean u) (mean u') (mean u'').
Proof.
  intros l u u' u'' F. destruct (F3_length _ _ _ _ _ _ _ F) as [L1 L2]. pose proof (rsum_convex _ _ _ _ F) as RS.
  unfold below, mean in *. rewrite L1, L2. destruct u as [|x u].
  - destruct u'; [|discriminate]. destruct u''; [|discriminate]. simpl. unfold Rdiv. rewrite !Rmult_0_l. lra.
  - assert (0 < / INR (length (x :: u))) by (apply Rinv_0_lt_compat, INR_length_pos; discriminate).
    unfold Rdiv. set (k := / INR (length (x :: u))) in *. nra.
Qed.

Lemma value_convex : forall S (pb pb' pb'' : problem S) delta l, 0 <= delta -> 0 <= l <= 1 ->
  (forall s, pb_moves pb' s = pb_moves pb s /\ pb_moves pb'' s = pb_moves pb s) ->
  (forall s, Forall3 (Forall3 (below l)) (pb_flows pb s) (pb_flows pb' s) (pb_flows pb'' s)) ->
  forall n s, below l (value pb delta n s) (value pb' delta n s) (value pb'' delta n s).
Proof.
  intros S pb pb' pb'' delta l HD HL HM HF. induction n as [|m IH]; intros s; [unfold below; simpl; lra|].
  rewrite !value_S. apply mean_convex. specialize (HF s).
  induction HF as [|u u' u'' lu lu' lu'' Hu _ IHl]; simpl; constructor; [|exact IHl].
  apply max0_convex; [exact HL|]. unfold alternatives. destruct (HM s) as [M1 M2]. rewrite M1, M2. generalize (pb_moves pb s). clear - Hu IH HD.
  induction Hu as [|x y z u u' u'' P _ IHu]; intros [|s' ms]; simpl; constructor.
  - unfold below in *. specialize (IH s'). nra.
  - apply IHu.
Qed.

(** The exponential function is convex. *)
Lemma exp_below : forall l x y, 0 <= l <= 1 -> below l (exp x) (exp y) (exp (l * x + (1 - l) * y)).
Proof.
  intros l x y HL. unfold below. set (z := l * x + (1 - l) * y).
  assert (T : forall w, exp z * (1 + (w - z)) <= exp w).
  { intros w. replace (exp w) with (exp z * exp (w - z)) by (rewrite <- exp_plus; f_equal; lra).
    apply Rmult_le_compat_l; [left; apply exp_pos|]. destruct (Req_dec (w - z) 0) as [E|E].
    - rewrite E, exp_0. lra.
    - left. apply exp_ineq1. exact E. }
  pose proof (T x) as Tx. pose proof (T y) as Ty. pose proof (exp_pos z).
  assert (exp z = l * (exp z * (1 + (x - z))) + (1 - l) * (exp z * (1 + (y - z)))) by (unfold z; ring).
  nra.
Qed.

Lemma linear_mixed : forall l x b b' b'', mixed_coefficients l b b' b'' ->
  linear_index x b'' = l * linear_index x b + (1 - l) * linear_index x b'.
Proof.
  intros l x b b' b'' [E ->]. unfold linear_index. revert b' E.
  induction b as [|[i v] b IH]; intros [|[j w] b'] E; try discriminate; [simpl; lra|].
  cbn [map fst] in E. injection E as -> E. cbn [combine map fst snd]. cbn [rsum fold_right]. specialize (IH b' E). unfold rsum in IH. rewrite IH. ring.
Qed.

Section Flows.
  Variables (n : nat) (csf : cs_fun) (inp inp' inp'' : inputs) (l : R) (ctx : option (list nat)).
  Hypothesis (W : wf_inputs n csf inp) (SQ : square n (p_chol (in_params inp))) (HL : 0 <= l <= 1) (MM : mixed_models l inp inp' inp'').

  Lemma nonpec_mixed : forall x c, nonpec_of (in_params inp'') x c = l * nonpec_of (in_params inp) x c + (1 - l) * nonpec_of (in_params inp') x c.
  Proof.
    intros x c. destruct MM as (_ & _ & _ & H & _). specialize (H c). unfold nonpec_of, mixed_option in *.
    destruct (p_nonpec (in_params inp) c), (p_nonpec (in_params inp') c), (p_nonpec (in_params inp'') c); try contradiction; [|lra].
    apply linear_mixed. exact H.
  Qed.
  Lemma wage_mixed : forall x c, below l (wage_of (in_params inp) x c) (wage_of (in_params inp') x c) (wage_of (in_params inp'') x c).
  Proof.
    intros x c. destruct MM as (_ & _ & H & _). specialize (H c). unfold wage_of, mixed_option in *.
    destruct (p_wage (in_params inp) c), (p_wage (in_params inp') c), (p_wage (in_params inp'') c); try contradiction; [|unfold below; lra].
    rewrite (linear_mixed _ _ _ _ _ H). apply exp_below. exact HL.
  Qed.
  Lemma wage_fixed : forall x c, (p_nwages (in_params inp) <= c)%nat ->
    wage_of (in_params inp') x c = wage_of (in_params inp) x c /\ wage_of (in_params inp'') x c = wage_of (in_params inp) x c.
  Proof.
    intros x c Hc. destruct MM as (_ & _ & H & _ & N). specialize (H c). specialize (N c Hc). unfold wage_of, mixed_option in *. rewrite N in *.
    destruct (p_wage (in_params inp') c), (p_wage (in_params inp'') c); try contradiction. auto.
  Qed.

  Lemma mixed_flows : (forall s, pb_moves (model_problem csf inp' ctx) s = pb_moves (model_problem csf inp ctx) s /\
      pb_moves (model_problem csf inp'' ctx) s = pb_moves (model_problem csf inp ctx) s) /\
    (forall s, Forall3 (Forall3 (below l)) (pb_flows (model_problem csf inp ctx) s)
                 (pb_flows (model_problem csf inp' ctx) s) (pb_flows (model_problem csf inp'' ctx) s)).
  Proof.
    split; [split; reflexivity|]. intros s. cbn [model_problem pb_flows].
    destruct W as [W1 [W2 W3]]. destruct MM as ((A1 & A2 & A3 & A4 & A5 & A6) & (B1 & B2 & B3 & B4 & B5 & B6) & _).
    assert (T1 : transform_draws (in_base inp' (count_true (csf ctx s)) (cs_period s)) (csf ctx s) (in_params inp')
            = transform_draws (in_base inp (count_true (csf ctx s)) (cs_period s)) (csf ctx s) (in_params inp)).
    { unfold transform_draws. rewrite A2, A4, A5. reflexivity. }
    assert (T2 : transform_draws (in_base inp'' (count_true (csf ctx s)) (cs_period s)) (csf ctx s) (in_params inp'')
            = transform_draws (in_base inp (count_true (csf ctx s)) (cs_period s)) (csf ctx s) (in_params inp)).
    { unfold transform_draws. rewrite B2, B4, B5. reflexivity. }
    rewrite T1, T2, A3, B3. set (draws := in_base inp (count_true (csf ctx s)) (cs_period s)). clear T1 T2.
    assert (P : forall e j c x, In e (transform_draws draws (csf ctx s) (in_params inp)) ->
       nth_error (positions (csf ctx s)) j = Some c -> nth_error e j = Some x -> (c < p_nwages (in_params inp))%nat -> 0 < x).
    { intros e j c x He Hj Hx Hc. apply In_nth_error in He. destruct He as [i Hi].
      assert (Hd : exists d, nth_error draws i = Some d).
      { unfold transform_draws in Hi. rewrite nth_error_map in Hi. destruct (nth_error draws i); [eauto|discriminate]. }
      destruct Hd as [d Hd].
      destruct (transform_draw_spec n (in_params inp) (csf ctx s) draws i d j c SQ (W2 ctx s) Hd Hj) as [e' [He' [_ Hj']]].
      rewrite Hi in He'. injection He' as <-. rewrite Hx in Hj'. injection Hj' as ->.
      destruct (Nat.ltb_spec c (p_nwages (in_params inp))); [apply exp_pos|lia]. }
    induction (transform_draws draws (csf ctx s) (in_params inp)) as [|e le IH]; simpl; constructor.
    - assert (Q : forall j c x, nth_error (positions (csf ctx s)) j = Some c -> nth_error e j = Some x ->
         (c < p_nwages (in_params inp))%nat -> 0 < x) by (intros; eapply (P e); eauto; left; reflexivity).
      clear P IH. revert e Q. induction (positions (csf ctx s)) as [|c ps IHp]; intros [|x e] Q; simpl; constructor.
      + unfold below. rewrite nonpec_mixed. destruct (Nat.lt_ge_cases c (p_nwages (in_params inp))) as [Hc|Hc].
        * assert (0 < x) by (apply (Q 0%nat c x); auto). pose proof (wage_mixed (in_cov inp ctx s) c) as WM. unfold below in WM. nra.
        * destruct (wage_fixed (in_cov inp ctx s) c Hc) as [-> ->]. lra.
      + apply IHp. intros j c' x' H1 H2. apply (Q (S j) c' x'); assumption.
    - apply IH. intros. eapply P; eauto. right; assumption.
  Qed.
End Flows.

Lemma stored_convex : forall sp neg k grid ss inp inp' inp'' ev0 ev0' ev0'' ev ev' ev'' s d ctx v v' v'' l,
  standard_model sp neg k grid ss inp -> standard_model sp neg k grid ss inp' -> standard_model sp neg k grid ss inp'' ->
  0 <= l <= 1 -> mixed_models l inp inp' inp'' -> 0 <= p_delta (in_params inp) ->
  ev_shape ss ev0 -> ev_shape ss ev0' -> ev_shape ss ev0'' ->
  solve_with_backward_induction ss inp ev0 = Ok ev ->
  solve_with_backward_induction ss inp' ev0' = Ok ev' ->
  solve_with_backward_induction ss inp'' ev0'' = Ok ev'' ->
  In s (create_core_state_space sp) -> dense_combination grid d ctx ->
  value_at ss ev s d v -> value_at ss ev' s d v' -> value_at ss ev'' s d v'' ->
  v'' <= l * v + (1 - l) * v'.
Proof.
  intros sp neg k grid ss inp inp' inp'' ev0 ev0' ev0'' ev ev' ev'' s d ctx v v' v'' l SM SM' SM'' HL MM D SH SH' SH'' E E' E'' Hs Dc Hv Hv' Hv''.
  assert (D1 : p_delta (in_params inp') = p_delta (in_params inp)) by apply MM.
  assert (D2 : p_delta (in_params inp'') = p_delta (in_params inp)) by apply MM.
  destruct (Req_EM_T (p_delta (in_params inp)) 0) as [Z|N].
  - rewrite (myopic_value _ _ _ _ _ _ _ _ _ _ _ SM Z SH E Hv).
    rewrite (myopic_value _ _ _ _ _ _ _ _ _ _ _ SM' ltac:(congruence) SH' E' Hv').
    rewrite (myopic_value _ _ _ _ _ _ _ _ _ _ _ SM'' ltac:(congruence) SH'' E'' Hv''). lra.
  - rewrite (solved_value _ _ _ _ _ _ _ _ _ _ _ _ SM N SH E Hs Dc Hv).
    rewrite (solved_value _ _ _ _ _ _ _ _ _ _ _ _ SM' ltac:(congruence) SH' E' Hs Dc Hv').
    rewrite (solved_value _ _ _ _ _ _ _ _ _ _ _ _ SM'' ltac:(congruence) SH'' E'' Hs Dc Hv'').
    rewrite D1, D2.
    destruct (mixed_flows _ _ inp inp' inp'' l ctx (standard_wf_inputs _ _ _ _ _ _ SM) (sm_chol _ _ _ _ _ _ SM) HL MM) as [H1 H2].
    exact (value_convex _ _ _ _ _ _ D HL H1 H2 _ _).
Qed.

(** ** Shocks *)
Lemma mean_plus_const : forall A (f : A -> R) c l, l <> [] -> mean (map (fun a => f a + c) l) = mean (map f l) + c.
Proof.
  intros A f c l N. unfold mean. rewrite !map_length. pose proof (INR_length_pos _ l N).
  assert (R : rsum (map (fun a => f a + c) l) = rsum (map f l) + INR (length l) * c).
  { clear. induction l as [|a l IH]; [simpl; lra|]. change (length (a :: l)) with (S (length l)). rewrite S_INR. simpl rsum. rewrite IH. lra. }
  rewrite R. field. lra.
Qed.

Lemma nth_error_combine_some : forall A B (l : list A) (m : list B) j a b,
  nth_error (combine l m) j = Some (a, b) <-> nth_error l j = Some a /\ nth_error m j = Some b.
Proof.
  induction l as [|x l IH]; intros [|y m] [|j] a b; cbn; try (split; [discriminate|intros [? ?]; discriminate]).
  - split; [intros E; injection E as <- <-; auto|intros [E1 E2]; injection E1 as <-; injection E2 as <-; reflexivity].
  - apply IH.
Qed.

Lemma value_average : forall S (pb : problem S) delta, 0 <= delta ->
  (forall s, pb_flows pb s <> [] /\ forall u, In u (pb_flows pb s) -> length u = length (pb_moves pb s)) ->
  forall n s, value (average_problem pb) delta n s <= value pb delta n s.
Proof.
  intros S pb delta HD HF. induction n as [|m IH]; intros s; [simpl; lra|]. rewrite !value_S.
  destruct (HF s) as [NE LU]. cbn [average_problem pb_flows map]. unfold mean at 1. cbn [rsum fold_right length].
  match goal with |- (?a + 0) / INR 1 <= _ => replace ((a + 0) / INR 1) with a by (simpl; field) end.
  apply max0_lub.
  - apply mean_nonneg. intros x Hx. apply in_map_iff in Hx. destruct Hx as [u [<- _]]. apply max0_nonneg.
  - intros x Hx. unfold alternatives at 1 in Hx. cbn [average_problem pb_moves] in Hx.
    apply In_nth_error in Hx. destruct Hx as [j Hj]. rewrite nth_error_map in Hj.
    destruct (nth_error (combine _ (pb_moves pb s)) j) as [[a s']|] eqn:C; [|discriminate]. cbn in Hj. injection Hj as <-.
    assert (CC : nth_error (map (fun j => mean (map (fun u => nth j u 0) (pb_flows pb s))) (seq 0 (length (pb_moves pb s)))) j = Some a
                 /\ nth_error (pb_moves pb s) j = Some s').
    { apply nth_error_combine_some. exact C. }
    destruct CC as [C1 C2]. rewrite nth_error_map in C1.
    assert (J : (j < length (pb_moves pb s))%nat) by (eapply nth_error_lt; exact C2).
    destruct (nth_error (seq 0 (length (pb_moves pb s))) j) as [j'|] eqn:Sq; [|discriminate].
    assert (j' = j). { apply nth_error_nth with (d := 0%nat) in Sq. rewrite seq_nth in Sq by exact J. lia. } subst j'.
    cbn in C1. injection C1 as <-.
    apply Rle_trans with (mean (map (fun u => nth j u 0 + delta * value pb delta m s') (pb_flows pb s))).
    + rewrite mean_plus_const by exact NE. specialize (IH s'). nra.
    + apply mean_le, list_le_map. intros u Hu. apply max0_ub. unfold alternatives.
      specialize (LU u Hu). assert (Ju : (j < length u)%nat) by lia.
      apply in_map_iff. exists (nth j u 0, s'). split; [reflexivity|].
      assert (G : nth_error (combine u (pb_moves pb s)) j = Some (nth j u 0, s')).
      { apply nth_error_combine_some. split; [apply nth_error_nth'; exact Ju|exact C2]. }
      eapply nth_error_In. exact G.
Qed.

Lemma model_flows_complete : forall n csf inp ctx, wf_inputs n csf inp -> square n (p_chol (in_params inp)) ->
  (forall m t, in_base inp m t <> []) ->
  forall s, pb_flows (model_problem csf inp ctx) s <> [] /\
    forall u, In u (pb_flows (model_problem csf inp ctx) s) -> length u = length (pb_moves (model_problem csf inp ctx) s).
Proof.
  intros n csf inp ctx [W1 [W2 W3]] SQ ND s. cbn [model_problem pb_flows pb_moves]. split.
  - unfold transform_draws. specialize (ND (count_true (csf ctx s)) (cs_period s)).
    destruct (in_base inp (count_true (csf ctx s)) (cs_period s)); [congruence|]. discriminate.
  - intros u Hu. apply in_map_iff in Hu. destruct Hu as [e [<- He]]. rewrite !map_length, combine_length.
    destruct (positions (csf ctx s)) as [|c ps] eqn:P; [reflexivity|].
    apply In_nth_error in He. destruct He as [i Hi].
    set (draws := in_base inp (count_true (csf ctx s)) (cs_period s)) in *.
    assert (Hd : exists d, nth_error draws i = Some d).
    { unfold transform_draws in Hi. rewrite nth_error_map in Hi. destruct (nth_error draws i); [eauto|discriminate]. }
    destruct Hd as [d Hd].
    destruct (transform_draw_spec n (in_params inp) (csf ctx s) draws i d 0 c SQ (W2 ctx s) Hd) as [e' [He' [Le _]]]; [rewrite P; reflexivity|].
    rewrite Hi in He'. injection He' as <-. rewrite Le, <- length_positions, P. apply Nat.min_id.
Qed.

Lemma stored_average : forall sp neg k grid ss inp ev0 ev s d ctx v,
  standard_model sp neg k grid ss inp -> 0 < p_delta (in_params inp) -> (forall m t, in_base inp m t <> []) -> ev_shape ss ev0 ->
  solve_with_backward_induction ss inp ev0 = Ok ev ->
  In s (create_core_state_space sp) -> dense_combination grid d ctx -> value_at ss ev s d v ->
  value (average_problem (problem_of sp neg k inp ctx)) (p_delta (in_params inp)) (sp_nperiods sp - cs_period s) s <= v.
Proof.
  intros sp neg k grid ss inp ev0 ev s d ctx v SM D ND SH E Hs Dc Hv.
  rewrite (solved_value _ _ _ _ _ _ _ _ _ _ _ _ SM ltac:(lra) SH E Hs Dc Hv).
  apply value_average; [lra|].
  exact (model_flows_complete _ _ inp ctx (standard_wf_inputs _ _ _ _ _ _ SM) (sm_chol _ _ _ _ _ _ SM) ND).
Qed.
