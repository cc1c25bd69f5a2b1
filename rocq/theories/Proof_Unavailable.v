(** Proofs about choices that are never available. *)
From Coq Require Import List Arith Bool Reals Lra Lia.
From Verif Require Import Base Proof_Base Model_CoreStateSpace Spec_CoreStateSpace Proof_CoreStateSpace
  Model_StateSpace Spec_StateSpace Proof_StateSpace Model_Solve Spec_Solve Proof_Solve Proof_Value Proof_SolveProps Spec_Unavailable.
Import ListNotations.
Local Open Scope nat_scope.

Definition pos_from (n : nat) (m : list bool) : list nat := map fst (filter (fun p => snd p) (enumerate_from n m)).

Lemma pos_from_S : forall m n, pos_from (S n) m = map S (pos_from n m).
Proof.
  induction m as [|b m IH]; intros n; [reflexivity|]. unfold pos_from in *. cbn [enumerate_from filter snd].
  destruct b; cbn [map fst]; rewrite IH; reflexivity.
Qed.
Lemma pos_from_ge : forall m n c, In c (pos_from n m) -> n <= c.
Proof.
  induction m as [|b m IH]; intros n c H; [destruct H|]. unfold pos_from in *. cbn [enumerate_from filter snd] in H.
  destruct b; cbn [map fst] in H; [destruct H as [<-|H]; [lia|]|]; apply IH in H; lia.
Qed.
Lemma new_code_before : forall j c, c < j -> new_code j c = c.
Proof. intros j c H. unfold new_code. apply Nat.ltb_lt in H. rewrite H. reflexivity. Qed.
Lemma new_code_after : forall j c, j <= c -> new_code j c = S c.
Proof. intros j c H. unfold new_code. destruct (Nat.ltb_spec c j); [lia|reflexivity]. Qed.
Lemma new_code_eqb : forall j c i, i < j -> Nat.eqb (new_code j c) i = Nat.eqb c i.
Proof.
  intros j c i H. unfold new_code. destruct (Nat.ltb_spec c j); [reflexivity|].
  destruct (Nat.eqb_spec (S c) i), (Nat.eqb_spec c i); try reflexivity; lia.
Qed.
Lemma new_code_eqb_after : forall j c i, j <= i -> Nat.eqb (new_code j c) (S i) = Nat.eqb c i.
Proof.
  intros j c i H. unfold new_code. destruct (Nat.ltb_spec c j);
  [destruct (Nat.eqb_spec c (S i)), (Nat.eqb_spec c i)|destruct (Nat.eqb_spec (S c) (S i)), (Nat.eqb_spec c i)]; try reflexivity; lia.
Qed.
Lemma new_code_eqb_new : forall j c, Nat.eqb (new_code j c) j = false.
Proof. intros j c. unfold new_code. destruct (Nat.ltb_spec c j); apply Nat.eqb_neq; lia. Qed.

Lemma pos_insert : forall j m n, j <= length m -> pos_from n (insert_at j false m) = map (new_code (n + j)) (pos_from n m).
Proof.
  induction j as [|j IH]; intros m n H.
  - replace (insert_at 0 false m) with (false :: m) by (destruct m; reflexivity).
    change (pos_from n (false :: m)) with (pos_from (S n) m). rewrite pos_from_S, Nat.add_0_r. apply map_ext_in.
    intros c Hc. symmetry. apply new_code_after. exact (pos_from_ge _ _ _ Hc).
  - destruct m as [|b m]; [cbn in H; lia|]. cbn [insert_at]. cbn in H.
    assert (E := IH m (S n) ltac:(lia)). unfold pos_from in E |- *. cbn [enumerate_from filter snd].
    replace (n + S j) with (S n + j) by lia.
    destruct b; cbn [map fst]; rewrite E; [f_equal; symmetry; apply new_code_before; lia|reflexivity].
Qed.
Lemma positions_insert : forall j m, j <= length m -> positions (insert_at j false m) = map (new_code j) (positions m).
Proof. intros j m H. exact (pos_insert j m 0 H). Qed.

Lemma count_insert : forall j m, count_true (insert_at j false m) = count_true m.
Proof.
  induction j as [|j IH]; intros [|b m]; try reflexivity. cbn [insert_at count_true]. rewrite IH. reflexivity.
Qed.
Lemma count_firstn_insert : forall j m w, j <= w -> count_true (firstn (S w) (insert_at j false m)) = count_true (firstn w m).
Proof.
  induction j as [|j IH]; intros m w H.
  - destruct m; reflexivity.
  - destruct w as [|w]; [lia|]. destruct m as [|b m]; [reflexivity|]. cbn [insert_at firstn count_true].
    f_equal. apply IH. lia.
Qed.
Lemma count_firstn_before : forall j m w, w <= j -> count_true (firstn w (insert_at j false m)) = count_true (firstn w m).
Proof.
  induction j as [|j IH]; intros m w H.
  - assert (w = 0) by lia. subst. reflexivity.
  - destruct m as [|b m].
    + cbn [insert_at]. destruct w; [reflexivity|]. cbn [firstn]. rewrite firstn_nil. reflexivity.
    + destruct w; [reflexivity|]. cbn [insert_at firstn count_true]. f_equal. apply IH. lia.
Qed.

Lemma compress_nil : forall A (m : list bool), compress m (@nil A) = [].
Proof. intros A [|b m]; reflexivity. Qed.
Lemma compress_insert : forall A j m (l : list A), j <= length m -> compress (insert_at j false m) l = compress m (remove_at j l).
Proof.
  intros A. induction j as [|j IH]; intros m l H.
  - replace (insert_at 0 false m) with (false :: m) by (destruct m; reflexivity). destruct l as [|x l]; cbn [compress remove_at]; [|reflexivity].
    symmetry. apply compress_nil.
  - destruct m as [|b m]; [cbn in H; lia|]. cbn in H. destruct l as [|x l]; [rewrite compress_nil; reflexivity|].
    cbn [insert_at remove_at compress]. rewrite (IH m l) by lia. reflexivity.
Qed.
Lemma compress_map_un : forall A B (f : A -> B) m l, compress m (map f l) = map f (compress m l).
Proof.
  intros A B f. induction m as [|b m IH]; intros [|x l]; try reflexivity. cbn [map compress]. rewrite IH. destruct b; reflexivity.
Qed.
Lemma subset_insert : forall j m chol, j <= length m ->
  subset_cholesky chol (insert_at j false m) = subset_cholesky (map (remove_at j) (remove_at j chol)) m.
Proof.
  intros j m chol H. unfold subset_cholesky. rewrite (compress_insert _ j m chol H), compress_map_un, map_map. apply map_ext.
  intros row. apply compress_insert. exact H.
Qed.

(** ** Law of motion *)
Definition bump_from (n c : nat) (e : list nat) : list nat :=
  map (fun p => snd p + (if Nat.eqb c (fst p) then 1 else 0)) (enumerate_from n e).
Lemma bump_after : forall l n m c, m <= n -> bump_from (S n) (new_code m c) l = bump_from n c l.
Proof.
  induction l as [|x l IH]; intros n m c H; [reflexivity|]. unfold bump_from in *. cbn [enumerate_from map fst snd].
  rewrite (IH (S n) m c) by lia. rewrite (new_code_eqb_after m c n H). reflexivity.
Qed.
Lemma bump_insert : forall j l n x c, j <= length l ->
  bump_from n (new_code (n + j) c) (insert_at j x l) = insert_at j x (bump_from n c l).
Proof.
  induction j as [|j IH]; intros l n x c H.
  - replace (insert_at 0 x l) with (x :: l) by (destruct l; reflexivity).
    replace (insert_at 0 x (bump_from n c l)) with (x :: bump_from n c l) by (destruct (bump_from n c l); reflexivity).
    rewrite Nat.add_0_r. transitivity (x + (if Nat.eqb (new_code n c) n then 1 else 0) :: bump_from (S n) (new_code n c) l); [reflexivity|].
    rewrite new_code_eqb_new, bump_after by lia. rewrite Nat.add_0_r. reflexivity.
  - destruct l as [|y l]; [cbn in H; lia|]. cbn in H. cbn [insert_at].
    assert (E := IH l (S n) x c ltac:(lia)). unfold bump_from in E |- *. cbn [enumerate_from map fst snd insert_at].
    replace (n + S j) with (S n + j) by lia. rewrite E, new_code_eqb by lia. reflexivity.
Qed.
Lemma bump_without : forall l n m c, n + length l <= m -> bump_from n (new_code m c) l = bump_from n c l.
Proof.
  induction l as [|x l IH]; intros n m c H; [reflexivity|]. cbn in H. unfold bump_from in *. cbn [enumerate_from map fst snd].
  rewrite (IH (S n) m c) by lia. rewrite new_code_eqb by lia. reflexivity.
Qed.
Lemma removelast_map : forall A B (f : A -> B) l, removelast (map f l) = map f (removelast l).
Proof.
  intros A B f. induction l as [|x l IH]; [reflexivity|]. destruct l as [|y l]; [reflexivity|].
  change (removelast (map f (x :: y :: l))) with (f x :: removelast (map f (y :: l))). rewrite IH. reflexivity.
Qed.
Lemma widen_move : forall j e c s, match e with Some _ => j <= length (cs_exp s) | None => length (cs_exp s) <= j end ->
  law_of_motion (new_code j c) (widen j e s) = widen j e (law_of_motion c s).
Proof.
  intros j e c s H. unfold law_of_motion, widen. cbn [cs_period cs_exp cs_lag]. f_equal.
  - destruct e as [x|]; [exact (bump_insert j (cs_exp s) 0 x c H)|exact (bump_without (cs_exp s) 0 j c H)].
  - destruct (cs_lag s) as [|l ls]; [reflexivity|]. unfold shift_lags. cbn [map]. f_equal. exact (removelast_map _ _ _ (l :: ls)).
Qed.

(** ** Values *)
Lemma core_exp_length : forall sp s, wf_spec sp -> sp_nlags sp <= 1 -> In s (create_core_state_space sp) ->
  length (cs_exp s) = length (sp_starts sp).
Proof.
  intros sp s W L H. apply (core_exact sp s W L) in H. destruct H as [_ [_ [init [gain [F [Lg [_ [E _]]]]]]]].
  rewrite E. unfold vec_add. rewrite map_length, combine_length, Lg. assert (length init = length (sp_starts sp)) by (clear - F; induction F; cbn; congruence). lia.
Qed.

Lemma combine_map_l : forall A A' B (f : A -> A') (l : list A) (m : list B), combine (map f l) m = map (fun p => (f (fst p), snd p)) (combine l m).
Proof. intros A A' B f. induction l as [|x l IH]; intros [|y m]; try reflexivity. cbn. rewrite IH. reflexivity. Qed.

Theorem never_available : forall sp neg k grid ss inp sp' neg' k' grid' ss' inp' ev0 ev0' ev ev' j e s d d' ctx ctx' v v',
  standard_model sp neg k grid ss inp -> standard_model sp' neg' k' grid' ss' inp' ->
  sp_nperiods sp = sp_nperiods sp' -> j <= sp_nchoices sp ->
  one_more_choice (create_core_state_space sp) (length (sp_starts sp)) j e (choice_set_of sp (process sp (S k) neg)) inp ctx
    (choice_set_of sp' (process sp' (S k') neg')) inp' ctx' ->
  ev_shape ss ev0 -> ev_shape ss' ev0' ->
  solve_with_backward_induction ss inp ev0 = Ok ev -> solve_with_backward_induction ss' inp' ev0' = Ok ev' ->
  In s (create_core_state_space sp) -> In (widen j e s) (create_core_state_space sp') ->
  dense_combination grid d ctx -> dense_combination grid' d' ctx' ->
  value_at ss ev s d v -> value_at ss' ev' (widen j e s) d' v' -> v = v'.
Proof.
  intros sp neg k grid ss inp sp' neg' k' grid' ss' inp' ev0 ev0' ev ev' j e s d d' ctx ctx' v v'
    SM SM' NP J OM SH SH' E E' Hs Hs' Dc Dc' Hv Hv'.
  destruct (Req_EM_T (p_delta (in_params inp)) 0) as [Z|N].
  - rewrite (myopic_value _ _ _ _ _ _ _ _ _ _ _ SM Z SH E Hv). rewrite (om_delta _ _ _ _ _ _ _ _ _ _ OM) in Z.
    rewrite (myopic_value _ _ _ _ _ _ _ _ _ _ _ SM' Z SH' E' Hv'). reflexivity.
  - rewrite (solved_value _ _ _ _ _ _ _ _ _ _ _ _ SM N SH E Hs Dc Hv). assert (N' := N). rewrite (om_delta _ _ _ _ _ _ _ _ _ _ OM) in N'.
    rewrite (solved_value _ _ _ _ _ _ _ _ _ _ _ _ SM' N' SH' E' Hs' Dc' Hv'). rewrite <- (om_delta _ _ _ _ _ _ _ _ _ _ OM), <- NP.
    change (cs_period (widen j e s)) with (cs_period s).
    set (delta := p_delta (in_params inp)) in *. unfold problem_of.
    assert (LC : forall s0, length (choice_set_of sp (process sp (S k) neg) ctx s0) = sp_nchoices sp).
    { intros s0. apply (standard_wf_inputs _ _ _ _ _ _ SM). }
    set (csf := choice_set_of sp (process sp (S k) neg)) in *. set (csf' := choice_set_of sp' (process sp' (S k') neg')) in *.
    assert (Hp : cs_period s < sp_nperiods sp).
    { apply (core_periods sp); [apply (sm_wf _ _ _ _ _ _ SM)|apply (sm_lags _ _ _ _ _ _ SM)|exact Hs]. }
    assert (G : forall m s0, In s0 (create_core_state_space sp) -> cs_period s0 + m = sp_nperiods sp ->
      value (model_problem csf inp ctx) delta m s0 = value (model_problem csf' inp' ctx') delta m (widen j e s0)).
    { induction m as [|m IH]; intros s0 H0 Hm; [reflexivity|].
      cbn [value pb_flows pb_moves model_problem]. rewrite (om_choices _ _ _ _ _ _ _ _ _ _ OM s0 H0).
      assert (Jl : j <= length (csf ctx s0)) by (rewrite LC; exact J).
      rewrite (positions_insert j _ Jl), count_insert, <- (om_draws _ _ _ _ _ _ _ _ _ _ OM).
      change (cs_period (widen j e s0)) with (cs_period s0).
      replace (transform_draws (in_base inp (count_true (csf ctx s0)) (cs_period s0)) (insert_at j false (csf ctx s0)) (in_params inp'))
        with (transform_draws (in_base inp (count_true (csf ctx s0)) (cs_period s0)) (csf ctx s0) (in_params inp)).
      2: { unfold transform_draws. rewrite (subset_insert j _ _ Jl), <- (om_chol _ _ _ _ _ _ _ _ _ _ OM).
        replace (count_true (firstn (p_nwages (in_params inp')) (insert_at j false (csf ctx s0))))
          with (count_true (firstn (p_nwages (in_params inp)) (csf ctx s0))); [reflexivity|].
        pose proof (om_nwages _ _ _ _ _ _ _ _ _ _ OM) as W. destruct (Nat.ltb_spec j (p_nwages (in_params inp'))) as [L|L].
        - rewrite W. symmetry. apply count_firstn_insert. lia.
        - rewrite <- W. symmetry. apply count_firstn_before. lia. }
      f_equal. rewrite !map_map. apply map_ext. intros x.
      f_equal. rewrite combine_map_l, !map_map.
      assert (Av : forall c, In c (positions (csf ctx s0)) -> nth_error (csf ctx s0) c = Some true) by (intros c Hc; apply In_positions; exact Hc).
      assert (Next : forall c, In c (positions (csf ctx s0)) ->
        value (model_problem csf inp ctx) delta m (law_of_motion c s0) =
        value (model_problem csf' inp' ctx') delta m (law_of_motion (new_code j c) (widen j e s0))).
      { intros c Hc. destruct m as [|m]; [reflexivity|]. rewrite widen_move.
        - apply IH; [|rewrite law_period; lia]. apply (sm_closed _ _ _ _ _ _ SM ctx s0 c H0); [lia|]. exact (Av c Hc).
        - rewrite (core_exp_length sp s0 (sm_wf _ _ _ _ _ _ SM) (sm_lags _ _ _ _ _ _ SM) H0). exact (om_experience _ _ _ _ _ _ _ _ _ _ OM). }
      clear - Av Next OM H0. revert x Av Next. generalize (positions (csf ctx s0)). induction l as [|c l IHl]; intros [|y x] Av Next; try reflexivity.
      cbn [combine map fst snd]. f_equal.
      - rewrite (Next c (or_introl eq_refl)).
        rewrite (om_wages _ _ _ _ _ _ _ _ _ _ OM s0 c H0 (Av c (or_introl eq_refl))), (om_nonpecs _ _ _ _ _ _ _ _ _ _ OM s0 c H0 (Av c (or_introl eq_refl))).
        reflexivity.
      - apply IHl; intros c' Hc'; [apply Av|apply Next]; right; exact Hc'. }
    apply G; [exact Hs|lia].
Qed.
