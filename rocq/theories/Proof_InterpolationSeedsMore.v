(** Proofs about the seeds of the approximate solution: the sequence of seeds. *)
From Coq Require Import List Arith Bool ZArith Reals Lra Lia.
From Verif Require Import Base Proof_Base Model_CoreStateSpace Proof_CoreStateSpace
  Model_StateSpace Spec_StateSpace Proof_StateSpace Model_Solve Spec_Solve Proof_Solve Proof_SolveProps
  Model_Calls Proof_Calls Proof_ExogenousInduction Model_ConditionalDraws
  Model_Interpolate Spec_Interpolate Proof_Interpolate Proof_InterpolateSolve
  Model_Options Model_InterpolationSeeds Spec_InterpolationSeeds Proof_InterpolationSeeds.
Import ListNotations.
Local Open Scope nat_scope.

Definition at_seed (o : seed_options) (c : Z) : Prop := exists s e, so_iteration o = Some (c, s, e).

Lemma next_at : forall o c, at_seed o c -> exists o', next_seed (Solution, Iteration) o = Ok (c, o') /\ at_seed o' (c + 1).
Proof.
  intros o c [s [e E]]. unfold next_seed. cbn [snd]. rewrite E. cbn [fst component]. eexists. split; [reflexivity|].
  exists s, e. reflexivity.
Qed.

Lemma get_seeds_at : forall keys o c, at_seed o c ->
  exists o', get_seeds keys o = Ok (combine keys (map (fun i => c + Z.of_nat i)%Z (seq 0 (length keys))), o') /\
    at_seed o' (c + Z.of_nat (length keys)).
Proof.
  induction keys as [|k keys IH]; intros o c A.
  - exists o. split; [reflexivity|]. rewrite Z.add_0_r. exact A.
  - destruct (next_at o c A) as [o1 [E1 A1]]. destruct (IH o1 _ A1) as [o2 [E2 A2]].
    exists o2. cbn [get_seeds]. rewrite E1. cbn [result_bind fst snd]. rewrite E2. cbn [result_bind fst snd]. split.
    + f_equal. f_equal. cbn [length seq map combine]. rewrite Z.add_0_r. f_equal.
      rewrite <- seq_shift, map_map. f_equal. apply map_ext. intros i. lia.
    + replace (c + Z.of_nat (length (k :: keys)))%Z with (c + 1 + Z.of_nat (length keys))%Z by (cbn [length]; lia). exact A2.
Qed.

Definition key_index (keys : list nat) (k : nat) : nat :=
  match dict_get Nat.eq_dec k (combine keys (seq 0 (length keys))) with Some j => j | None => 0 end.

Lemma dict_get_combine_map : forall A B (f : A -> B) keys l k,
  dict_get Nat.eq_dec k (combine keys (map f l)) = option_map f (dict_get Nat.eq_dec k (combine keys l)).
Proof.
  induction keys as [|x keys IH]; intros [|y l] k; cbn; try reflexivity.
  destruct (Nat.eq_dec k x); [reflexivity|apply IH].
Qed.
Lemma key_index_nth : forall keys k j, NoDup keys -> nth_error keys j = Some k ->
  dict_get Nat.eq_dec k (combine keys (seq 0 (length keys))) = Some j.
Proof.
  intros keys k j N H. apply dict_get_In_NoDup.
  - unfold dict_keys. replace (map fst (combine keys (seq 0 (length keys)))) with keys; [exact N|].
    generalize 0. induction keys as [|x keys IH]; intros m; [reflexivity|]. cbn [length seq combine map fst]. f_equal.
    clear -keys. revert m. induction keys as [|y keys IH]; intros m; [reflexivity|]. cbn. f_equal. apply IH.
  - clear N. assert (G : forall keys j m, nth_error keys j = Some k -> In (k, m + j) (combine keys (seq m (length keys)))).
    { clear. induction keys as [|x keys IH]; intros [|j] m H; try discriminate; cbn in *.
      - left. injection H as ->. f_equal. lia.
      - right. replace (m + S j) with (S m + j) by lia. apply IH. exact H. }
    apply (G keys j 0 H).
Qed.

Definition seed_oracle (ss : state_space) (points : nat) (rn : random_numbers)
  (ols : list R -> list (list R) -> list R) (start : Z) : interp_oracle :=
  mkInterpOracle
    (fun p => rn_choose rn (start + Z.of_nat (seeds_before ss points p + length (keys_in ss p))))
    (fun k => match nth_error (ss_dpc ss) k with
              | Some (cx, _) => rn_subset rn (start + Z.of_nat (seeds_before ss points (cx_period cx)
                                                                + key_index (keys_in ss (cx_period cx)) k))
              | None => rn_subset rn 0%Z end)
    ols.

Lemma kw_ext : forall ss inp o1 o2 p conts, or_choose o1 p = or_choose o2 p -> or_ols o1 = or_ols o2 ->
  (forall k, In k (dense_keys_from_period ss p) -> or_subset o1 k = or_subset o2 k) ->
  kw_94_interpolation ss inp o1 p conts = kw_94_interpolation ss inp o2 p conts.
Proof.
  intros ss inp o1 o2 p conts E1 E2 E3. unfold kw_94_interpolation. rewrite E1, E2.
  destruct (split_interpolation_points_evenly _ _ _) as [[pts w]| | | | |]; try reflexivity. cbn [result_bind fst]. f_equal.
  apply map_ext_in. intros [k pt] I. cbn [fst snd]. rewrite E3; [reflexivity|]. apply in_combine_l in I. exact I.
Qed.

Lemma seeds_before_S : forall ss points p, S p < ss_nperiods ss ->
  seeds_before ss points p = seeds_of_period ss points (S p) + seeds_before ss points (S p).
Proof.
  intros ss points p H. unfold seeds_before. replace (ss_nperiods ss - S p) with (S (ss_nperiods ss - S (S p))) by lia.
  reflexivity.
Qed.

Section Seeds.
  Variables (ss : state_space) (inp : inputs) (rn : random_numbers) (ols : list R -> list (list R) -> list R) (start : Z).
  Hypothesis Dnz : p_delta (in_params inp) <> 0%R.
  Let points := in_points inp.
  Let o := seed_oracle ss points rn ols start.

  Lemma seeded_step : forall p ev opt,
    solved_exactly ss points p \/ interpolated_period ss points p ->
    at_seed opt (start + Z.of_nat (seeds_before ss points p)) ->
    exists opt', at_seed opt' (start + Z.of_nat (seeds_of_period ss points p + seeds_before ss points p)) /\
      seeded_period ss inp rn ols p (ev, opt) =
      result_bind (solve_period ss (with_interpolation ss o inp) p ev) (fun ev' => Ok (ev', opt')).
  Proof.
    intros p ev opt [E|E] A.
    - exists opt. split.
      + replace (seeds_of_period ss points p) with 0; [exact A|]. unfold seeds_of_period.
        destruct E as [E|E]; [apply Nat.leb_le in E; rewrite E; reflexivity|].
        apply Nat.ltb_lt in E. rewrite E, orb_true_r. reflexivity.
      + unfold seeded_period, solve_period. cbn [fst snd]. destruct (Req_EM_T (p_delta (in_params inp)) 0) as [Z|_]; [contradiction|].
        assert (AI := proj2 (any_interpolated_false ss points p) E). fold points. rewrite AI.
        assert (PV : period_values ss inp ev p = period_values ss (with_interpolation ss o inp) ev p).
        { unfold period_values. change (p_delta (in_params (with_interpolation ss o inp))) with (p_delta (in_params inp)).
          destruct (Req_EM_T (p_delta (in_params inp)) 0) as [Z|_]; [contradiction|].
          change (in_points (with_interpolation ss o inp)) with points. fold points. rewrite AI. reflexivity. }
        rewrite PV. destruct (period_values ss (with_interpolation ss o inp) ev p) as [v| | | | |]; reflexivity.
    - destruct (get_seeds_at (dense_keys_from_period ss p) opt _ A) as [o1 [E1 A1]].
      destruct (next_at o1 _ A1) as [o2 [E2 A2]]. exists o2. assert (I := E). destruct I as [I1 I2]. rewrite <- keys_in_spec in *. split.
      + replace (start + Z.of_nat (seeds_of_period ss points p + seeds_before ss points p))%Z
          with (start + Z.of_nat (seeds_before ss points p) + Z.of_nat (length (keys_in ss p)) + 1)%Z; [exact A2|].
        unfold seeds_of_period. destruct (Nat.leb_spec (states_in ss p) points); [lia|].
        destruct (Nat.ltb_spec points (2 * length (keys_in ss p))); [lia|]. cbn [orb].
        destruct (Nat.ltb_spec (2 * length (keys_in ss p)) points); lia.
      + unfold seeded_period, solve_period, period_values. cbn [fst snd].
        change (p_delta (in_params (with_interpolation ss o inp))) with (p_delta (in_params inp)).
        destruct (Req_EM_T (p_delta (in_params inp)) 0) as [Z|_]; [contradiction|].
        change (in_points (with_interpolation ss o inp)) with points. fold points.
        assert (AI := interpolated_true ss inp p E). fold points in AI. rewrite AI.
        destruct (result_all _) as [conts| | | | |]; try reflexivity. cbn [result_bind].
        change (in_interp (with_interpolation ss o inp) p conts) with (kw_94_interpolation ss inp o p conts).
        unfold seeded_interpolation. rewrite <- keys_in_spec, E1. cbn [result_bind fst snd].
        unfold split_seed. fold points. destruct (Nat.ltb_spec 0 (points - 2 * length (keys_in ss p))); [|lia].
        rewrite E2. cbn [result_bind fst snd].
        rewrite (kw_ext ss inp _ o p conts).
        * destruct (kw_94_interpolation ss inp o p conts) as [v| | | | |]; reflexivity.
        * cbn [or_choose o seed_oracle]. f_equal. lia.
        * reflexivity.
        * intros k Hk. cbn [or_subset o seed_oracle]. rewrite dict_get_combine_map.
          assert (Hk' := Hk). apply In_keys_of_period in Hk'. destruct Hk' as [cx [ck [Hc Pc]]]. rewrite Hc, Pc.
          rewrite <- keys_in_spec in Hk. apply In_nth_error in Hk. destruct Hk as [j Hj].
          unfold key_index. rewrite (key_index_nth (keys_in ss p) k j); [|rewrite keys_in_spec; apply NoDup_keys_of_period|exact Hj].
          cbn [option_map]. f_equal. lia.
  Qed.
End Seeds.

Lemma seq_at : forall n r, r < n -> nth_error (seq 0 n) r = Some r.
Proof. intros n r H. rewrite (nth_error_nth' _ 0) by (rewrite seq_length; exact H). rewrite seq_nth by exact H. reflexivity. Qed.

Theorem seeded_solution : forall nchoices nperiods core csf grid ss points rn randint user,
  NoDup core -> closed_under_choices nperiods core csf -> collision_free core csf grid ->
  create_state_space nperiods core csf grid = Ok ss ->
  (forall s, In s core -> cs_period s < nperiods) ->
  (forall d ctx s, dense_combination grid d ctx -> In s core -> exists c, available (csf ctx s) c) ->
  (forall p, p < nperiods -> solved_exactly ss points p \/ interpolated_period ss points p) ->
  proper_numbers rn ->
  (let '(a, b, c) := user in 0 <= a < 2 ^ 32 /\ 0 <= b < 2 ^ 32 /\ 0 <= c < 2 ^ 32)%Z ->
  let start := (randint (fst (fst user)) 1000000 2000000 + 1000000)%Z in
  exists masks,
    (forall p, p < nperiods -> simulated_states ss points masks p) /\
    (forall p k n, p < nperiods -> interpolated_period ss points p -> seed_of_key ss points p k n ->
       forall r, r < key_size ss k ->
       (nth r (masks k) false = true <-> In r (rn_subset rn (start + Z.of_nat n) (key_size ss k) (count_true (masks k))))) /\
    forall inp ols opt ev0, wf_inputs nchoices csf inp -> in_points inp = points -> p_delta (in_params inp) <> 0%R ->
      so_user opt = user -> ev_shape ss ev0 ->
      exists ev opt', seeded_solve ss inp rn ols randint opt ev0 = Ok (ev, opt') /\ ev_shape ss ev /\
        (exists s e, so_iteration opt' = Some ((start + Z.of_nat (list_sum (map (seeds_of_period ss points) (seq 0 nperiods))))%Z, s, e)) /\
        forall k r s d ctx, located ss k r s d -> dense_combination grid d ctx ->
          exists v next, value_at ss ev s d v /\ successor_values nperiods ss ev (csf ctx s) s d next /\
            if nth r (masks k) false
            then v = simulated_value (model_problem csf inp ctx) (p_delta (in_params inp)) s next
            else above_mean_values inp ctx (csf ctx s) s next v.
Proof.
  intros nchoices nperiods core csf grid ss points rn randint user ND CL CF CR INP AV PT [PN1 PN2] US start.
  assert (F : ss_facts nperiods core csf grid ss) by (apply create_state_space_facts; exact CR).
  set (o0 := seed_oracle ss points rn (fun _ _ => []) start).
  destruct (masks_all nperiods core csf grid ss o0 points CF CR) with (n := nperiods) as [masks FIT].
  { intros p. cbn. apply PN1. }
  { intros k. cbn. destruct (nth_error (ss_dpc ss) k) as [[cx ck]|]; apply PN2. }
  { apply le_n. }
  exists masks. split; [intros p Hp; eapply masks_simulated; apply FIT; exact Hp|]. split.
  - intros p k n Hp IP [j [Hj ->]] r Hr. destruct (FIT p Hp) as [_ B]. destruct (B IP) as [pts [warn [_ [_ [_ B4]]]]].
    rewrite keys_in_spec in Hj.
    assert (G : exists pt, get_not_interpolated_indicator (or_subset o0 k) pt (key_size ss k) = Ok (masks k) /\ count_true (masks k) = pt).
    { clear -B4 Hj. revert j Hj. induction B4 as [|x y l l' H B4 IH]; intros [|j] Hj; try discriminate; cbn in Hj.
      - injection Hj as ->. exists y. tauto.
      - apply (IH j Hj). }
    destruct G as [pt [G1 G2]]. rewrite G2. unfold get_not_interpolated_indicator in G1.
    destruct (Nat.ltb (key_size ss k) pt); [discriminate|]. injection G1 as G1. rewrite <- G1.
    rewrite (nth_error_nth _ _ false (map_nth_error _ _ _ (seq_at _ _ Hr))).
    assert (Hk : In k (dense_keys_from_period ss p)) by (apply (nth_error_In _ _ Hj)).
    apply In_keys_of_period in Hk. destruct Hk as [cx [ck [Hc Pc]]].
    unfold o0. cbn [or_subset seed_oracle]. rewrite Hc, Pc.
    assert (KI : key_index (keys_in ss p) k = j).
    { unfold key_index. rewrite (key_index_nth (keys_in ss p) k j); [reflexivity|rewrite keys_in_spec; apply NoDup_keys_of_period|rewrite keys_in_spec; exact Hj]. }
    rewrite KI. destruct (in_dec Nat.eq_dec r _) as [H|H]; [tauto|]. split; [discriminate|contradiction].
  - intros inp ols opt ev0 WI EP Dnz EU SH. subst points.
    set (o := seed_oracle ss (in_points inp) rn ols start).
    assert (FIT' : forall p, p < nperiods -> masks_fit ss o (in_points inp) masks p) by exact FIT.
    assert (LOOP : forall n ev opt, n <= nperiods -> ev_shape ss ev ->
      fixed_inv nperiods csf grid ss inp masks n ev ->
      at_seed opt (start + Z.of_nat (list_sum (map (seeds_of_period ss (in_points inp)) (seq n (nperiods - n))))) ->
      exists ev' opt', fold_result (seeded_period ss inp rn ols) (rev (seq 0 n)) (ev, opt) = Ok (ev', opt') /\ ev_shape ss ev' /\
        fixed_inv nperiods csf grid ss inp masks 0 ev' /\
        at_seed opt' (start + Z.of_nat (list_sum (map (seeds_of_period ss (in_points inp)) (seq 0 nperiods))))).
    { clear ev0 SH opt EU. induction n as [|n IH]; intros ev opt Hn SH I A.
      - exists ev, opt. rewrite Nat.sub_0_r in A. cbn. auto.
      - rewrite seq_S. cbn [Nat.add]. rewrite rev_unit. cbn [fold_result].
        destruct (fixed_step nchoices nperiods core csf grid ss inp o ND CL CF CR WI Dnz AV masks FIT' PT n ev Hn SH I)
          as [ev1 [E1 [SH1 I1]]].
        destruct (seeded_step ss inp rn ols start Dnz n ev opt (PT n Hn)) as [opt1 [A1 E2]].
        { unfold seeds_before. rewrite (sf_nperiods _ _ _ _ _ F). exact A. }
        fold o in E2. rewrite E2, E1. cbn [result_bind].
        apply (IH ev1 opt1); [lia|exact SH1|exact I1|].
        replace (nperiods - n) with (S (nperiods - S n)) by lia. cbn [seq map list_sum fold_right].
        unfold seeds_before in A1. rewrite (sf_nperiods _ _ _ _ _ F) in A1. exact A1. }
    unfold seeded_solve. destruct user as [[a b] c]. destruct US as [U1 [U2 U3]].
    unfold create_internal_seeds. rewrite EU.
    destruct (Z.ltb_spec a 0); [lia|]. destruct (Z.ltb_spec b 0); [lia|]. destruct (Z.ltb_spec c 0); [lia|]. cbn [orb].
    unfold seeded_randint.
    assert (T : forall x, (0 <= x < 2 ^ 32)%Z -> (Z.leb 0 x && Z.ltb x (2 ^ 32))%bool = true).
    { intros x Hx. apply andb_true_iff. split; [apply Z.leb_le|apply Z.ltb_lt]; lia. }
    rewrite !T by assumption. cbn [result_bind fst].
    rewrite (sf_nperiods _ _ _ _ _ F).
    match goal with |- context [fold_result _ _ (ev0, ?q)] => destruct (LOOP nperiods ev0 q (le_n _) SH) as [ev [opt' [L1 [L2 [L3 L4]]]]] end.
    + apply (fixed_start nperiods core csf grid ss inp CF CR INP).
    + rewrite Nat.sub_diag. cbn [seq map list_sum fold_right]. eexists. eexists. cbn [so_iteration fst].
      unfold start. cbn [fst]. rewrite Z.add_0_r. reflexivity.
    + exists ev, opt'. split; [exact L1|]. split; [exact L2|]. split; [exact L4|].
      apply (fixed_end nperiods core csf grid ss inp ND CF CR masks ev L2 L3).
Qed.

Lemma seeds_before_later : forall ss points p q, p < q -> q < ss_nperiods ss ->
  seeds_before ss points q + seeds_of_period ss points q <= seeds_before ss points p.
Proof.
  intros ss points p q H Hq. induction q as [|q IH]; [lia|].
  destruct (Nat.eq_dec p q) as [->|N].
  - rewrite (seeds_before_S ss points q Hq). lia.
  - assert (X := IH ltac:(lia) ltac:(lia)). rewrite (seeds_before_S ss points q Hq) in X. lia.
Qed.

Lemma seeds_of_interpolated : forall ss points p, interpolated_period ss points p ->
  seeds_of_period ss points p = length (keys_in ss p) + 1.
Proof.
  intros ss points p [I1 I2]. unfold seeds_of_period. destruct (Nat.leb_spec (states_in ss p) points); [lia|].
  destruct (Nat.ltb_spec points (2 * length (keys_in ss p))); [lia|]. cbn [orb].
  destruct (Nat.ltb_spec (2 * length (keys_in ss p)) points); lia.
Qed.

Lemma different_seeds : forall ss points p q, p < ss_nperiods ss -> q < ss_nperiods ss ->
  interpolated_period ss points p -> interpolated_period ss points q ->
  (forall k k' n n', seed_of_key ss points p k n -> seed_of_key ss points q k' n' -> (p, k) <> (q, k') -> n <> n') /\
  (forall k n n', seed_of_key ss points p k n -> seed_of_distribution ss points q n' -> n <> n') /\
  (forall n n', seed_of_distribution ss points p n -> seed_of_distribution ss points q n' -> p <> q -> n <> n').
Proof.
  intros ss points p q Hp Hq Ip Iq.
  assert (Sp := seeds_of_interpolated _ _ _ Ip). assert (Sq := seeds_of_interpolated _ _ _ Iq).
  assert (O : p < q \/ p = q \/ q < p) by lia.
  assert (B : (p < q -> seeds_before ss points q + length (keys_in ss q) + 1 <= seeds_before ss points p) /\
              (q < p -> seeds_before ss points p + length (keys_in ss p) + 1 <= seeds_before ss points q)).
  { split; intros L; [assert (X := seeds_before_later ss points p q L Hq)|assert (X := seeds_before_later ss points q p L Hp)]; lia. }
  unfold seed_of_key, seed_of_distribution. split; [|split].
  - intros k k' n n' [j [Hj ->]] [j' [Hj' ->]] N E. assert (L := nth_error_lt _ _ _ _ Hj). assert (L' := nth_error_lt _ _ _ _ Hj').
    destruct O as [O|[O|O]]; [lia| |lia]. subst q. assert (j = j') by lia. subst j'. congruence.
  - intros k n n' [j [Hj ->]] -> E. assert (L := nth_error_lt _ _ _ _ Hj). destruct O as [O|[O|O]]; [lia| |lia]. subst q. lia.
  - intros n n' -> -> N E. lia.
Qed.
