(** Proofs about repeated calls of the solve function. *)
From Coq Require Import List Arith Bool Reals Lra Lia.
From Verif Require Import Base Proof_Base Model_CoreStateSpace Proof_CoreStateSpace
  Model_StateSpace Spec_StateSpace Proof_StateSpace Model_Solve Spec_Solve Proof_Solve Model_Calls.
Import ListNotations.

Definition same_shape (ev ev' : list (list R)) : Prop := map (@length R) ev = map (@length R) ev'.

Lemma same_shape_nth : forall ev ev' k, same_shape ev ev' ->
  option_map (@length R) (nth_error ev k) = option_map (@length R) (nth_error ev' k).
Proof. intros. rewrite <- !nth_error_map. rewrite H. reflexivity. Qed.

Lemma set_ev_shape : forall ev k arr ev', set_ev ev k arr = Ok ev' -> same_shape ev ev'.
Proof.
  intros ev k arr ev' H. unfold set_ev in H. destruct (nth_error ev k) as [old|] eqn:E; [|discriminate].
  destruct (Nat.eqb (length old) (length arr)) eqn:L; [|discriminate]. apply Nat.eqb_eq in L.
  injection H as <-. unfold same_shape. apply nth_error_ext_eq. intros i. rewrite !nth_error_map.
  destruct (Nat.eq_dec k i) as [<-|Hne].
  - rewrite nth_error_set_nth_same by (eapply nth_error_lt; eauto). rewrite E. simpl. congruence.
  - rewrite nth_error_set_nth_other by exact Hne. reflexivity.
Qed.

Lemma write_values_shape : forall vals ev, same_shape ev (fst (write_values vals ev)).
Proof.
  induction vals as [|[k arr] vals IH]; intros ev; simpl; [reflexivity|].
  destruct (set_ev ev k arr) eqn:E; try reflexivity.
  unfold same_shape in *. rewrite (set_ev_shape _ _ _ _ E). apply IH.
Qed.

Lemma run_periods_shape : forall ss inp ps ev, same_shape ev (fst (run_periods ss inp ps ev)).
Proof.
  induction ps as [|p ps IH]; intros ev; simpl; [reflexivity|].
  destruct (period_values ss inp ev p) as [vals| | | | |]; try reflexivity.
  assert (S := write_values_shape vals ev). destruct (write_values vals ev) as [ev' [[]| | | | |]]; try exact S.
  unfold same_shape in *. rewrite S. apply IH.
Qed.

(** Writing the same values into arrays of the same shape. *)
Lemma write_values_agree : forall vals ev ev', same_shape ev ev' ->
  let w := write_values vals ev in let w' := write_values vals ev' in
  snd w = snd w' /\ same_shape (fst w) (fst w') /\
  (snd w = Ok tt -> forall k, nth_error ev k = nth_error ev' k \/ In k (map fst vals) ->
     nth_error (fst w) k = nth_error (fst w') k).
Proof.
  induction vals as [|[k arr] vals IH]; intros ev ev' S; simpl.
  - split; [reflexivity|]. split; [exact S|]. intros _ k [H|[]]. exact H.
  - assert (E := same_shape_nth ev ev' k S). unfold set_ev.
    destruct (nth_error ev k) as [o|] eqn:Eo, (nth_error ev' k) as [o'|] eqn:Eo'; simpl in E;
      try discriminate.
    + injection E as E. rewrite <- E. destruct (Nat.eqb (length o) (length arr)) eqn:L; simpl.
      * assert (S1 : same_shape (set_nth k arr ev) (set_nth k arr ev')).
        { assert (A : same_shape ev (set_nth k arr ev)) by (eapply (set_ev_shape ev k arr); unfold set_ev; rewrite Eo, L; reflexivity).
          assert (B : same_shape ev' (set_nth k arr ev')) by (eapply (set_ev_shape ev' k arr); unfold set_ev; rewrite Eo', <- E, L; reflexivity).
          unfold same_shape in *. congruence. }
        destruct (IH _ _ S1) as [I1 [I2 I3]]. split; [exact I1|]. split; [exact I2|].
        intros Hok k' Hk'. apply I3; [exact Hok|].
        destruct (Nat.eq_dec k k') as [<-|Hne].
        -- left. rewrite !nth_error_set_nth_same by (eapply nth_error_lt; eauto). reflexivity.
        -- rewrite !nth_error_set_nth_other by exact Hne. destruct Hk' as [H|[H|H]]; auto. congruence.
      * split; [reflexivity|]. split; [exact S|]. discriminate.
    + simpl. split; [reflexivity|]. split; [exact S|]. discriminate.
Qed.

(** Arrays of periods from [p] on agree. *)
Definition agree (ss : state_space) (p : nat) (ev ev' : list (list R)) : Prop :=
  same_shape ev ev' /\
  forall k cx ck, nth_error (ss_dpc ss) k = Some (cx, ck) -> (p <= cx_period cx)%nat ->
    nth_error ev k = nth_error ev' k.

Lemma conts_agree : forall ss p ev ev' k, agree ss (S p) ev ev' ->
  get_continuation_values 0%R ss ev p k = get_continuation_values 0%R ss ev' p k.
Proof.
  intros ss p ev ev' k [_ A].
  assert (CV : forall d ch, continuation_value ss ev p d ch = continuation_value ss ev' p d ch).
  { intros d ch. unfold continuation_value.
    destruct (dict_get pair_nat_eq_dec (core_dense_key (fst ch) d)
               (core_key_and_dense_index_to_dense_key (ss_dpc ss))) as [dk|]; [|reflexivity].
    unfold ev_of_period, dense_key_to_complex. rewrite nth_error_map.
    destruct (nth_error (ss_dpc ss) dk) as [[cx ck]|] eqn:E; simpl; [|reflexivity].
    destruct (Nat.eqb_spec (cx_period cx) (S p)) as [Hp|]; [|reflexivity].
    rewrite (A dk cx ck E ltac:(lia)). reflexivity. }
  unfold get_continuation_values.
  destruct (nth_error (ss_dpc ss) k) as [[cx ck]|]; [|reflexivity].
  destruct (dense_key_to_core_indices ss k); [|reflexivity].
  destruct (nth_error (ss_transit ss) k); [|reflexivity].
  destruct (nth_error (ss_child ss) k) as [child|]; [|reflexivity].
  destruct (Nat.eqb p (ss_nperiods ss - 1)); [reflexivity|].
  f_equal. apply map_ext. intros i. f_equal. apply map_ext. intros j.
  destruct (nth_error child i) as [row|]; [|reflexivity].
  destruct (nth_error row j); [apply CV|reflexivity].
Qed.

Lemma period_values_agree : forall ss inp p ev ev', agree ss (S p) ev ev' ->
  period_values ss inp ev p = period_values ss inp ev' p.
Proof.
  intros ss inp p ev ev' A. unfold period_values.
  destruct (Req_EM_T (p_delta (in_params inp)) 0); [reflexivity|].
  destruct (any_interpolated ss (in_points inp) p).
  - f_equal. f_equal. apply map_ext. intros k. rewrite (conts_agree ss p ev ev' k A). reflexivity.
  - f_equal. apply map_ext. intros k. rewrite (conts_agree ss p ev ev' k A). reflexivity.
Qed.

(** The interpolation routine returns values for the keys of the period. *)
Definition interp_keys (ss : state_space) (inp : inputs) : Prop :=
  forall p conts vals, map fst conts = dense_keys_from_period ss p ->
    in_interp inp p conts = Ok vals -> map fst vals = dense_keys_from_period ss p.

Lemma result_all_keys : forall A B (f : nat -> result A) (g : nat -> A -> B) l vals,
  result_all (map (fun k => result_bind (f k) (fun a => Ok (k, g k a))) l) = Ok vals -> map fst vals = l.
Proof.
  intros A B f g l vals H. apply result_all_map_Ok in H.
  induction H as [|k [k' b] l l' H _ IH]; simpl; [reflexivity|].
  f_equal; [|exact IH]. destruct (f k); simpl in H; congruence.
Qed.

Lemma period_values_keys : forall ss inp p ev vals, interp_keys ss inp ->
  period_values ss inp ev p = Ok vals -> map fst vals = dense_keys_from_period ss p.
Proof.
  intros ss inp p ev vals IK H. unfold period_values in H.
  destruct (Req_EM_T (p_delta (in_params inp)) 0).
  - injection H as <-. rewrite map_map. apply map_id.
  - destruct (any_interpolated ss (in_points inp) p).
    + destruct (result_all _) as [conts| | | | |] eqn:E; try discriminate. simpl in H.
      apply (IK _ _ _ (result_all_keys _ _ _ (fun _ c => c) _ _ E) H).
    + set (f := fun k => result_bind (rewards_of ss inp k) (fun wn =>
         result_bind (get_continuation_values 0%R ss ev p k) (fun conts =>
         calculate_expected_value_functions (fst wn) (snd wn) conts
                        (draws_of ss inp k) (p_delta (in_params inp))))).
      apply (result_all_keys _ _ f (fun _ c => c)). rewrite <- H. f_equal. apply map_ext. intros k.
      unfold f. destruct (rewards_of ss inp k); simpl; try reflexivity.
      destruct (get_continuation_values 0%R ss ev p k); reflexivity.
Qed.

Lemma run_periods_agree : forall ss inp n ev ev', interp_keys ss inp -> agree ss n ev ev' ->
  let r := run_periods ss inp (rev (seq 0 n)) ev in let r' := run_periods ss inp (rev (seq 0 n)) ev' in
  snd r = snd r' /\ (snd r = Ok tt -> agree ss 0 (fst r) (fst r')).
Proof.
  intros ss inp n. induction n as [|n IH]; intros ev ev' IK A.
  - simpl. split; [reflexivity|]. intros _. exact A.
  - rewrite seq_S, rev_app_distr. simpl. rewrite (period_values_agree ss inp n ev ev' A).
    destruct (period_values ss inp ev' n) as [vals| | | | |] eqn:PV;
      try (split; [reflexivity|discriminate]).
    destruct A as [S A]. destruct (write_values_agree vals ev ev' S) as [W1 [W2 W3]].
    destruct (write_values vals ev) as [e1 r1], (write_values vals ev') as [e2 r2]. simpl in *.
    subst r2. destruct r1 as [[]| | | | |]; try (split; [reflexivity|discriminate]).
    apply IH; [exact IK|]. split; [exact W2|]. intros k cx ck Hk Hp. apply W3; [reflexivity|].
    destruct (Nat.eq_dec (cx_period cx) n) as [E|E].
    + right. rewrite (period_values_keys _ _ _ _ _ IK PV). apply In_keys_of_period. eauto.
    + left. apply (A k cx ck Hk). lia.
Qed.

(** Periods of the keys. *)
Lemma fold_result_invariant : forall A B (P : A -> Prop) (f : B -> A -> result A) l a a',
  P a -> (forall b a a', In b l -> P a -> f b a = Ok a' -> P a') -> fold_result f l a = Ok a' -> P a'.
Proof.
  induction l as [|b l IH]; intros a a' Ha H E; simpl in E; [congruence|].
  destruct (f b a) as [a1| | | | |] eqn:F; try discriminate. simpl in E.
  eapply IH; [|intros; eapply H; eauto; right; assumption|exact E].
  eapply H; [left; reflexivity|exact Ha|exact F].
Qed.

Lemma In_dict_set : forall K V (eqd : forall x y : K, {x = y} + {x <> y}) k v (d : list (K * V)) x,
  In x (dict_keys (dict_set eqd k v d)) -> x = k \/ In x (dict_keys d).
Proof. intros. apply In_keys_set in H. tauto. Qed.

Lemma keys_periods : forall core csf ck k, nth_error (core_key_to_complex core csf) ck = Some k ->
  exists s, In s core /\ cs_period s = fst k.
Proof.
  intros core csf ck k H. apply nth_error_In in H. unfold core_key_to_complex in H.
  apply In_isort in H. apply In_drop_duplicates in H. apply in_map_iff in H.
  destruct H as [s [<- Hs]]. exists s. split; [exact Hs|reflexivity].
Qed.

Lemma dpc_periods : forall nperiods core csf grid ss,
  create_state_space nperiods core csf grid = Ok ss ->
  forall cx ck, In (cx, ck) (ss_dpc ss) -> exists s, In s core /\ cs_period s = cx_period cx.
Proof.
  intros nperiods core csf grid ss CR cx ck Hin.
  assert (F := create_state_space_facts _ _ _ _ _ CR). assert (D := sf_dpc _ _ _ _ _ F).
  assert (Hk : In cx (dict_keys (ss_dpc ss))) by (apply in_map_iff; exists (cx, ck); auto).
  clear Hin. unfold create_dense_period_choice in D.
  destruct grid as [|g grid].
  - injection D as D _. rewrite <- D in Hk. unfold dict_of_pairs in Hk.
    apply In_keys_update in Hk. destruct Hk as [[]|Hk]. unfold dict_keys in Hk. rewrite map_map in Hk.
    apply in_map_iff in Hk. destruct Hk as [[i k] [<- Hk]]. apply In_enumerate in Hk. simpl.
    destruct (keys_periods _ _ _ _ Hk) as [s Hs]. exists s. exact Hs.
  - set (P := fun acc : dpc_acc => forall cx, In cx (dict_keys (fst acc)) ->
       exists s, In s core /\ cs_period s = cx_period cx).
    assert (G : P (ss_dpc ss, ss_files ss)).
    { eapply (fold_result_invariant _ _ P); [|clear D|exact D].
      - intros x [].
      - intros [d vec] a a' _ Ha E.
        eapply (fold_result_invariant _ _ P); [exact Ha|clear E|exact E].
        intros c b b' _ Hb E. unfold dense_period_choice_step in E.
        destruct (nth_error (core_key_to_complex core csf) c) as [k|] eqn:Ek; [|discriminate].
        destruct (nth_error (core_key_to_core_indices core csf) c) as [inds|]; [|discriminate].
        destruct (group_choice_set csf _ _) as [cs| | | | |]; try discriminate. simpl in E.
        injection E as <-. intros x Hx. simpl in Hx. apply In_dict_set in Hx.
        destruct Hx as [->|Hx]; [|apply Hb; exact Hx].
        destruct (keys_periods _ _ _ _ Ek) as [s Hs]. exists s. exact Hs. }
    apply G. exact Hk.
Qed.

Lemma run_periods_irrelevant : forall nperiods core csf grid ss inp ev ev',
  create_state_space nperiods core csf grid = Ok ss ->
  (forall s, In s core -> (cs_period s < nperiods)%nat) -> interp_keys ss inp ->
  same_shape ev ev' -> length ev = length (ss_dpc ss) ->
  let r := run_periods ss inp (rev (seq 0 (ss_nperiods ss))) ev in
  let r' := run_periods ss inp (rev (seq 0 (ss_nperiods ss))) ev' in
  snd r = snd r' /\ (snd r = Ok tt -> fst r = fst r').
Proof.
  intros nperiods core csf grid ss inp ev ev' CR IP IK S L r r'.
  assert (F := create_state_space_facts _ _ _ _ _ CR).
  assert (A : agree ss (ss_nperiods ss) ev ev').
  { split; [exact S|]. intros k cx ck Hk Hp. exfalso.
    destruct (dpc_periods _ _ _ _ _ CR cx ck (nth_error_In _ _ Hk)) as [s [Hs E]].
    specialize (IP s Hs). rewrite (sf_nperiods _ _ _ _ _ F) in Hp. lia. }
  destruct (run_periods_agree ss inp _ _ _ IK A) as [R1 R2]. fold r r' in R1, R2.
  split; [exact R1|]. intros Hok. destruct (R2 Hok) as [S2 A2].
  assert (L1 : length (fst r) = length (ss_dpc ss)).
  { assert (X := run_periods_shape ss inp (rev (seq 0 (ss_nperiods ss))) ev). fold r in X.
    unfold same_shape in X. apply (f_equal (@length nat)) in X. rewrite !map_length in X. lia. }
  apply nth_error_ext_eq. intros k.
  destruct (nth_error (ss_dpc ss) k) as [[cx ck]|] eqn:Ek.
  - apply (A2 k cx ck Ek). lia.
  - apply nth_error_None in Ek.
    assert (L2 : length (fst r') = length (fst r)).
    { unfold same_shape in S2. apply (f_equal (@length nat)) in S2. rewrite !map_length in S2. lia. }
    destruct (nth_error (fst r) k) eqn:E1; [apply nth_error_lt in E1; lia|].
    destruct (nth_error (fst r') k) eqn:E2; [apply nth_error_lt in E2; lia|reflexivity].
Qed.

(** Heap contents. *)
Lemma solve_calls_object : forall ss inps h a ev, nth_error h a = Some ev ->
  exists ev', nth_error (fst (solve_calls ss inps h a)) a = Some ev' /\ same_shape ev ev'.
Proof.
  induction inps as [|inp inps IH]; intros h a ev H; simpl.
  - exists ev. split; [exact H|reflexivity].
  - unfold solve_call at 1. rewrite H. simpl.
    destruct (IH (set_nth a (fst (run_periods ss inp (rev (seq 0 (ss_nperiods ss))) ev)) h) a
                (fst (run_periods ss inp (rev (seq 0 (ss_nperiods ss))) ev))) as [ev' [H1 H2]].
    + apply nth_error_set_nth_same. eapply nth_error_lt; eauto.
    + exists ev'. split; [exact H1|]. unfold same_shape in *.
      rewrite <- H2. apply run_periods_shape.
Qed.

Lemma solve_calls_other : forall ss inps h a b, a <> b ->
  nth_error (fst (solve_calls ss inps h a)) b = nth_error h b.
Proof.
  induction inps as [|inp inps IH]; intros h a b Hne; simpl; [reflexivity|].
  rewrite IH by exact Hne. unfold solve_call. destruct (nth_error h a); simpl; [|reflexivity].
  apply nth_error_set_nth_other. exact Hne.
Qed.

Lemma get_solve_func_object : forall ss h,
  nth_error (fst (get_solve_func ss h)) (snd (get_solve_func ss h)) = Some (initial_ev ss).
Proof.
  intros. unfold get_solve_func. simpl. rewrite nth_error_app2, Nat.sub_diag by lia. reflexivity.
Qed.

Theorem history_irrelevant : forall nperiods core csf grid ss inp h1 h2 hist1 hist2,
  create_state_space nperiods core csf grid = Ok ss ->
  (forall s, In s core -> (cs_period s < nperiods)%nat) -> interp_keys ss inp ->
  let g1 := get_solve_func ss h1 in let g2 := get_solve_func ss h2 in
  let c1 := solve_call ss inp (fst (solve_calls ss hist1 (fst g1) (snd g1))) (snd g1) in
  let c2 := solve_call ss inp (fst (solve_calls ss hist2 (fst g2) (snd g2))) (snd g2) in
  (result_bind (snd c1) (fun _ => Ok tt) = result_bind (snd c2) (fun _ => Ok tt)) /\
  (forall a1 a2, snd c1 = Ok a1 -> snd c2 = Ok a2 ->
     nth_error (fst c1) a1 = nth_error (fst c2) a2).
Proof.
  intros nperiods core csf grid ss inp h1 h2 hist1 hist2 CR IP IK g1 g2 c1 c2.
  destruct (solve_calls_object ss hist1 (fst g1) (snd g1) _ (get_solve_func_object ss h1)) as [e1 [E1 S1]].
  destruct (solve_calls_object ss hist2 (fst g2) (snd g2) _ (get_solve_func_object ss h2)) as [e2 [E2 S2]].
  assert (S12 : same_shape e1 e2) by (unfold same_shape in *; congruence).
  assert (L : length e1 = length (ss_dpc ss)).
  { unfold same_shape in S1. apply (f_equal (@length nat)) in S1. rewrite !map_length in S1.
    unfold initial_ev in S1. rewrite map_length in S1. lia. }
  destruct (run_periods_irrelevant _ _ _ _ _ _ _ _ CR IP IK S12 L) as [R1 R2].
  unfold c1, c2, solve_call. rewrite E1, E2. simpl.
  destruct (run_periods ss inp (rev (seq 0 (ss_nperiods ss))) e1) as [x1 r1],
           (run_periods ss inp (rev (seq 0 (ss_nperiods ss))) e2) as [x2 r2]. simpl in *. subst r2.
  split; [destruct r1; reflexivity|]. intros a1 a2 H1 H2. destruct r1 as [[]| | | | |]; try discriminate.
  simpl in *. injection H1 as <-. injection H2 as <-.
  rewrite !nth_error_set_nth_same by (eapply nth_error_lt; eauto). f_equal. apply R2. reflexivity.
Qed.

Theorem earlier_results_alias : forall ss inp1 inp2 h a r1 r2,
  snd (solve_call ss inp1 h a) = Ok r1 ->
  snd (solve_call ss inp2 (fst (solve_call ss inp1 h a)) a) = Ok r2 -> r1 = r2.
Proof.
  assert (G : forall ss inp h a r, snd (solve_call ss inp h a) = Ok r -> r = a).
  { intros ss inp h a r. unfold solve_call. destruct (nth_error h a); simpl; [|discriminate].
    destruct (snd (run_periods ss inp _ l)); simpl; congruence. }
  intros ss inp1 inp2 h a r1 r2 H1 H2. rewrite (G _ _ _ _ _ H1), (G _ _ _ _ _ H2). reflexivity.
Qed.

(** The pure solution and the stateful one agree. *)
Lemma write_values_fold : forall vals ev ev',
  fold_result (fun p ev => set_ev ev (fst p) (snd p)) vals ev = Ok ev' <-> write_values vals ev = (ev', Ok tt).
Proof.
  induction vals as [|[k arr] vals IH]; intros ev ev'; simpl.
  - split; congruence.
  - destruct (set_ev ev k arr) eqn:E; simpl; try (split; congruence). apply IH.
Qed.

Lemma run_periods_fold : forall ss inp ps ev ev',
  fold_result (solve_period ss inp) ps ev = Ok ev' <-> run_periods ss inp ps ev = (ev', Ok tt).
Proof.
  induction ps as [|p ps IH]; intros ev ev'; simpl; [split; congruence|].
  unfold solve_period at 1. destruct (period_values ss inp ev p) as [vals| | | | |]; simpl; try (split; congruence).
  destruct (write_values vals ev) as [e1 r1] eqn:W.
  destruct (fold_result (fun p ev => set_ev ev (fst p) (snd p)) vals ev) as [e2| | | | |] eqn:F; simpl;
    [apply write_values_fold in F; rewrite W in F; injection F as -> ->; apply IH| | | | |];
  (destruct r1 as [[]| | | | |];
   [apply write_values_fold in W; congruence|split; intros; [discriminate|injection H as _ H; discriminate] ..]).
Qed.

Lemma solve_call_pure : forall ss inp h a ev ev', nth_error h a = Some ev ->
  solve_with_backward_induction ss inp ev = Ok ev' ->
  solve_call ss inp h a = (set_nth a ev' h, Ok a).
Proof.
  intros ss inp h a ev ev' H S. unfold solve_call. rewrite H.
  apply run_periods_fold in S. rewrite S. reflexivity.
Qed.
