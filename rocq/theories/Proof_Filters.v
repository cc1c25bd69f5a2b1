(** Proofs about filters that follow the choices. *)
From Coq Require Import List Arith Bool Lia.
From Verif Require Import Base Proof_Base Model_CoreStateSpace Spec_CoreStateSpace
  Proof_CoreStateSpace Model_StateSpace Spec_StateSpace Proof_StateSpace Spec_Filters.
Import ListNotations.

(** The step of a feasible state with its initial levels and gains. *)
Lemma step_witness : forall sp s c init gain, wf_spec sp ->
  complete_lags (sp_nlags sp) (sp_nchoices sp) (cs_lag s) ->
  S (cs_period s) < sp_nperiods sp -> c < sp_nchoices sp -> ~ exhausted sp s c ->
  Forall2 (fun x levels => In x levels) init (sp_starts sp) ->
  length gain = length (sp_starts sp) -> list_sum gain <= cs_period s ->
  cs_exp s = vec_add init gain -> Forall2 le (cs_exp s) (sp_max sp) ->
  complete_lags (sp_nlags sp) (sp_nchoices sp) (cs_lag (law_of_motion c s)) /\
  length (bump_exp c gain) = length (sp_starts sp) /\
  list_sum (bump_exp c gain) <= S (cs_period s) /\
  cs_exp (law_of_motion c s) = vec_add init (bump_exp c gain) /\
  Forall2 le (cs_exp (law_of_motion c s)) (sp_max sp).
Proof.
  intros sp s c init gain W HL Hp Hc Hex Hi Hg Hs He Hm.
  destruct W as [W1 [W2 [W3 [W4 W5]]]]. simpl.
  split; [apply complete_lags_shift; assumption|].
  split; [rewrite length_bump_exp; exact Hg|].
  split; [pose proof (sum_bump_exp_le c gain); lia|].
  split; [rewrite He; apply bump_vec_add|].
  apply Forall2_nth_error.
  apply Forall2_nth_error in Hm. destruct Hm as [Hm1 Hm2].
  split; [rewrite length_bump_exp; exact Hm1|].
  intros i x m Hx Hmx. rewrite nth_error_bump_exp in Hx.
  destruct (nth_error (cs_exp s) i) as [e|] eqn:Ee; [|discriminate]. simpl in Hx.
  inversion Hx; subst x. specialize (Hm2 i e m Ee Hmx).
  destruct (Nat.eqb_spec c i) as [->|Hne]; [|lia].
  assert (Hlen : i < length (sp_starts sp)).
  { apply nth_error_lt in Hmx. lia. }
  destruct (nth_error (sp_starts sp) i) as [levels|] eqn:El.
  2:{ apply nth_error_None in El. lia. }
  destruct (Nat.eq_dec e m) as [->|]; [|lia]. exfalso. apply Hex.
  exists m, m, levels. repeat split; auto.
  rewrite He, nth_error_vec_add in Ee.
  destruct (nth_error init i) as [a|] eqn:Ea; [|discriminate].
  destruct (nth_error gain i) as [g|] eqn:Eg; [|discriminate].
  exists a. split.
  - apply Forall2_nth_error in Hi. destruct Hi as [_ Hi]. apply (Hi i); assumption.
  - inversion Ee. subst m.
    assert (g <= list_sum gain).
    { clear - Eg. revert i Eg. induction gain as [|y gain IH]; intros [|i] E; try discriminate; simpl in *.
      - inversion E. lia.
      - apply IH in E. lia. }
    lia.
Qed.

Lemma filters_follow_closed : forall sp neg k, wf_spec sp -> sp_nlags sp <= 1 ->
  filters_follow_choices sp (process sp (S k) neg) ->
  closed_under_choices (sp_nperiods sp) (create_core_state_space sp)
    (choice_set_of sp (process sp (S k) neg)).
Proof.
  intros sp neg k W L F ctx s c Hin Hp Ha.
  pose proof Ha as Ha'. apply availability in Ha'; [|assumption].
  destruct Ha' as [Hc [Hu Hex]].
  pose proof Hin as HF. apply core_exact in HF; [|assumption|assumption].
  destruct HF as [_ [HL [init [gain [Hi [Hg [Hs [He [Hm Hf]]]]]]]]].
  destruct (step_witness sp s c init gain) as [S1 [S2 [S3 [S4 S5]]]]; auto.
  apply core_exact; [assumption|assumption|]. unfold feasible.
  split; [exact Hp|]. split; [exact S1|].
  exists init, (bump_exp c gain). split; [exact Hi|]. split; [exact S2|]. split; [exact S3|].
  split; [exact S4|]. split; [exact S5|].
  intros f Hff. apply (F ctx s gain c); auto. exists init. auto.
Qed.

Lemma vec_add_inj : forall init gain gain',
  length gain = length init -> length gain' = length init ->
  vec_add init gain = vec_add init gain' -> gain = gain'.
Proof.
  induction init as [|a init IH]; intros [|g gain] [|g' gain'] L L' E; simpl in *;
    try discriminate; [reflexivity|].
  unfold vec_add in *. simpl in E. inversion E. f_equal; [lia|].
  apply IH; [lia|lia|assumption].
Qed.

Lemma one_level : forall (starts : list (list nat)) init init',
  (forall l, In l starts -> exists x, l = [x]) ->
  Forall2 (fun x levels => In x levels) init starts ->
  Forall2 (fun x levels => In x levels) init' starts -> init = init'.
Proof.
  induction starts as [|l starts IH]; intros init init' H A B; inversion A; inversion B; subst;
    [reflexivity|].
  destruct (H l (or_introl eq_refl)) as [v ->].
  f_equal; [|apply IH; auto; intros; apply H; right; assumption].
  simpl in *. repeat match goal with H : _ \/ False |- _ => destruct H; [|tauto] end. congruence.
Qed.

Lemma closed_filters_follow : forall sp neg k, wf_spec sp -> sp_nlags sp <= 1 ->
  (forall l, In l (sp_starts sp) -> exists x, l = [x]) ->
  closed_under_choices (sp_nperiods sp) (create_core_state_space sp)
    (choice_set_of sp (process sp (S k) neg)) ->
  filters_follow_choices sp (process sp (S k) neg).
Proof.
  intros sp neg k W L One CL ctx s gain c Hin Hp Ha [init [Hi He]] Hg Hs Hf f Hff.
  pose proof (CL ctx s c Hin Hp Ha) as N. apply core_exact in N; [|assumption|assumption].
  destruct N as [_ [_ [init' [gain' [Hi' [Hg' [_ [He' [_ Hf']]]]]]]]].
  assert (init' = init) by (eapply one_level; eauto). subst init'.
  simpl in He'. rewrite He, bump_vec_add in He'.
  apply vec_add_inj in He'.
  - specialize (Hf' f Hff). rewrite <- He' in Hf'. exact Hf'.
  - rewrite length_bump_exp, Hg. symmetry. apply (Forall2_length_eq _ _ _ _ _ Hi).
  - rewrite Hg'. symmetry. apply (Forall2_length_eq _ _ _ _ _ Hi).
Qed.

(** ** The usual filters *)
Lemma nth_le_sum : forall l i (x : nat), nth_error l i = Some x -> x <= list_sum l.
Proof.
  induction l as [|y l IH]; intros [|i] x E; try discriminate; simpl in *.
  - inversion E. lia.
  - apply IH in E. lia.
Qed.

Lemma sum_bump_without : forall c e, length e <= c -> list_sum (bump_exp c e) = list_sum e.
Proof.
  intros c e H. replace (bump_exp c e) with e; [reflexivity|].
  apply nth_error_ext_eq. intros i. rewrite nth_error_bump_exp.
  destruct (nth_error e i) as [x|] eqn:E; [|reflexivity].
  apply nth_error_lt in E. destruct (Nat.eqb_spec c i); [lia|]. simpl. f_equal. lia.
Qed.

Lemma usual_silent : forall sp f t gain lags c, sp_nlags sp = 1 ->
  usual_filter sp f ->
  complete_lags (sp_nlags sp) (sp_nchoices sp) lags ->
  length gain = length (sp_starts sp) -> list_sum gain <= t ->
  f (law_of_motion c (mkState t gain lags)) = false.
Proof.
  intros sp f t gain lags c L U [Hl _] Hg Hs. rewrite L in Hl.
  destruct lags as [|x [|]]; try discriminate Hl. clear Hl.
  change (law_of_motion c (mkState t gain [x]))
    with (mkState (S t) (bump_exp c gain) [Some c]).
  assert (LI : forall d, lag_is d (mkState (S t) (bump_exp c gain) [Some c]) = (c =? d))
    by reflexivity.
  assert (EI : forall d n, d < length (sp_starts sp) ->
    exists g, nth_error gain d = Some g /\ g <= t /\
    exp_is d n (mkState (S t) (bump_exp c gain) [Some c])
    = ((if c =? d then S g else g) =? n)).
  { intros d n Hd. destruct (nth_error gain d) as [g|] eqn:E.
    2:{ apply nth_error_None in E. lia. }
    exists g. split; [reflexivity|]. split; [apply nth_le_sum in E; lia|].
    unfold exp_is. cbn [cs_exp]. rewrite nth_error_bump_exp, E. simpl.
    destruct (c =? d); f_equal; lia. }
  destruct U as [d [[Hd [U|[U|U]]]|[[Hd U]|U]]]; rewrite U.
  - unfold always_but_last. rewrite LI. destruct (EI d (S t) Hd) as [g [_ [Hgt E]]].
    cbn [cs_period]. rewrite E. destruct (c =? d).
    + rewrite andb_false_r. reflexivity.
    + replace (g =? S t) with false; [rewrite andb_false_r; reflexivity|].
      symmetry. apply Nat.eqb_neq. lia.
  - unfold last_without_experience_later. rewrite LI. destruct (EI d 0 Hd) as [g [_ [_ E]]].
    cbn [cs_period]. rewrite E. destruct (c =? d).
    + simpl. reflexivity.
    + rewrite andb_false_r. reflexivity.
  - unfold last_without_experience. rewrite LI. destruct (EI d 0 Hd) as [g [_ [_ E]]].
    rewrite E. destruct (c =? d); reflexivity.
  - unfold experienced_but_last. rewrite LI. cbn [cs_period cs_exp].
    destruct (Nat.eqb_spec c d) as [->|]; [|rewrite andb_false_r; reflexivity].
    rewrite sum_bump_without by lia.
    replace (list_sum gain =? S t) with false; [rewrite andb_false_r; reflexivity|].
    symmetry. apply Nat.eqb_neq. lia.
  - reflexivity.
Qed.

Lemma usual_follow : forall sp neg k, wf_spec sp -> sp_nlags sp = 1 ->
  (forall f, In f (sp_filters sp) -> usual_filter sp f) ->
  filters_follow_choices sp (process sp (S k) neg).
Proof.
  intros sp neg k W L U ctx s gain c Hin Hp Ha _ Hg Hs _ f Hf.
  apply (usual_silent sp); auto. apply core_exact in Hin; [|assumption|lia].
  destruct Hin as [_ [HL _]]. exact HL.
Qed.

Lemma usual_closed : forall sp neg k, wf_spec sp -> sp_nlags sp = 1 ->
  (forall f, In f (sp_filters sp) -> usual_filter sp f) ->
  closed_under_choices (sp_nperiods sp) (create_core_state_space sp)
    (choice_set_of sp (process sp (S k) neg)).
Proof.
  intros. apply filters_follow_closed; [assumption|lia|]. apply usual_follow; assumption.
Qed.

(** A state that is reached, whatever the filters say on the way. *)
Lemma usual_reachable : forall sp neg ctx s k, wf_spec sp -> sp_nlags sp = 1 ->
  (forall f, In f (sp_filters sp) -> usual_filter sp f) ->
  reachable sp (process sp (S k) neg) ctx s -> 0 < cs_period s ->
  In s (create_core_state_space sp).
Proof.
  intros sp neg ctx s k W L U R.
  assert (X : complete_lags (sp_nlags sp) (sp_nchoices sp) (cs_lag s) /\
    cs_period s < sp_nperiods sp /\
    exists init gain, Forall2 (fun x levels => In x levels) init (sp_starts sp) /\
    length gain = length (sp_starts sp) /\ list_sum gain <= cs_period s /\
    cs_exp s = vec_add init gain /\ Forall2 le (cs_exp s) (sp_max sp) /\
    (0 < cs_period s ->
     forall f, In f (sp_filters sp) -> f (mkState (cs_period s) gain (cs_lag s)) = false)).
  { induction R as [init lags Hn Hi Hm Hl|s c R IH Hp Ha].
    - simpl. split; [exact Hl|]. split; [exact Hn|].
      exists init, (repeat 0 (length (sp_starts sp))).
      assert (E : vec_add init (repeat 0 (length (sp_starts sp))) = init).
      { rewrite <- (Forall2_length_eq _ _ _ _ _ Hi). clear. induction init; simpl; [reflexivity|].
        unfold vec_add in *. simpl. rewrite IHinit. f_equal. lia. }
      rewrite E, repeat_length, list_sum_repeat0. repeat split; auto. lia.
    - destruct IH as [Hl [_ [init [gain [Hi [Hg [Hs [He [Hm _]]]]]]]]].
      apply availability in Ha; [|assumption]. destruct Ha as [Hc [_ Hex]].
      destruct (step_witness sp s c init gain) as [S1 [S2 [S3 [S4 S5]]]]; auto.
      split; [exact S1|]. split; [exact Hp|]. exists init, (bump_exp c gain).
      split; [exact Hi|]. split; [exact S2|]. split; [exact S3|]. split; [exact S4|].
      split; [exact S5|]. intros _ f Hf. apply (usual_silent sp f _ gain (cs_lag s) c); auto. }
  intros Hp. destruct X as [Hl [Hn [init [gain [Hi [Hg [Hs [He [Hm Hf]]]]]]]]].
  apply core_exact; [assumption|lia|]. unfold feasible. split; [exact Hn|]. split; [exact Hl|].
  exists init, gain. repeat split; auto.
Qed.

(** ** Filters and the construction of the state space *)
Lemma construction_closed : forall nperiods core csf grid ss s d ctx c,
  NoDup core -> collision_free core csf grid ->
  create_state_space nperiods core csf grid = Ok ss -> In s core ->
  dense_combination grid d ctx -> S (cs_period s) < nperiods ->
  nth_error (csf ctx s) c = Some true -> In (law_of_motion c s) core.
Proof.
  intros nperiods core csf grid ss s d ctx c ND CF C Hs Hd Hp Hc.
  pose proof (create_state_space_facts _ _ _ _ _ C) as F.
  destruct (located_exists _ _ _ _ _ _ _ _ CF F Hs Hd) as [k [r L]].
  apply In_positions in Hc. apply In_nth_error in Hc. destruct Hc as [j Hj].
  destruct (child_lookup _ _ _ _ _ _ _ _ _ _ _ _ ND CF F L Hd Hp Hj)
    as [_ [_ [x [_ [_ [_ [_ M]]]]]]].
  destruct M as [inds [i [_ [_ M]]]]. apply nth_error_In in M. exact M.
Qed.

Lemma construction_iff : forall sp neg k grid,
  let csf := choice_set_of sp (process sp (S k) neg) in
  (forall ctx s, csf ctx s = csf None s) ->
  ((exists ss, create_state_space (sp_nperiods sp) (create_core_state_space sp) csf grid
               = Ok ss) <->
   closed_under_choices (sp_nperiods sp) (create_core_state_space sp) csf).
Proof.
  intros sp neg k grid csf I. split.
  - intros [ss C] ctx s c Hs Hp Hc.
    assert (CF : collision_free (create_core_state_space sp) csf grid).
    { intros vec s1 s2 _ _ _ _ E. rewrite (I (Some vec) s1), (I (Some vec) s2) in E. exact E. }
    assert (D : exists d ctx', dense_combination grid d ctx').
    { destruct grid as [|v grid]; [exists None, None; split; reflexivity|].
      exists (Some 0), (Some v), v. split; reflexivity. }
    destruct D as [d [ctx' D]].
    apply (construction_closed (sp_nperiods sp) _ csf grid ss s d ctx' c); auto.
    + apply core_nodup.
    + rewrite I. rewrite I in Hc. exact Hc.
  - intros CL. apply core_restrictions_ok; auto. apply core_nodup.
Qed.

(** Decides closure of a model whose restrictions do not involve dense variables. *)
Definition closed_check (nperiods : nat) (core : list core_state) (csf : cs_fun) : bool :=
  forallb (fun s => negb (S (cs_period s) <? nperiods) ||
    forallb (fun c => if in_dec core_state_eq_dec (law_of_motion c s) core then true else false)
            (positions (csf None s))) core.

Lemma closed_by_compute : forall nperiods core csf,
  (forall ctx s, csf ctx s = csf None s) -> closed_check nperiods core csf = true ->
  closed_under_choices nperiods core csf.
Proof.
  intros nperiods core csf I H ctx s c Hs Hp Hc.
  unfold closed_check in H. rewrite forallb_forall in H. specialize (H s Hs).
  apply Nat.ltb_lt in Hp. rewrite Hp in H. simpl in H.
  rewrite forallb_forall in H. rewrite I in Hc. apply In_positions in Hc. specialize (H c Hc).
  destruct (in_dec core_state_eq_dec (law_of_motion c s) core); [assumption|discriminate].
Qed.
