(** Proofs about the cache on disk. *)
From Coq Require Import List Arith Bool Lia String Ascii Decimal DecimalNat DecimalString.
From Verif Require Import Base Proof_Base Model_Strings Proof_Strings Model_CoreStateSpace Model_StateSpace
  Proof_StateSpace Proof_Calls Model_Exogenous Model_Cache Spec_Cache.
Import ListNotations.
Open Scope string_scope.

(** ** File names *)

Lemma no_underscore_char : forall s, no_underscore s <-> has_char "_" s = false.
Proof.
  intros s. unfold no_underscore. induction s as [|c s IH].
  - split; [reflexivity|]. intros _ a b E. destruct a; discriminate.
  - cbn [has_char]. rewrite orb_false_iff. split.
    + intros H. split.
      * destruct (Ascii.eqb_spec "_" c) as [<-|N]; [|reflexivity].
        exfalso. apply (H "" s). reflexivity.
      * apply IH. intros a b ->. apply (H (String c a) b). reflexivity.
    + intros [N H] a b E. destruct a as [|x a].
      * cbn in E. inversion E; subst. rewrite Ascii.eqb_refl in N. discriminate.
      * cbn in E. inversion E; subst. exact (proj2 IH H a b eq_refl).
Qed.

Lemma uint_no_underscore : forall u, has_char "_" (NilEmpty.string_of_uint u) = false.
Proof. induction u; cbn; auto. Qed.

Lemma dec_no_underscore : forall n, has_char "_" (dec n) = false.
Proof. intros. apply uint_no_underscore. Qed.

Lemma dec_inj : forall n m, dec n = dec m -> n = m.
Proof.
  intros n m H. unfold dec in H.
  assert (E : Nat.to_uint n = Nat.to_uint m).
  { pose proof (f_equal NilEmpty.uint_of_string H) as E.
    rewrite !NilEmpty.usu in E. inversion E. reflexivity. }
  apply (f_equal Nat.of_uint) in E. rewrite !DecimalNat.Unsigned.of_to in E. exact E.
Qed.

Lemma bits_cons : forall b cs, bits (b :: cs) = String (if b then "1"%char else "0"%char) (bits cs).
Proof.
  intros b cs. unfold bits. cbn [map String.concat].
  destruct (map _ cs) as [|x l] eqn:E.
  - destruct b; reflexivity.
  - destruct b; reflexivity.
Qed.

Lemma bits_no_underscore : forall cs, has_char "_" (bits cs) = false.
Proof. induction cs as [|[|] cs IH]; [reflexivity| |]; rewrite bits_cons; cbn; exact IH. Qed.

Lemma bits_inj : forall a b, bits a = bits b -> a = b.
Proof.
  induction a as [|x a IH]; intros [|y b] H; [reflexivity| | |]; rewrite ?bits_cons in H.
  - discriminate.
  - discriminate.
  - destruct x, y; inversion H; f_equal; auto.
Qed.

Lemma has_char_parquet : has_char "_" ".parquet" = false.
Proof. reflexivity. Qed.

Lemma file_name_inj : forall t t' cx cx', no_underscore t -> no_underscore t' ->
  file_name t cx = file_name t' cx' -> t = t' /\ cx = cx'.
Proof.
  intros t t' [[p cs] d] [[p' cs'] d'] T T' E.
  apply no_underscore_char in T, T'. unfold file_name in E.
  cbn [cx_dense cx_period cx_choice_set fst snd append] in E.
  destruct d as [d|], d' as [d'|].
  - apply split_at_char in E; [|assumption|assumption]. destruct E as [-> E].
    apply split_at_char in E; [|apply dec_no_underscore|apply dec_no_underscore].
    destruct E as [E1 E]. apply dec_inj in E1. subst p'.
    apply split_at_char in E; [|apply bits_no_underscore|apply bits_no_underscore].
    destruct E as [E1 E]. apply bits_inj in E1. subst cs'.
    apply append_inj_r, dec_inj in E. subst. auto.
  - exfalso.
    apply split_at_char in E; [|assumption|assumption]. destruct E as [-> E].
    apply split_at_char in E; [|apply dec_no_underscore|apply dec_no_underscore].
    destruct E as [_ E]. apply (f_equal (has_char "_")) in E.
    rewrite !has_char_append, !bits_no_underscore in E. cbn in E. discriminate.
  - exfalso.
    apply split_at_char in E; [|assumption|assumption]. destruct E as [-> E].
    apply split_at_char in E; [|apply dec_no_underscore|apply dec_no_underscore].
    destruct E as [_ E]. apply (f_equal (has_char "_")) in E.
    rewrite !has_char_append, !bits_no_underscore in E. cbn in E. discriminate.
  - apply split_at_char in E; [|assumption|assumption]. destruct E as [-> E].
    apply split_at_char in E; [|apply dec_no_underscore|apply dec_no_underscore].
    destruct E as [E1 E]. apply dec_inj in E1. subst p'.
    apply append_inj_r, bits_inj in E. subst. auto.
Qed.

(** ** Directories *)

Lemma inside_iff : forall root d, inside root d = true <-> below root d.
Proof.
  unfold below. induction root as [|x root IH]; intros d; cbn.
  - split; [intros _; exists d; reflexivity | reflexivity].
  - destruct d as [|y d]; [split; [discriminate | intros [r E]; discriminate]|].
    destruct (string_dec x y) as [->|N].
    + rewrite IH. split; intros [r E]; exists r; [rewrite E; reflexivity | inversion E; reflexivity].
    + split; [discriminate | intros [r E]; inversion E; congruence].
Qed.

Lemma below_refl : forall d, below d d.
Proof. intros d. exists []. rewrite app_nil_r. reflexivity. Qed.

Lemma In_prefixes_self : forall d, In d (prefixes d).
Proof. induction d as [|x d IH]; cbn; [auto|]. right. apply in_map. exact IH. Qed.

Lemma mkdir_exists : forall d k, In d (dk_dirs (mkdir d k)).
Proof.
  intros d k. unfold mkdir. cbn [dk_dirs]. apply in_or_app.
  destruct (in_dec dir_eq_dec d (dk_dirs k)) as [I|N]; [left; exact I|]. right.
  apply filter_In. split; [apply In_prefixes_self|].
  destruct (in_dec dir_eq_dec d (dk_dirs k)); [contradiction | reflexivity].
Qed.

Lemma mkdir_keeps : forall d k e, In e (dk_dirs k) -> In e (dk_dirs (mkdir d k)).
Proof. intros. unfold mkdir. cbn [dk_dirs]. apply in_or_app. left. assumption. Qed.

Lemma get_filter : forall K V (eqd : forall x y : K, {x = y} + {x <> y}) (p : K * V -> bool) (q : K -> bool) l k,
  (forall x, p x = q (fst x)) -> q k = true ->
  dict_get eqd k (filter p l) = dict_get eqd k l.
Proof.
  intros K V eqd p q l k P Q. induction l as [|[a b] l IH]; [reflexivity|]. cbn [filter].
  rewrite P. cbn [fst]. cbn [dict_get]. destruct (eqd k a) as [<-|N].
  - rewrite Q. cbn [dict_get]. destruct (eqd k k); congruence.
  - destruct (q a); [|exact IH]. cbn [dict_get]. destruct (eqd k a); [contradiction|exact IH].
Qed.

Lemma prepare_keeps : forall d k f, outside d f ->
  dict_get file_eq_dec f (dk_files (prepare_cache_directory d k)) = dict_get file_eq_dec f (dk_files k).
Proof.
  intros d k f O. unfold prepare_cache_directory, mkdir. cbn [dk_files].
  destruct (in_dec dir_eq_dec d (dk_dirs k)); [|reflexivity].
  cbn [rmtree dk_files].
  apply (get_filter _ _ _ _ (fun f => negb (inside d (fst f)))); [reflexivity|].
  apply negb_true_iff. destruct (inside d (fst f)) eqn:E; [|reflexivity].
  apply inside_iff in E. contradiction.
Qed.

Lemma prepare_keeps_dir : forall d k e, In e (dk_dirs k) -> ~ below d e ->
  In e (dk_dirs (prepare_cache_directory d k)).
Proof.
  intros d k e I N. unfold prepare_cache_directory. apply mkdir_keeps.
  destruct (in_dec dir_eq_dec d (dk_dirs k)); [|exact I]. cbn [rmtree dk_dirs].
  apply filter_In. split; [exact I|]. apply negb_true_iff.
  destruct (inside d e) eqn:E; [|reflexivity]. apply inside_iff in E. contradiction.
Qed.

(** ** Dumping and loading *)

Lemma dump_all_spec : forall d l k, In d (dk_dirs k) ->
  exists k', dump_all d l k = Ok k' /\ dk_dirs k' = dk_dirs k /\
    (forall f, (forall n c, In (n, c) l -> f <> (d, n)) ->
       dict_get file_eq_dec f (dk_files k') = dict_get file_eq_dec f (dk_files k)) /\
    (NoDup (map fst l) -> forall n c, In (n, c) l ->
       dict_get file_eq_dec (d, n) (dk_files k') = Some c).
Proof.
  intros d. induction l as [|[n c] l IH]; intros k D.
  - exists k. split; [reflexivity|]. split; [reflexivity|]. split; [auto|]. intros _ n c [].
  - cbn [dump_all]. unfold dump at 1. destruct (in_dec dir_eq_dec d (dk_dirs k)); [|contradiction].
    cbn [result_bind].
    destruct (IH (mkDisk (dk_dirs k) (dict_set file_eq_dec (d, n) c (dk_files k))) D)
      as [k' [E [DD [O S]]]].
    exists k'. split; [exact E|]. split; [exact DD|]. cbn [dk_files] in *. split.
    + intros f H. rewrite O.
      * apply dict_get_set_other. apply (H n c). left. reflexivity.
      * intros n' c' I. apply (H n' c'). right. exact I.
    + intros ND n' c' [I|I].
      * inversion I; subst. rewrite O; [apply dict_get_set_same|].
        intros n2 c2 I2 F. inversion F; subst. cbn in ND. inversion ND; subst.
        apply H1. apply in_map_iff. exists (n2, c2). auto.
      * apply S; [|exact I]. cbn in ND. inversion ND; assumption.
Qed.

(** ** Keys of the state space *)

Definition consistent (ss : state_space) : Prop :=
  map fst (ss_files ss) = map fst (ss_dpc ss) /\ NoDup (map fst (ss_files ss)).

Lemma dict_update_keys_congr : forall K V W (eqd : forall x y : K, {x = y} + {x <> y})
  (l : list (K * V)) (l' : list (K * W)) d d',
  map fst l = map fst l' -> dict_keys d = dict_keys d' ->
  dict_keys (dict_update eqd d l) = dict_keys (dict_update eqd d' l').
Proof.
  intros K V W eqd. unfold dict_update.
  induction l as [|[k v] l IH]; intros [|[k' v'] l'] d d' E D; cbn in E; try discriminate.
  - exact D.
  - inversion E; subst. cbn [fold_left fst snd]. apply IH; [assumption|].
    rewrite !dict_keys_set, D. reflexivity.
Qed.

Lemma dpc_consistent : forall core csf grid acc,
  create_dense_period_choice core csf grid (core_key_to_complex core csf)
    (core_key_to_core_indices core csf) = Ok acc ->
  dict_keys (snd acc) = dict_keys (fst acc) /\ NoDup (dict_keys (snd acc)).
Proof.
  intros core csf grid acc H. unfold create_dense_period_choice in H.
  destruct grid as [|g grid].
  - injection H as <-. cbn [fst snd]. split; [|apply NoDup_keys_update; constructor].
    apply dict_update_keys_congr; [|reflexivity].
    set (keys := core_key_to_complex core csf). unfold core_key_to_core_indices. fold keys.
    assert (G : forall l n, (forall i, i < List.length l -> n + i < List.length keys) ->
      map fst (flat_map (fun p : complex * nat =>
                 match nth_error (map (group_indices core csf) keys) (snd p) with
                 | Some g => [(fst p, (rows core g, @None (list nat)))]
                 | None => []
                 end)
              (map (fun p : nat * ckey => ((fst (snd p), snd (snd p), None), fst p)) (enumerate_from n l)))
      = map fst (map (fun p : nat * ckey => ((fst (snd p), snd (snd p), @None nat), fst p)) (enumerate_from n l))).
    { induction l as [|x l IH]; intros n B; [reflexivity|].
      cbn [enumerate_from map flat_map fst snd].
      assert (L : n < List.length keys) by (specialize (B 0 ltac:(cbn; lia)); lia).
      destruct (nth_error (map (group_indices core csf) keys) n) as [gr|] eqn:E.
      2: { apply nth_error_None in E. rewrite map_length in E. lia. }
      rewrite map_app. etransitivity; [|apply (f_equal (cons (fst x, snd x, None)))]; [reflexivity|].
      apply IH. intros i I. specialize (B (S i) ltac:(cbn; lia)). lia. }
    apply G. intros i I. exact I.
  - set (P := fun acc : dpc_acc => dict_keys (snd acc) = dict_keys (fst acc) /\ NoDup (dict_keys (snd acc))).
    change (P acc). eapply (fold_result_invariant _ _ P); [|clear H|exact H].
    + split; [reflexivity | constructor].
    + intros [d vec] a a' _ Ha E.
      eapply (fold_result_invariant _ _ P); [exact Ha|clear E|exact E].
      intros c b b' _ Hb E. unfold dense_period_choice_step in E.
      destruct (nth_error (core_key_to_complex core csf) c) as [k|] eqn:Ek; [|discriminate].
      destruct (nth_error (core_key_to_core_indices core csf) c) as [inds|]; [|discriminate].
      destruct (group_choice_set csf _ _) as [cs| | | | |]; try discriminate. cbn [result_bind] in E.
      injection E as <-. destruct Hb as [Hb1 Hb2]. split; cbn [fst snd].
      * rewrite !dict_keys_set, Hb1. reflexivity.
      * apply NoDup_keys_set. exact Hb2.
Qed.

Lemma created_consistent : forall m, created m -> consistent (cm_ss m).
Proof.
  intros m [nperiods [core [csf [grid [H|[levels H]]]]]].
  - assert (F := create_state_space_facts _ _ _ _ _ H).
    apply (dpc_consistent core csf grid (ss_dpc (cm_ss m), ss_files (cm_ss m))).
    exact (sf_dpc _ _ _ _ _ F).
  - unfold create_state_space_exog in H.
    destruct (create_dense_period_choice _ _ _ _ _) as [acc| | | | |] eqn:D; try discriminate.
    cbn [result_bind] in H.
    destruct (result_all (map (transit_keys _ _ _) _)) as [transits| | | | |]; try discriminate.
    cbn [result_bind] in H.
    destruct (transit_choice_sets _ _) as [transit| | | | |]; try discriminate.
    cbn [result_bind] in H.
    destruct (result_all _) as [child| | | | |]; try discriminate.
    cbn [result_bind] in H. injection H as <-.
    apply (dpc_consistent core csf grid acc D).
Qed.

(** ** Histories *)

(** The states of [m] are on disk. *)
Definition stored (m : cached_model) (k : disk) : Prop :=
  In (cm_dir m) (dk_dirs k) /\
  forall cx f, In (cx, f) (ss_files (cm_ss m)) ->
    dict_get file_eq_dec (cm_dir m, file_name "states" cx) (dk_files k) = Some (States f).

Lemma states_topic : no_underscore "states".
Proof. apply no_underscore_char. reflexivity. Qed.
Lemma transition_topic : no_underscore "transition".
Proof. apply no_underscore_char. reflexivity. Qed.

Lemma NoDup_map_inj : forall A B (f : A -> B) l, (forall x y, f x = f y -> x = y) -> NoDup l -> NoDup (map f l).
Proof.
  intros A B f l I. induction 1 as [|x l H N IH]; cbn; constructor; [|exact IH].
  intros J. apply in_map_iff in J. destruct J as [y [E J]]. apply I in E. subst. contradiction.
Qed.

Lemma create_stores : forall m k, consistent (cm_ss m) ->
  exists k', create_on_disk m k = Ok k' /\ stored m k'.
Proof.
  intros m k [_ ND]. unfold create_on_disk.
  set (l := map _ (ss_files (cm_ss m))).
  destruct (dump_all_spec (cm_dir m) l (prepare_cache_directory (cm_dir m) k))
    as [k' [E [D [_ S]]]].
  { apply mkdir_exists. }
  exists k'. split; [exact E|]. split.
  - rewrite D. apply mkdir_exists.
  - intros cx f I. apply S.
    + unfold l. rewrite map_map. cbn [fst].
      rewrite <- (map_map fst (file_name "states")). apply NoDup_map_inj; [|exact ND].
      intros x y Exy. apply (file_name_inj _ _ _ _ states_topic states_topic Exy).
    + apply in_map_iff. exists (cx, f). auto.
Qed.

Lemma create_preserves : forall m m' k k', consistent (cm_ss m') -> ~ below (cm_dir m') (cm_dir m) ->
  stored m k -> create_on_disk m' k = Ok k' -> stored m k'.
Proof.
  intros m m' k k' C N [D S] E. unfold create_on_disk in E.
  destruct (dump_all_spec (cm_dir m')
    (map (fun p => (file_name "states" (fst p), States (snd p))) (ss_files (cm_ss m')))
    (prepare_cache_directory (cm_dir m') k)) as [k2 [E2 [D2 [O _]]]].
  { apply mkdir_exists. }
  rewrite E2 in E. inversion E; subst. split.
  - rewrite D2. apply prepare_keeps_dir; assumption.
  - intros cx f I. rewrite O.
    + rewrite prepare_keeps; [apply S; exact I | exact N].
    + intros n c _ F. inversion F. apply N. rewrite H0. apply below_refl.
Qed.

Lemma load_all : forall m k, stored m k -> consistent (cm_ss m) ->
  loaded_state_space m k = Ok (cm_ss m).
Proof.
  intros m k [D S] [EK _]. unfold loaded_state_space. rewrite <- EK.
  assert (G : result_all (map (load_states m k) (map fst (ss_files (cm_ss m)))) = Ok (ss_files (cm_ss m))).
  { revert S. generalize (ss_files (cm_ss m)). induction l as [|[cx f] l IH]; intros S; [reflexivity|].
    cbn [map result_all fst]. unfold load_states at 1, load.
    rewrite (S cx f) by (left; reflexivity). cbn [result_bind].
    rewrite IH by (intros; apply S; right; assumption). reflexivity. }
  rewrite G. cbn [result_bind]. unfold with_files. destruct (cm_ss m); reflexivity.
Qed.

Lemma call_preserves : forall A m m' trans (f : state_space -> result A) k,
  stored m k -> stored m (fst (call_on_disk m' trans f k)).
Proof.
  intros A m m' trans f k [D S]. unfold call_on_disk.
  destruct (loaded_state_space m' k) as [ss| | | | |]; try (split; assumption).
  destruct trans as [t|]; [|split; assumption].
  destruct (in_dec dir_eq_dec (cm_dir m') (dk_dirs k)) as [I|N].
  - destruct (dump_all_spec (cm_dir m')
      (map (fun cx => (file_name "transition" cx, Other (t cx))) (map fst (ss_dpc ss))) k I)
      as [k2 [E2 [D2 [O _]]]].
    rewrite E2. cbn [fst]. split; [rewrite D2; exact D|].
    intros cx g J. rewrite O; [apply S; exact J|].
    intros n c L F. inversion F; subst. apply in_map_iff in L. destruct L as [cx' [L _]].
    inversion L. apply file_name_inj in H1; [|apply transition_topic | apply states_topic].
    destruct H1 as [H1 _]. discriminate.
  - destruct (map (fun cx => (file_name "transition" cx, Other (t cx))) (map fst (ss_dpc ss)))
      as [|[n c] l]; [split; assumption|].
    cbn [dump_all]. unfold dump. destruct (in_dec dir_eq_dec (cm_dir m') (dk_dirs k)); [contradiction|].
    split; assumption.
Qed.

Lemma call_result : forall A m trans (f : state_space -> result A) k,
  stored m k -> consistent (cm_ss m) -> snd (call_on_disk m trans f k) = f (cm_ss m).
Proof.
  intros A m trans f k S C. unfold call_on_disk. rewrite (load_all m k S C).
  destruct trans as [t|]; [|reflexivity]. destruct S as [D S].
  destruct (dump_all_spec (cm_dir m)
      (map (fun cx => (file_name "transition" cx, Other (t cx))) (map fst (ss_dpc (cm_ss m)))) k D)
      as [k2 [E2 _]].
  rewrite E2. reflexivity.
Qed.

Section Histories.
  Variable ms : list cached_model.
  Hypothesis CR : forall m, In m ms -> created m.

  Lemma events_run : forall es k, (forall e, In e es -> event_model e < List.length ms) ->
    exists k', run_events ms es k = Ok k'.
  Proof.
    induction es as [|e es IH]; intros k B; cbn; [eexists; reflexivity|].
    assert (B0 := B e (or_introl eq_refl)).
    assert (E : exists k1, run_event ms e k = Ok k1).
    { destruct e as [i|i t]; cbn in *.
      - destruct (nth_error ms i) as [m|] eqn:E; [|apply nth_error_None in E; lia].
        destruct (create_stores m k) as [k' [Ek _]].
        { apply created_consistent, CR. eapply nth_error_In; eauto. }
        eauto.
      - destruct (nth_error ms i) as [m|] eqn:E; [eauto|apply nth_error_None in E; lia]. }
    destruct E as [k1 ->]. cbn. apply IH. intros e' I. apply B. right. exact I.
  Qed.

  Lemma events_preserve : forall es m i k k', nth_error ms i = Some m -> stored m k ->
    (forall j m', In (Create j) es -> nth_error ms j = Some m' -> j <> i ->
       ~ below (cm_dir m') (cm_dir m)) ->
    run_events ms es k = Ok k' -> stored m k'.
  Proof.
    induction es as [|e es IH]; intros m i k k' Hi S N E; cbn in E; [inversion E; subst; exact S|].
    destruct (run_event ms e k) as [k1| | | | |] eqn:E1; try discriminate. cbn in E.
    eapply (IH m i k1 k'); [exact Hi| | |exact E].
    - destruct e as [j|j t]; cbn in E1.
      + destruct (nth_error ms j) as [m'|] eqn:Ej; [|discriminate].
        assert (C' : consistent (cm_ss m')) by (apply created_consistent, CR; eapply nth_error_In; eauto).
        destruct (Nat.eq_dec j i) as [->|D].
        * assert (m' = m) by congruence. subst m'.
          destruct (create_stores m k C') as [k2 [E2 S2]]. congruence.
        * eapply create_preserves; eauto. apply (N j m'); auto. left. reflexivity.
      + destruct (nth_error ms j) as [m'|] eqn:Ej; [|discriminate]. inversion E1; subst.
        apply call_preserves. exact S.
    - intros j m' I. apply N. right. exact I.
  Qed.

  Lemma run_events_app : forall a b k, run_events ms (a ++ b) k =
    result_bind (run_events ms a k) (run_events ms b).
  Proof.
    induction a as [|e a IH]; intros b k; cbn; [reflexivity|].
    destruct (run_event ms e k); cbn; auto.
  Qed.

  Lemma undisturbed : forall before after i m k,
    nth_error ms i = Some m ->
    (forall e, In e (before ++ Create i :: after) -> event_model e < List.length ms) ->
    (forall j m', In (Create j) after -> nth_error ms j = Some m' -> j <> i ->
       ~ below (cm_dir m') (cm_dir m)) ->
    exists k', run_events ms (before ++ Create i :: after) k = Ok k' /\
      forall A trans (f : state_space -> result A), snd (call_on_disk m trans f k') = f (cm_ss m).
  Proof.
    intros before after i m k Hi B N.
    destruct (events_run _ k B) as [k' E]. exists k'. split; [exact E|]. intros A trans f.
    assert (C : consistent (cm_ss m)) by (apply created_consistent, CR; eapply nth_error_In; eauto).
    apply call_result; [|exact C].
    rewrite run_events_app in E. destruct (run_events ms before k) as [k1| | | | |]; try discriminate.
    cbn [result_bind run_events] in E. cbn [run_event] in E. rewrite Hi in E.
    destruct (create_stores m k1 C) as [k2 [E2 S2]]. rewrite E2 in E. cbn [result_bind] in E.
    eapply events_preserve; eauto.
  Qed.

  Lemma separate : forall es i m k,
    nth_error ms i = Some m -> In (Create i) es ->
    (forall e, In e es -> event_model e < List.length ms) ->
    (forall j m', nth_error ms j = Some m' -> j <> i -> ~ below (cm_dir m') (cm_dir m)) ->
    exists k', run_events ms es k = Ok k' /\
      forall A trans (f : state_space -> result A), snd (call_on_disk m trans f k') = f (cm_ss m).
  Proof.
    intros es i m k Hi I B N. apply in_split in I. destruct I as [l1 [l2 ->]].
    apply undisturbed with (i := i); auto. intros j m' _. apply N.
  Qed.
End Histories.
