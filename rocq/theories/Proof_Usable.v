(** Proofs about the data sets with which a model can be estimated. *)
From Coq Require Import List Arith ZArith Bool String Reals Lia Permutation.
From Verif Require Import Base Proof_Base Model_CoreStateSpace Spec_CoreStateSpace Proof_CoreStateSpace Model_StateSpace Spec_StateSpace
  Proof_StateSpace Proof_DenseGrid Model_Choices Model_Processing Spec_Processing Proof_ProcessingChecks Proof_Labels Model_Parallel Proof_Parallel Model_Solve Proof_Solve
  Model_Simulate Model_Dataset Spec_Dataset Proof_Dataset Proof_DatasetEstimation Proof_DatasetMeaning.
From Verif Require Import Model_Data Spec_Data Proof_Data Proof_DataCheck Spec_Usable.
Import ListNotations.
Open Scope list_scope.
Open Scope nat_scope.

Lemma us_nth : forall A (l : list (option A)) i v, nth i l None = Some v <-> nth_error l i = Some (Some v).
Proof.
  induction l as [|x l IH]; intros [|i] v; simpl; split; try discriminate; try congruence; apply IH.
Qed.

Lemma us_sum0 : forall l, list_sum l <= 0 -> forall i, nth i l 0 = 0.
Proof.
  induction l as [|x l IH]; intros H [|i]; simpl in *; try reflexivity; try lia. apply IH. lia.
Qed.

Lemma us_vec_nth : forall a b i x, nth_error (vec_add a b) i = Some x -> 
  exists y z, nth_error a i = Some y /\ nth_error b i = Some z /\ x = y + z.
Proof.
  induction a as [|y a IH]; intros [|z b] [|i] x H; simpl in *; try discriminate.
  - injection H as <-. eauto.
  - apply IH in H. exact H.
Qed.

Lemma us_zip : forall A B (P : A -> B -> Prop) (l : list B) (f : nat -> option A),
  (forall i b, nth_error l i = Some b -> exists a, f i = Some a /\ P a b) ->
  exists xs, Forall2 P xs l /\ forall i a, nth_error xs i = Some a -> f i = Some a.
Proof.
  intros A B P. induction l as [|b l IH]; intros f H.
  - exists []. split; [constructor|]. intros [|i] a; discriminate.
  - destruct (H 0 b eq_refl) as [a [Ha Pa]]. destruct (IH (fun i => f (S i))) as [xs [X1 X2]].
    { intros i c Hc. apply (H (S i) c Hc). }
    exists (a :: xs). split; [constructor; assumption|]. intros [|i] a' E; simpl in E; [congruence|]. apply X2. exact E.
Qed.

Lemma us_len : forall A B (P : A -> B -> Prop) l m, Forall2 P l m -> List.length l = List.length m.
Proof. intros A B P l m H. induction H; simpl; congruence. Qed.

Lemma us_nodup : forall A n (l : list A), NoDup l -> NoDup (firstn n l).
Proof.
  intros A n l H. revert n. induction H as [|x l I H IH]; intros [|n]; simpl; constructor; try apply IH.
  intros X. apply I. rewrite <- (firstn_skipn n l). apply in_or_app. left. exact X.
Qed.

(** Experience is an initial level and the experience gained since. *)
Lemma us_gains : forall sp lb data, List.length (sp_starts sp) = lb_nexp lb -> NoDup (lb_choices lb) -> lb_nexp lb <= List.length (lb_choices lb) ->
  complete_panel (info_of lb) data -> experience_follows (info_of lb) data ->
  (forall r, In r data -> r_period r = 0%Z -> declared_start sp r) ->
  forall t r, In r data -> r_period r = Z.of_nat t ->
  exists init gain, Forall2 (fun x levels => In x levels) init (sp_starts sp) /\ List.length gain = List.length (sp_starts sp) /\
    list_sum gain <= t /\
    forall j e, nth_error (vec_add init gain) j = Some e -> nth_error (r_exps r) j = Some (Some (Z.of_nat e)).
Proof.
  intros sp lb data LE ND LC CP EF DS. induction t as [|t IH]; intros r Hr Hp.
  - destruct (us_zip nat (list nat) (fun x levels => In x levels) (sp_starts sp)
      (fun i => match nth_error (r_exps r) i with Some (Some z) => Some (Z.to_nat z) | _ => None end)) as [init [I1 I2]].
    { intros i levels H. destruct (DS r Hr Hp i levels H) as [e [E1 E2]]. exists e. rewrite E2, Nat2Z.id. auto. }
    exists init, (repeat 0 (List.length (sp_starts sp))). split; [exact I1|]. split; [apply repeat_length|].
    split.
    { clear. induction (List.length (sp_starts sp)); simpl; lia. }
    intros j e H. apply us_vec_nth in H. destruct H as [y [z [Hy [Hz ->]]]].
    apply nth_error_In in Hz. apply repeat_spec in Hz. subst z. rewrite Nat.add_0_r.
    assert (exists levels, nth_error (sp_starts sp) j = Some levels) as [levels Hl].
    { destruct (nth_error (sp_starts sp) j) eqn:Q; [eauto|]. exfalso. apply nth_error_None in Q.
      pose proof (us_len _ _ _ _ _ I1). assert (j < List.length init) by (apply nth_error_Some; congruence). lia. }
    destruct (DS r Hr Hp j levels Hl) as [e [E1 E2]]. specialize (I2 j y Hy). rewrite E2 in *. rewrite Nat2Z.id in I2. congruence.
  - destruct CP as [_ [C2 _]]. destruct (C2 r Hr) as [k [_ K]].
    assert (K1 : (0 <= r_period r <= k)%Z) by (apply K; exists r; auto).
    destruct (proj2 (K (Z.of_nat t))) as [q [Hq [Hi Hqp]]]; [lia|].
    assert (NP : next_period data q r) by (repeat split; auto; lia).
    destruct (IH q Hq Hqp) as [init [gain [I1 [I2 [I3 I4]]]]].
    assert (EXP : i_exp_choices (info_of lb) = firstn (lb_nexp lb) (lb_choices lb)) by reflexivity.
    assert (NDf : NoDup (i_exp_choices (info_of lb))).
    { rewrite EXP. apply us_nodup. exact ND. }
    assert (Hn : forall j, j < lb_nexp lb -> exists c, nth_error (i_exp_choices (info_of lb)) j = Some c).
    { intros j Hj. destruct (nth_error (i_exp_choices (info_of lb)) j) eqn:Q; [eauto|]. apply nth_error_None in Q.
      rewrite EXP, firstn_length in Q. lia. }
    assert (CH : (exists k, forall j c, nth_error (i_exp_choices (info_of lb)) j = Some c -> (r_choice q = Some c <-> j = k))).
    { destruct (r_choice q) as [c|].
      - destruct (in_dec string_dec c (i_exp_choices (info_of lb))) as [I|I].
        + apply In_nth_error in I. destruct I as [a Ha]. exists a. intros j d Hd. split.
          * intros E. injection E as ->. rewrite NoDup_nth_error in NDf. apply NDf; [apply nth_error_Some; congruence|congruence].
          * intros ->. congruence.
        + exists (List.length (i_exp_choices (info_of lb))). intros j d Hd. split.
          * intros E. injection E as ->. apply nth_error_In in Hd. contradiction.
          * intros ->. assert (X : List.length (i_exp_choices (info_of lb)) < List.length (i_exp_choices (info_of lb))) by (apply nth_error_Some; congruence). lia.
      - exists (List.length (i_exp_choices (info_of lb))). intros j d Hd. split; [discriminate|].
        intros ->. assert (X : List.length (i_exp_choices (info_of lb)) < List.length (i_exp_choices (info_of lb))) by (apply nth_error_Some; congruence). lia. }
    destruct CH as [a CH].
    exists init, (bump_exp a gain). split; [exact I1|]. split; [rewrite length_bump_exp; exact I2|].
    split; [pose proof (sum_bump_exp_le a gain); lia|].
    intros j e H. rewrite <- bump_vec_add, nth_error_bump_exp in H.
    destruct (nth_error (vec_add init gain) j) as [e0|] eqn:E0; [|discriminate].
    specialize (I4 j e0 E0).
    assert (Hj : j < lb_nexp lb).
    { apply us_vec_nth in E0. destruct E0 as [y [z [_ [Hz _]]]]. rewrite <- LE, <- I2. apply nth_error_Some. congruence. }
    destruct (Hn j Hj) as [c Hc]. destruct (EF q r j c NP Hc) as [e1 [X1 [X2 X3]]].
    rewrite X1 in I4. injection I4 as ->.
    simpl in H. destruct (Nat.eqb_spec a j) as [J|J]; [symmetry in J|].
    + rewrite X2 by (apply (CH j c Hc); exact J). injection H as <-. do 2 f_equal. lia.
    + rewrite X3 by (intros Q; apply J; symmetry; apply (CH j c Hc); exact Q). injection H as <-. do 2 f_equal. lia.
Qed.

Lemma us_labels : forall sp grid nw lb, labelled sp grid nw lb -> proper_labels lb.
Proof.
  intros sp grid nw lb LA. constructor.
  - split; [exact (la_names _ _ _ _ LA)|]. rewrite (la_choices _ _ _ _ LA). exact (la_few _ _ _ _ LA).
  - intros l Hl. destruct (la_levels _ _ _ _ LA l Hl) as [A [_ B]]. auto.
Qed.

Lemma us_obs : forall lb df c t, In c df -> (lb_ntypes lb < 2 \/ t < lb_ntypes lb) ->
  In (cd_core (snd c), cd_obs (snd c) ++ (if Nat.leb 2 (lb_ntypes lb) then [t] else [])) (for_each_type (lb_ntypes lb) df).
Proof.
  intros lb df c t Hc Ht. unfold for_each_type. destruct (Nat.leb_spec 2 (lb_ntypes lb)).
  - apply in_flat_map. exists t. split; [apply in_seq; lia|]. apply in_map_iff. exists c. auto.
  - rewrite app_nil_r. apply in_map_iff. exists c. auto.
Qed.
Lemma us_obs_inv : forall lb df s d, In (s, d) (for_each_type (lb_ntypes lb) df) ->
  exists c t, In c df /\ s = cd_core (snd c) /\ d = cd_obs (snd c) ++ (if Nat.leb 2 (lb_ntypes lb) then [t] else []) /\
    (2 <= lb_ntypes lb -> t < lb_ntypes lb).
Proof.
  intros lb df s d H. unfold for_each_type in H. destruct (Nat.leb_spec 2 (lb_ntypes lb)).
  - apply in_flat_map in H. destruct H as [t [Ht H]]. apply in_seq in Ht. apply in_map_iff in H. destruct H as [c [E H]].
    injection E as <- <-. exists c, t. repeat split; auto. lia.
  - apply in_map_iff in H. destruct H as [c [E H]]. injection E as <- <-. exists c, 0. rewrite app_nil_r. repeat split; auto. lia.
Qed.

Lemma usable_iff : forall sp csf grid ss nw lb categories data,
  wf_spec sp -> sp_nlags sp <= 1 -> sp_filters sp = [] -> labelled sp grid nw lb ->
  collision_free (create_core_state_space sp) csf grid ->
  create_state_space (sp_nperiods sp) (create_core_state_space sp) csf grid = Ok ss ->
  individuals_in_order data -> in_order data ->
  categories 1 = categories 0 -> incl (lb_choices lb) (categories 0) ->
  (forall r, In r data -> numbers_are_levels lb r) ->
  ((exists out, prepare_estimation lb sp csf grid categories data = Ok out) <->
   values_ok (info_of lb) data /\ complete_panel (info_of lb) data /\ experience_follows (info_of lb) data /\
   (forall r, In r data -> known_levels lb r) /\
   (forall r, In r data -> r_period r = 0%Z -> declared_start sp r) /\
   (forall r, In r data -> below_maximum sp r)).
Proof.
  intros sp csf grid ss nw lb categories data WF NL NF LA CF CR IO O CA IN NUM.
  pose proof (us_labels _ _ _ _ LA) as PL.
  assert (LS : List.length (sp_starts sp) = lb_nexp lb).
  { rewrite (la_exp _ _ _ _ LA). apply WF. }
  assert (LC : lb_nexp lb <= List.length (lb_choices lb)).
  { rewrite <- LS, (la_choices _ _ _ _ LA). apply WF. }
  assert (LG : i_lags (info_of lb) <= 1) by (cbn; rewrite (la_lags _ _ _ _ LA); exact NL).
  split.
  - intros [out H].
    assert (NN : forall r, In r data -> (0 <= r_period r)%Z).
    { intros r Hr. destruct (Z_lt_le_dec (r_period r) 0) as [B|B]; [|exact B]. exfalso.
      refine (estimation_rejected lb sp csf grid categories data r Hr _ out H). right. right. right. left. exact B. }
    unfold prepare_estimation in H. apply bind_Ok in H. destruct H as [[] [H1 H]]. apply bind_Ok in H. destruct H as [df [H2 H]].
    apply bind_Ok in H. destruct H as [l [H3 _]].
    apply (accepted_iff (info_of lb) categories data NN IO O CA IN) in H1. destruct H1 as [V [C [E _]]].
    split; [exact V|]. split; [exact C|]. split; [exact E|].
    destruct (data_meaning lb data df PL NUM H2) as [rows [F P]].
    assert (ROW : forall r, In r data -> exists c, same_meaning lb r c /\ In (cd_core (snd c)) (create_core_state_space sp)).
    { intros r Hr. assert (exists c, same_meaning lb r c /\ In c rows) as [c [Sm Hc]].
      { clear - F Hr. induction F as [|a b data rows Hab F IH]; [destruct Hr|]. destruct Hr as [<-|Hr].
        - exists b. split; [exact Hab|left; reflexivity].
        - destruct (IH Hr) as [c [A B]]. exists c. split; [exact A|right; exact B]. }
      exists c. split; [exact Sm|].
      destruct (locate_data_iff sp csf grid ss (for_each_type (lb_ntypes lb) df) CF CR) as [LI _].
      assert (X : exists x, locate_data sp csf grid (for_each_type (lb_ntypes lb) df) = Ok x) by eauto.
      destruct (proj1 LI X _ _ (us_obs lb df c 0 (Permutation_in _ P Hc) ltac:(lia))) as [A _]. exact A. }
    split; [|split].
    + intros r Hr i levels Hl. destruct (ROW r Hr) as [c [Sm _]]. destruct (me_obs _ _ _ Sm) as [_ M].
      destruct (M i levels Hl) as [v [code [M1 [_ M2]]]]. exists v. split; [apply (nth_error_In _ _ M2)|apply us_nth; exact M1].
    + intros r Hr Hp j levels Hl. destruct (ROW r Hr) as [c [Sm HC]].
      apply (core_exact sp _ WF NL) in HC. destruct HC as [_ [_ [init [gain [G1 [G2 [G3 [G4 _]]]]]]]].
      destruct (me_period _ _ _ Sm) as [P1 P2]. rewrite P2 in G3.
      assert (Z0 : snd (fst c) = 0) by lia. rewrite Z0 in G3.
      assert (Hj : j < lb_nexp lb) by (rewrite <- LS; apply nth_error_Some; congruence).
      destruct (me_exps _ _ _ Sm) as [_ M]. destruct (M j Hj) as [e [M1 M2]].
      rewrite G4 in M1. apply us_vec_nth in M1. destruct M1 as [y [z [Hy [Hz ->]]]].
      assert (z = 0) by (rewrite <- (us_sum0 gain G3 j); symmetry; apply nth_error_nth; exact Hz). subst z.
      exists y. split; [|apply us_nth; rewrite M2; do 2 f_equal; lia].
      apply (proj1 (Forall2_nth_error _ _ _ _ _)) in G1. destruct G1 as [_ G1]. exact (G1 j y levels Hy Hl).
    + intros r Hr j m Hm. destruct (ROW r Hr) as [c [Sm HC]].
      apply (core_exact sp _ WF NL) in HC. destruct HC as [_ [_ [init [gain [_ [_ [_ [_ [G _]]]]]]]]].
      assert (Hj : j < lb_nexp lb) by (rewrite (la_exp _ _ _ _ LA); apply nth_error_Some; congruence).
      destruct (me_exps _ _ _ Sm) as [_ M]. destruct (M j Hj) as [e [M1 M2]].
      exists (Z.of_nat e). split; [apply us_nth; exact M2|].
      apply (proj1 (Forall2_nth_error _ _ _ _ _)) in G. destruct G as [_ G]. specialize (G j e m M1 Hm). lia.
  - intros [V [C [E [KL [DS BM]]]]].
    assert (NN : forall r, In r data -> (0 <= r_period r < Z.of_nat (sp_nperiods sp))%Z /\ (0 <= r_id r)%Z).
    { intros r Hr. destruct C as [[n C1] [C2 _]]. destruct (C2 r Hr) as [k [K1 K]]. cbn in K1. rewrite (la_periods _ _ _ _ LA) in K1.
      assert (0 <= r_period r <= k)%Z by (apply K; exists r; auto).
      assert (0 <= r_id r < n)%Z by (apply C1; exists r; auto). lia. }
    assert (CHK : check_estimation_data (info_of lb) categories data = Ok tt).
    { apply accepted_iff; auto.
      - intros r Hr. apply NN. exact Hr.
      - split; [exact V|]. split; [exact C|]. split; [exact E|]. split; intros B; exfalso; lia. }
    assert (GA : forall r, In r data -> exists init gain, Forall2 (fun x levels => In x levels) init (sp_starts sp) /\
      List.length gain = List.length (sp_starts sp) /\ list_sum gain <= Z.to_nat (r_period r) /\
      forall j e, nth_error (vec_add init gain) j = Some e -> nth_error (r_exps r) j = Some (Some (Z.of_nat e))).
    { intros r Hr. apply (us_gains sp lb data LS (proj1 (pl_choices _ PL)) LC C E DS (Z.to_nat (r_period r)) r Hr).
      destruct (NN r Hr). lia. }
    assert (VL : forall init gain, Forall2 (fun (x : nat) (levels : list nat) => In x levels) init (sp_starts sp) ->
      List.length gain = List.length (sp_starts sp) -> List.length (vec_add init gain) = lb_nexp lb).
    { intros init gain A B. unfold vec_add. rewrite map_length, combine_length. rewrite (us_len _ _ _ _ _ A), B, LS. lia. }
    assert (PR : forall r, In r data -> exists c, process_row lb r = Ok c).
    { intros r Hr. destruct V as [V _]. destruct (V r Hr) as [[ch [V1 V1']] [_ [V2 [V3 V4]]]]. destruct (NN r Hr) as [[N1 _] N2].
      destruct (GA r Hr) as [init [gain [G1 [G2 [_ G4]]]]].
      assert (CC : forall name, In name (lb_choices lb) -> exists i, coded_choice lb (Some name) = Ok i).
      { intros name I. apply In_nth_error in I. destruct I as [i Hi]. exists i. apply coded_label; [apply PL|apply PL|exact Hi]. }
      unfold process_row. unfold natural at 1. rewrite (proj2 (Z.leb_le _ _) N2). cbn [result_bind].
      unfold natural at 1. rewrite (proj2 (Z.leb_le _ _) N1). cbn [result_bind].
      destruct (CC ch V1) as [x X]. rewrite V1', X. cbn [result_bind].
      assert (A1 : exists lags, result_all (map (fun i => coded_choice lb (nth i (r_lags r) None)) (seq 0 (lb_nlags lb))) = Ok lags).
      { destruct (us_zip nat nat (fun i b => coded_choice lb (nth b (r_lags r) None) = Ok i) (seq 0 (lb_nlags lb))
          (fun b => match coded_choice lb (nth b (r_lags r) None) with Ok i => Some i | _ => None end)) as [xs [X1 _]].
        { intros i b Hb. assert (HI : In b (seq 0 (lb_nlags lb))) by (apply (nth_error_In _ _ Hb)). apply in_seq in HI.
          assert (i = b). { assert (Hi : i < lb_nlags lb) by (rewrite <- (seq_length (lb_nlags lb) 0); apply nth_error_Some; congruence).
            rewrite (nth_error_nth' _ 0) in Hb by (rewrite seq_length; exact Hi). rewrite seq_nth in Hb by exact Hi. injection Hb as <-. reflexivity. }
          subst i. destruct (V2 (S b)) as [name [I1 I2]]; [cbn; lia|]. destruct (CC name I1) as [y Y].
          cbn in I2. exists y. rewrite I2, Y. auto. }
        exists xs. apply result_all_map_Ok. clear - X1. induction X1; constructor; auto. }
      destruct A1 as [lags A1]. rewrite A1. cbn [result_bind].
      rewrite (seq_all_is nat (fun i => natural (nth i (r_exps r) None)) (lb_nexp lb) (vec_add init gain)).
      2: { apply VL; assumption. }
      2: { intros i b Hb. specialize (G4 i b Hb). apply us_nth in G4. rewrite G4. unfold natural.
           rewrite (proj2 (Z.leb_le _ _)) by lia. rewrite Nat2Z.id. reflexivity. }
      cbn [result_bind].
      assert (A2 : exists obs, result_all (map (fun p => coded_observable (snd p) (nth (fst p) (r_obs r) None)) (enumerate (lb_observables lb))) = Ok obs).
      { destruct (us_zip nat (nat * list level) (fun i p => coded_observable (snd p) (nth (fst p) (r_obs r) None) = Ok i) (enumerate (lb_observables lb))
          (fun b => match nth_error (lb_observables lb) b with Some levels => match coded_observable levels (nth b (r_obs r) None) with Ok i => Some i | _ => None end | None => None end)) as [xs [X1 _]].
        { intros i [b levels] Hb. rewrite nth_error_enumerate in Hb. destruct (nth_error (lb_observables lb) i) as [lv|] eqn:Q; [|discriminate].
          simpl in Hb. injection Hb as <- <-.
          destruct (KL r Hr i lv Q) as [v [I1 I2]]. apply us_nth in I2. cbn [fst snd]. rewrite I2. unfold coded_observable.
          apply In_nth_error in I1. destruct I1 as [n I1]. destruct (pl_levels _ PL lv (nth_error_In _ _ Q)) as [LD _].
          rewrite (label_to_code_known lv n v LD I1). eauto. }
        exists xs. apply result_all_map_Ok. clear - X1. induction X1; constructor; auto. }
      destruct A2 as [obs A2]. rewrite A2. cbn [result_bind]. eauto. }
    assert (PD : exists df, process_data lb data = Ok df).
    { unfold process_data. assert (Q : exists rows, result_all (map (process_row lb) data) = Ok rows).
      { clear - PR. induction data as [|r data IH]; [exists []; reflexivity|].
        destruct (PR r (or_introl eq_refl)) as [c Hc]. destruct IH as [rows Hrs]; [intros q Hq; apply PR; right; exact Hq|].
        exists (c :: rows). apply result_all_map_Ok in Hrs. apply result_all_map_Ok. constructor; assumption. }
      destruct Q as [rows Q]. rewrite Q. eexists. reflexivity. }
    destruct PD as [df PD].
    destruct (data_meaning lb data df PL NUM PD) as [rows [F P]].
    assert (LOC : exists x, locate_data sp csf grid (for_each_type (lb_ntypes lb) df) = Ok x).
    { apply (proj1 (locate_data_iff sp csf grid ss _ CF CR)). intros s d Hsd.
      apply us_obs_inv in Hsd. destruct Hsd as [c [t [Hc [-> [-> Ht]]]]].
      apply (Permutation_in _ (Permutation_sym P)) in Hc.
      assert (exists r, In r data /\ same_meaning lb r c) as [r [Hr Sm]].
      { clear - F Hc. induction F as [|a b data rows Hab F IH]; [destruct Hc|]. destruct Hc as [<-|Hc].
        - exists a. split; [left; reflexivity|exact Hab].
        - destruct (IH Hc) as [r [A B]]. exists r. split; [right; exact A|exact B]. }
      split.
      - apply (core_exact sp _ WF NL). destruct (GA r Hr) as [init [gain [G1 [G2 [G3 G4]]]]].
        destruct (me_period _ _ _ Sm) as [P1 P2]. destruct (NN r Hr) as [[_ N1] _].
        assert (EX : cs_exp (cd_core (snd c)) = vec_add init gain).
        { destruct (me_exps _ _ _ Sm) as [L M]. apply nth_error_ext_eq. intros i.
          destruct (Nat.lt_ge_cases i (lb_nexp lb)) as [B|B].
          - destruct (M i B) as [e [M1 M2]]. rewrite M1.
            destruct (nth_error (vec_add init gain) i) as [e'|] eqn:Q.
            + specialize (G4 i e' Q). apply us_nth in M2. rewrite G4 in M2. injection M2 as M2. f_equal. lia.
            + exfalso. apply nth_error_None in Q. rewrite (VL init gain G1 G2) in Q. lia.
          - rewrite (proj2 (nth_error_None _ _)) by lia. symmetry. apply nth_error_None. rewrite (VL init gain G1 G2). exact B. }
        split; [rewrite P2; lia|]. split.
        + destruct (me_lags _ _ _ Sm) as [L M]. split; [rewrite L; exact (la_lags _ _ _ _ LA)|].
          intros x Hx. apply In_nth_error in Hx. destruct Hx as [i Hi].
          destruct (M i) as [name [code [_ [M1 M2]]]]; [rewrite <- L; apply nth_error_Some; congruence|].
          rewrite M1 in Hi. injection Hi as <-. exists code. split; [reflexivity|].
          rewrite <- (la_choices _ _ _ _ LA). apply nth_error_Some. congruence.
        + exists init, gain. split; [exact G1|]. split; [exact G2|]. split; [rewrite P2; lia|]. split; [exact EX|]. split.
          * destruct (me_exps _ _ _ Sm) as [L M]. apply Forall2_nth_error. split; [rewrite L; exact (la_exp _ _ _ _ LA)|].
            intros i e m He Hm. destruct (BM r Hr i m Hm) as [z [Z1 Z2]].
            destruct (M i) as [e' [M1 M2]]; [rewrite <- L; apply nth_error_Some; congruence|].
            apply us_nth in M2. rewrite Z1 in M2. injection M2 as M2. rewrite M1 in He. injection He as <-. lia.
          * rewrite NF. intros f [].
      - destruct grid as [|g0 g] eqn:GR; [left; reflexivity|]. right. rewrite <- GR.
        pose proof (la_grid _ _ _ _ LA) as LGr.
        assert (D : Forall2 lt (cd_obs (snd c) ++ (if Nat.leb 2 (lb_ntypes lb) then [t] else []))
                    (dims (map (@List.length _) (lb_observables lb)) (lb_ntypes lb))).
        { unfold dims. apply Forall2_app.
          - destruct (me_obs _ _ _ Sm) as [L M]. apply Forall2_nth_error. split; [rewrite map_length; exact L|].
            intros i x n Hx Hn. rewrite nth_error_map in Hn. destruct (nth_error (lb_observables lb) i) as [lv|] eqn:Q; [|discriminate].
            simpl in Hn. injection Hn as <-. destruct (M i lv Q) as [v [code [_ [M1 M2]]]].
            rewrite M1 in Hx. injection Hx as <-. apply nth_error_Some. congruence.
          - destruct (Nat.leb_spec 2 (lb_ntypes lb)); constructor; [auto|constructor]. }
        apply dense_in_grid in D. rewrite <- LGr in D. rewrite GR. exact D. }
    destruct LOC as [x LOC]. exists (df, snd x). unfold prepare_estimation. rewrite CHK. cbn [result_bind]. rewrite PD. cbn [result_bind].
    rewrite LOC. reflexivity.
Qed.
