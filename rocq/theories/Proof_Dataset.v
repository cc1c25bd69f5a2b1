(** Proofs about initial conditions. *)
From Coq Require Import List Arith ZArith Bool String Reals Lia Lra.
From Verif Require Import Base Proof_Base Model_CoreStateSpace Spec_CoreStateSpace Proof_CoreStateSpace
  Model_StateSpace Spec_StateSpace Proof_StateSpace Proof_DenseGrid Model_Choices Model_Processing Model_Parallel Spec_Parallel
  Model_Solve Spec_Solve Model_Simulate Spec_Simulate Proof_SimulateProps Model_Dataset Spec_Dataset.
Import ListNotations.
Open Scope nat_scope.

Lemma enumerate_all : forall A B (f : nat * A -> result B) (P : nat -> A -> B -> Prop) l,
  (forall i a, nth_error l i = Some a -> exists b, f (i, a) = Ok b /\ P i a b) ->
  exists xs, result_all (map f (enumerate l)) = Ok xs /\ List.length xs = List.length l /\
    forall i a, nth_error l i = Some a -> exists b, nth_error xs i = Some b /\ P i a b.
Proof.
  intros A B f P l H. destruct (result_all_Ok_exists _ _ f (enumerate l)) as [xs E].
  { intros [i a] Hi. apply In_enumerate in Hi. destruct (H i a Hi) as [b [Hb _]]. eauto. }
  exists xs. split; [exact E|]. split.
  - apply result_all_map_Ok in E. apply Forall2_length_eq in E. rewrite <- E. apply length_enumerate.
  - intros i a Hi. destruct (H i a Hi) as [b [Hb Pb]]. exists b. split; [|exact Pb].
    destruct (nth_error_result_all _ _ f (enumerate l) xs i (i, a) E) as [x [Hx Ex]].
    + rewrite nth_error_enumerate, Hi. reflexivity.
    + congruence.
Qed.

Lemma Forall2_nth_intro : forall A B (P : A -> B -> Prop) l m, List.length l = List.length m ->
  (forall i a b, nth_error l i = Some a -> nth_error m i = Some b -> P a b) -> Forall2 P l m.
Proof.
  induction l as [|a l IH]; intros [|b m] L H; try discriminate; constructor.
  - apply (H 0); reflexivity.
  - apply IH; [simpl in L; lia|]. intros i. apply (H (S i)).
Qed.

Lemma enumerate_all_is : forall A B (f : nat * A -> result B) l xs, List.length xs = List.length l ->
  (forall i a b, nth_error l i = Some a -> nth_error xs i = Some b -> f (i, a) = Ok b) ->
  result_all (map f (enumerate l)) = Ok xs.
Proof.
  intros A B f l xs L H. apply result_all_map_Ok. apply Forall2_nth_intro; [rewrite length_enumerate; lia|].
  intros i [j a] b Hi Hb. rewrite nth_error_enumerate in Hi. destruct (nth_error l i) as [a'|] eqn:E; [|discriminate].
  simpl in Hi. injection Hi as <- <-. eapply H; eassumption.
Qed.

Lemma Forall2_nth_lt : forall v ds, Forall2 lt v ds <->
  List.length v = List.length ds /\ forall i a b, nth_error v i = Some a -> nth_error ds i = Some b -> a < b.
Proof.
  split.
  - intros F. split; [exact (Forall2_length_eq _ _ _ _ _ F)|].
    induction F as [|a b v ds H F IH]; intros [|i] x y Hx Hy; try discriminate; simpl in *.
    + congruence.
    + eauto.
  - intros [L H]. apply Forall2_nth_intro; assumption.
Qed.

(** ** One characteristic *)
Lemma sampled_level : forall x levels u, levels <> [] -> (0 <= u < 1)%R ->
  exists i, sample_characteristic x levels u = Ok i /\ i < List.length levels.
Proof.
  intros x levels u Hl Hu. destruct (sample_spec x levels u Hl Hu) as [[i Hi] S]. exists i. split; [exact Hi|].
  apply S in Hi. destruct Hi as [L _]. unfold softmax in L. rewrite !map_length in L. exact L.
Qed.

(** A draw which leads to level [i]. *)
Definition draw_for (x : nat -> R) (levels : list (list (nat * R))) (i : nat) : R :=
  rsum (firstn i (softmax (map (pandas_dot x) levels))).

Lemma rsum_firstn_0 : forall l : list R, rsum (firstn 0 l) = 0%R.
Proof. reflexivity. Qed.

Lemma draw_for_uniform : forall x levels i, i = 0 \/ i < List.length levels -> (0 <= draw_for x levels i < 1)%R.
Proof.
  intros x levels i H. unfold draw_for. destruct (Nat.eq_dec i 0) as [->|N]; [rewrite rsum_firstn_0; lra|].
  assert (Hi : i < List.length levels) by lia.
  set (p := softmax (map (pandas_dot x) levels)).
  assert (Lp : List.length p = List.length levels) by (unfold p, softmax; rewrite !map_length; reflexivity).
  assert (Hz : map (pandas_dot x) levels <> []) by (intros E; destruct levels; [simpl in Hi; lia|discriminate]).
  assert (Pos : forall q, In q p -> (0 <= q)%R) by (intros q Hq; apply Rlt_le, (softmax_pos _ _ Hq)).
  destruct (nth_error p i) as [q|] eqn:E; [|apply nth_error_None in E; lia].
  pose proof (rsum_firstn_S p i q E) as S1. pose proof (softmax_pos _ _ (nth_error_In _ _ E)) as Q.
  pose proof (rsum_firstn_mono p 0 i Pos ltac:(lia)) as M0. rewrite rsum_firstn_0 in M0.
  pose proof (rsum_firstn_mono p (S i) (List.length p) Pos ltac:(lia)) as M1.
  rewrite firstn_all in M1. pose proof (softmax_sum _ Hz) as SS. fold p in SS. lra.
Qed.

Lemma draw_for_level : forall x levels i, i < List.length levels -> sample_characteristic x levels (draw_for x levels i) = Ok i.
Proof.
  intros x levels i Hi.
  assert (Hl : levels <> []) by (intros E; subst; simpl in Hi; lia).
  destruct (sample_spec x levels (draw_for x levels i) Hl (draw_for_uniform _ _ _ (or_intror Hi))) as [_ S].
  apply S. unfold drawn_interval. set (p := softmax (map (pandas_dot x) levels)).
  assert (Lp : List.length p = List.length levels) by (unfold p, softmax; rewrite !map_length; reflexivity).
  assert (Hz : map (pandas_dot x) levels <> []) by (intros E; destruct levels; [simpl in Hi; lia|discriminate]).
  split; [lia|]. split; [unfold draw_for; fold p; lra|].
  destruct (nth_error p i) as [q|] eqn:E; [|apply nth_error_None in E; lia].
  rewrite (interval_length p i q (softmax_sum _ Hz) E). unfold draw_for. fold p.
  pose proof (softmax_pos _ _ (nth_error_In _ _ E)). lra.
Qed.

Lemma nth_given : forall (l : list (option nat)) i v, nth i l None = Some v <-> nth_error l i = Some (Some v).
Proof.
  induction l as [|x l IH]; intros [|i] v; simpl; split; try discriminate; try congruence; apply IH.
Qed.

Lemma dense_in_grid : forall lv types v, Forall2 lt v (dims lv types) ->
  match dense_state_space_grid lv types with [] => True | _ => In v (dense_state_space_grid lv types) end.
Proof.
  intros lv types v H. destruct (dense_state_space_grid lv types) eqn:E; [exact I|]. rewrite <- E.
  apply grid_In; [|exact H]. intros D. unfold dims in D.
  destruct lv; [|discriminate]. cbn [app] in D. unfold dense_state_space_grid in E.
  destruct (Nat.leb 2 types); [discriminate|]. simpl in E. discriminate.
Qed.

(** ** A row *)
Section Row.
  Variables (sp : core_spec) (grid : list (list nat)) (ic : initial_conditions).
  Hypothesis W : wf_spec sp.
  Hypothesis L1 : sp_nlags sp <= 1.
  Hypothesis NF : filters_keep_start sp.
  Hypothesis NP : 0 < sp_nperiods sp.
  Hypothesis D : declared sp grid ic.
  Hypothesis BM : starts_below_maximum sp.

  Lemma start_levels : forall i levels, nth_error (ic_start ic) i = Some levels ->
    nth_error (sp_starts sp) i = Some (map fst levels).
  Proof. intros i levels H. rewrite (de_start _ _ _ D), nth_error_map, H. reflexivity. Qed.
  Lemma start_some : forall i levels, nth_error (ic_start ic) i = Some levels -> levels <> [].
  Proof.
    intros i levels H E. subst. apply start_levels in H. apply nth_error_In in H.
    apply (proj1 (proj2 (proj2 W))) in H. apply H. reflexivity.
  Qed.
  Lemma start_small : forall i levels x, nth_error (sp_starts sp) i = Some levels -> In x levels -> x < 256.
  Proof. intros i levels x H. apply (proj1 (proj2 (proj2 (proj2 W)))). eapply nth_error_In; eassumption. Qed.

  Lemma initial_state : forall exps lags,
    List.length exps = List.length (sp_starts sp) ->
    (forall i e levels, nth_error exps i = Some e -> nth_error (sp_starts sp) i = Some levels -> In e levels) ->
    List.length lags = sp_nlags sp -> (forall c, In c lags -> c < sp_nchoices sp) ->
    In (mkState 0 exps (map Some lags)) (create_core_state_space sp).
  Proof.
    intros exps lags Le He Ll Hl. apply core_exact; [exact W|exact L1|].
    unfold feasible. cbn [cs_period cs_exp cs_lag]. split; [exact NP|]. split.
    - split; [rewrite map_length; exact Ll|]. intros x Hx. apply in_map_iff in Hx. destruct Hx as [c [<- Hc]]. eauto.
    - exists exps, (repeat 0 (List.length (sp_starts sp))). split; [|split; [|split; [|split; [|split]]]].
      + apply Forall2_nth_intro; [exact Le|]. intros i a b. apply He.
      + apply repeat_length.
      + clear. induction (List.length (sp_starts sp)); simpl; [lia|]. unfold list_sum in *. simpl. lia.
      + unfold vec_add. rewrite <- Le. clear. induction exps as [|e exps IH]; [reflexivity|]. simpl. rewrite Nat.add_0_r. f_equal. exact IH.
      + apply Forall2_nth_intro; [rewrite Le; apply W|]. intros i a m Ha Hm.
        destruct (nth_error (sp_starts sp) i) as [levels|] eqn:E.
        * eapply BM; [exact E|exact Hm|]. eapply He; eassumption.
        * apply nth_error_None in E. assert (i < List.length exps) by (apply nth_error_Some; congruence). lia.
      + intros f Hf. apply NF; [exact Hf|]. split; [rewrite map_length; exact Ll|].
        intros x Hx. apply in_map_iff in Hx. destruct Hx as [c [<- Hc]]. eauto.
  Qed.

  Lemma row_sampled : forall x u g, uniform u -> given_ok sp ic g ->
    exists i, extend_row ic x u g = Ok i /\ in_model (create_core_state_space sp) grid 0 i /\ kept g ic i.
  Proof.
    intros x u g U G. unfold extend_row.
    destruct (enumerate_all _ _
      (fun p => fill (nth (fst p) (pt_obs g) None) (sample_characteristic (x (CObs (fst p))) (snd p) (u (CObs (fst p)))))
      (fun i l v => v < List.length l /\ forall w, nth_error (pt_obs g) i = Some (Some w) -> w = v) (ic_observables ic))
      as [obs [Eo [Lo Ho]]].
    { intros i l Hi. cbn [fst snd]. pose proof (de_observables _ _ _ D _ (nth_error_In _ _ Hi)) as B.
      destruct (sampled_level (x (CObs i)) l (u (CObs i))) as [k [Ek Hk]]; [intros E; subst; simpl in B; lia|apply U|].
      rewrite Ek. unfold fill, result_bind. destruct (nth i (pt_obs g) None) as [v|] eqn:Ev.
      - apply nth_given in Ev. pose proof (gi_obs _ _ _ G _ _ _ Ev Hi). rewrite Nat.mod_small by lia.
        exists v. split; [reflexivity|]. split; [assumption|]. intros w Hw. congruence.
      - rewrite Nat.mod_small by lia. exists k. split; [reflexivity|]. split; [assumption|].
        intros w Hw. apply nth_given in Hw. congruence. }
    destruct (enumerate_all _ _
      (fun p => fill (nth (fst p) (pt_exp g) None)
         (result_bind (sample_characteristic (x (CExp (fst p))) (map snd (snd p)) (u (CExp (fst p)))) (key_of (snd p))))
      (fun i l v => In v (map fst l) /\ forall w, nth_error (pt_exp g) i = Some (Some w) -> w = v) (ic_start ic))
      as [exps [Ee [Le He]]].
    { intros i l Hi. cbn [fst snd]. pose proof (start_some _ _ Hi) as B. pose proof (start_levels _ _ Hi) as SL.
      destruct (sampled_level (x (CExp i)) (map snd l) (u (CExp i))) as [k [Ek Hk]]; [intros E; destruct l; [congruence|discriminate]|apply U|].
      rewrite Ek. rewrite map_length in Hk. unfold fill, result_bind, key_of.
      destruct (nth_error l k) as [kl|] eqn:Ekl; [|apply nth_error_None in Ekl; lia].
      destruct (nth i (pt_exp g) None) as [v|] eqn:Ev.
      - apply nth_given in Ev. pose proof (gi_exp _ _ _ G _ _ _ Ev SL) as I. pose proof (start_small _ _ _ SL I). rewrite Nat.mod_small by lia.
        exists v. split; [reflexivity|]. split; [exact I|]. intros w Hw. congruence.
      - assert (I : In (fst kl) (map fst l)) by (apply in_map; eapply nth_error_In; exact Ekl).
        pose proof (start_small _ _ _ SL I). rewrite Nat.mod_small by lia.
        exists (fst kl). split; [reflexivity|]. split; [exact I|]. intros w Hw. apply nth_given in Hw. congruence. }
    destruct (enumerate_all _ _
      (fun p => fill (nth (fst p) (pt_lag g) None) (sample_characteristic (x (CLag (fst p))) (snd p) (u (CLag (fst p)))))
      (fun i l v => v < sp_nchoices sp /\ forall w, nth_error (pt_lag g) i = Some (Some w) -> w = v) (ic_lags ic))
      as [lags [El [Ll Hl]]].
    { intros i l Hi. cbn [fst snd]. pose proof (de_choices _ _ _ D _ (nth_error_In _ _ Hi)) as B. pose proof (de_some_choice _ _ _ D) as C.
      destruct (sampled_level (x (CLag i)) l (u (CLag i))) as [k [Ek Hk]]; [intros E; subst; simpl in B; lia|apply U|].
      rewrite Ek. unfold fill, result_bind. destruct (nth i (pt_lag g) None) as [v|] eqn:Ev.
      - apply nth_given in Ev. pose proof (gi_lag _ _ _ G _ _ Ev). rewrite Nat.mod_small by lia.
        exists v. split; [reflexivity|]. split; [assumption|]. intros w Hw. congruence.
      - rewrite Nat.mod_small by lia. exists k. split; [reflexivity|]. split; [lia|].
        intros w Hw. apply nth_given in Hw. congruence. }
    assert (T : exists type, (if Nat.leb 2 (List.length (ic_types ic))
               then result_bind (fill (pt_type g) (sample_characteristic (x CType) (ic_types ic) (u CType))) (fun t => Ok [t])
               else Ok []) = Ok type /\
        Forall2 lt type (if Nat.leb 2 (List.length (ic_types ic)) then [List.length (ic_types ic)] else []) /\
        (forall w, 2 <= List.length (ic_types ic) -> pt_type g = Some w -> type = [w])).
    { destruct (Nat.leb_spec 2 (List.length (ic_types ic))) as [Ht|Ht].
      - destruct (sampled_level (x CType) (ic_types ic) (u CType)) as [k [Ek Hk]]; [intros E; rewrite E in Ht; simpl in Ht; lia|apply U|].
        rewrite Ek. pose proof (de_types _ _ _ D). unfold fill, result_bind. destruct (pt_type g) as [v|] eqn:Ev.
        + pose proof (gi_type _ _ _ G _ Ev). rewrite Nat.mod_small by lia. exists [v]. split; [reflexivity|].
          split; [constructor; [assumption|constructor]|]. intros w _ Hw. congruence.
        + rewrite Nat.mod_small by lia. exists [k]. split; [reflexivity|]. split; [constructor; [assumption|constructor]|]. discriminate.
      - exists []. split; [reflexivity|]. split; [constructor|]. intros w Ht'. lia. }
    destruct T as [type [Et [Ft Kt]]].
    exists (mkInd (mkState 0 exps (map Some lags)) (obs ++ type)). split; [|split].
    - rewrite Eo. unfold result_bind at 1. rewrite Ee. unfold result_bind at 1. rewrite El. unfold result_bind at 1. rewrite Et. reflexivity.
    - split; [|split; [reflexivity|]]; cbn [i_core i_dense].
      + apply initial_state.
        * rewrite Le, (de_start _ _ _ D), map_length. reflexivity.
        * intros i e levels Hi Hlv. rewrite (de_start _ _ _ D), nth_error_map in Hlv.
          destruct (nth_error (ic_start ic) i) as [l|] eqn:E; [|discriminate]. injection Hlv as <-.
          destruct (He i l E) as [b [Hb [I _]]]. congruence.
        * rewrite Ll. apply (de_lags _ _ _ D).
        * intros c Hc. apply In_nth_error in Hc. destruct Hc as [i Hi].
          assert (Hli : i < List.length (ic_lags ic)) by (rewrite <- Ll; apply nth_error_Some; congruence).
          destruct (nth_error (ic_lags ic) i) as [l|] eqn:E; [|apply nth_error_None in E; lia].
          destruct (Hl i l E) as [b [Hb [I _]]]. congruence.
      + rewrite (de_grid _ _ _ D). apply dense_in_grid. unfold dims. apply Forall2_app; [|exact Ft].
        apply Forall2_nth_lt. rewrite map_length. split; [exact Lo|]. intros i a b Ha Hb.
        rewrite nth_error_map in Hb. destruct (nth_error (ic_observables ic) i) as [l|] eqn:E; [|discriminate].
        injection Hb as <-. destruct (Ho i l E) as [c [Hc [I _]]]. congruence.
    - constructor; cbn [i_core i_dense cs_exp cs_lag].
      + intros i v Hi Hv. destruct (nth_error (ic_observables ic) i) as [l|] eqn:E; [|apply nth_error_None in E; lia].
        destruct (Ho i l E) as [b [Hb [_ K]]]. rewrite nth_error_app1 by lia. rewrite Hb. f_equal. symmetry. apply K. exact Hv.
      + intros i v Hi Hv. destruct (nth_error (ic_start ic) i) as [l|] eqn:E; [|apply nth_error_None in E; lia].
        destruct (He i l E) as [b [Hb [_ K]]]. rewrite Hb. f_equal. symmetry. apply K. exact Hv.
      + intros i v Hi Hv. destruct (nth_error (ic_lags ic) i) as [l|] eqn:E; [|apply nth_error_None in E; lia].
        destruct (Hl i l E) as [b [Hb [_ K]]]. rewrite nth_error_map, Hb. simpl. do 2 f_equal. symmetry. apply K. exact Hv.
      + intros v Ht Hv. rewrite nth_error_app2 by lia. rewrite Lo, Nat.sub_diag. rewrite (Kt v Ht Hv). reflexivity.
  Qed.

  Lemma zero_gain : forall init gain, List.length gain = List.length init -> list_sum gain <= 0 -> vec_add init gain = init.
  Proof.
    unfold vec_add. induction init as [|a init IH]; intros [|b gain] L H; try discriminate; [reflexivity|].
    unfold list_sum in *. simpl in *. f_equal; [lia|]. apply IH; lia.
  Qed.

  Lemma positions_in : forall e (levels : list (nat * list (nat * R))), In e (map fst levels) ->
    exists k, k < List.length levels /\ key_of levels k = Ok e.
  Proof.
    intros e levels H. apply in_map_iff in H. destruct H as [l [<- Hl]]. apply In_nth_error in Hl. destruct Hl as [k Hk].
    exists k. split; [apply nth_error_Some; congruence|]. unfold key_of. rewrite Hk. reflexivity.
  Qed.

  (** Positions of the initial levels. *)
  Lemma level_positions : forall (starts : list (list (nat * list (nat * R)))) exps,
    Forall2 (fun e levels => In e levels) exps (map (map fst) starts) ->
    exists ks, List.length ks = List.length starts /\ forall i e levels, nth_error exps i = Some e -> nth_error starts i = Some levels ->
      exists k, nth_error ks i = Some k /\ k < List.length levels /\ key_of levels k = Ok e.
  Proof.
    induction starts as [|l starts IH]; intros exps F; inversion F as [|e ? exps' ? I F']; subst.
    - exists []. split; [reflexivity|]. intros [|i]; discriminate.
    - destruct (IH _ F') as [ks [L H]]. destruct (positions_in _ _ I) as [k [K1 K2]].
      exists (k :: ks). split; [simpl; congruence|]. intros [|i] e' levels He Hl; simpl in *; [|eauto].
      injection He as <-. injection Hl as <-. eauto.
  Qed.

  Lemma in_grid : forall v, match grid with [] => v = [] | _ => In v grid end ->
    Forall2 lt v (dims (map (@List.length _) (ic_observables ic)) (List.length (ic_types ic))).
  Proof.
    intros v H. rewrite (de_grid _ _ _ D) in H. set (lv := map (@List.length _) (ic_observables ic)) in *.
    assert (P : forall d, In d (dims lv (List.length (ic_types ic))) -> 0 < d).
    { intros d Hd. unfold dims in Hd. apply in_app_iff in Hd. destruct Hd as [Hd|Hd].
      - apply in_map_iff in Hd. destruct Hd as [l [<- Hl]]. apply (de_observables _ _ _ D _ Hl).
      - destruct (Nat.leb_spec 2 (List.length (ic_types ic))); [|destruct Hd]. destruct Hd as [<-|[]]. lia. }
    destruct (dims lv (List.length (ic_types ic))) as [|d ds] eqn:E.
    - unfold dims in E. destruct lv; [|discriminate]. cbn [app] in E.
      unfold dense_state_space_grid in H. destruct (Nat.leb 2 (List.length (ic_types ic))); [discriminate|]. simpl in H. subst. constructor.
    - destruct (dense_state_space_grid lv (List.length (ic_types ic))) as [|w g] eqn:G.
      + exfalso. assert (Z : In (map (fun _ => 0) (d :: ds)) (dense_state_space_grid lv (List.length (ic_types ic)))).
        { apply grid_In; [rewrite E; discriminate|]. rewrite E.
          apply Forall2_nth_intro; [rewrite map_length; reflexivity|]. intros i a b Ha Hb.
          rewrite nth_error_map, Hb in Ha. injection Ha as <-. apply P. eapply nth_error_In; exact Hb. }
        rewrite G in Z. destruct Z.
      + rewrite <- G in H. apply grid_In in H; [|rewrite E; discriminate]. rewrite <- E. exact H.
  Qed.

  Lemma every_state_sampled : forall x i, in_model (create_core_state_space sp) grid 0 i ->
    (grid = [] -> i_dense i = []) -> exists u, uniform u /\ extend_row ic x u nothing_given = Ok i.
  Proof.
    intros x [s dense] [Hs [Hp Hg]] Hd. cbn [i_core i_dense] in *.
    apply core_exact in Hs; [|exact W|exact L1]. destruct s as [period exps lags]. cbn [cs_period] in Hp. subst period.
    destruct Hs as [_ [[Ll Hl] [init [gain [Hi [Lg [Sg [Ee _]]]]]]]]. cbn [cs_lag cs_exp cs_period] in *.
    assert (Li : List.length init = List.length (sp_starts sp)) by exact (Forall2_length_eq _ _ _ _ _ Hi).
    rewrite zero_gain in Ee by lia. subst init.
    rewrite (de_start _ _ _ D) in Hi. destruct (level_positions _ _ Hi) as [ks [Lk Hk]].
    assert (CL : exists codes, lags = map Some codes /\ forall c, In c codes -> c < sp_nchoices sp).
    { clear Ll. induction lags as [|l lags IH]; [exists []; split; [reflexivity|intros c []]|].
      destruct (Hl l (or_introl eq_refl)) as [c [-> Hc]]. destruct IH as [codes [-> Hcs]]; [intros y Hy; apply Hl; right; exact Hy|].
      exists (c :: codes). split; [reflexivity|]. intros c' [<-|H]; auto. }
    destruct CL as [codes [-> Hcs]]. rewrite map_length in Ll.
    assert (FD : Forall2 lt dense (dims (map (@List.length _) (ic_observables ic)) (List.length (ic_types ic)))).
    { apply in_grid. destruct grid; [apply Hd; reflexivity|exact Hg]. }
    unfold dims in FD. apply Forall2_app_inv_r in FD. destruct FD as [obs [type [Fo [Ft ->]]]].
    assert (Lo : List.length obs = List.length (ic_observables ic)) by (apply Forall2_length_eq in Fo; rewrite map_length in Fo; exact Fo).
    pose proof (proj2 (proj1 (Forall2_nth_lt _ _) Fo)) as Ho.
    pose proof (proj2 (proj1 (Forall2_nth_lt _ _) Ft)) as Ht.
    exists (fun c => match c with
      | CObs i => draw_for (x c) (nth i (ic_observables ic) []) (nth i obs 0)
      | CExp i => draw_for (x c) (map snd (nth i (ic_start ic) [])) (nth i ks 0)
      | CLag i => draw_for (x c) (nth i (ic_lags ic) []) (nth i codes 0)
      | CType => draw_for (x c) (ic_types ic) (nth 0 type 0) end).
    assert (OL : forall i l, nth_error (ic_observables ic) i = Some l -> nth i obs 0 < List.length l).
    { intros i l E. apply (Ho i).
      - apply nth_error_nth'. rewrite Lo. apply nth_error_Some. congruence.
      - rewrite nth_error_map, E. reflexivity. }
    assert (EL : forall i l, nth_error (ic_start ic) i = Some l -> exists e, nth_error exps i = Some e /\ nth i ks 0 < List.length l /\ key_of l (nth i ks 0) = Ok e).
    { intros i l E. assert (Lt : i < List.length exps) by (rewrite Li, (de_start _ _ _ D), map_length; apply nth_error_Some; congruence).
      destruct (nth_error exps i) as [e|] eqn:Ee; [|apply nth_error_None in Ee; lia].
      destruct (Hk i e l Ee E) as [k [K1 [K2 K3]]]. exists e. rewrite (nth_error_nth _ _ 0 K1). auto. }
    assert (CLn : forall i l, nth_error (ic_lags ic) i = Some l -> exists c, nth_error codes i = Some c /\ nth i codes 0 = c /\ c < List.length l).
    { intros i l E. assert (Lt : i < List.length codes) by (rewrite Ll, <- (de_lags _ _ _ D); apply nth_error_Some; congruence).
      destruct (nth_error codes i) as [c|] eqn:Ec; [|apply nth_error_None in Ec; lia].
      exists c. split; [reflexivity|]. split; [apply nth_error_nth; exact Ec|].
      rewrite (de_choices _ _ _ D _ (nth_error_In _ _ E)). apply Hcs. eapply nth_error_In; exact Ec. }
    split.
    - intros [i|i|i|].
      + apply draw_for_uniform. destruct (nth_error (ic_observables ic) i) as [l|] eqn:E.
        * right. rewrite (nth_error_nth _ _ [] E). apply OL. exact E.
        * left. apply nth_overflow. apply nth_error_None in E. lia.
      + apply draw_for_uniform. destruct (nth_error (ic_start ic) i) as [l|] eqn:E.
        * right. rewrite (nth_error_nth _ _ [] E), map_length. destruct (EL i l E) as [e [_ [H _]]]. exact H.
        * left. apply nth_overflow. apply nth_error_None in E. lia.
      + apply draw_for_uniform. destruct (nth_error (ic_lags ic) i) as [l|] eqn:E.
        * right. rewrite (nth_error_nth _ _ [] E). destruct (CLn i l E) as [c [_ [H1 H2]]]. rewrite H1. exact H2.
        * left. apply nth_overflow. apply nth_error_None in E. rewrite Ll, <- (de_lags _ _ _ D). exact E.
      + apply draw_for_uniform. destruct (Nat.leb_spec 2 (List.length (ic_types ic))) as [H2|H2].
        * right. inversion Ft; subst. simpl. assumption.
        * left. inversion Ft; subst. reflexivity.
    - unfold extend_row, nothing_given. cbn [pt_obs pt_exp pt_lag pt_type].
      rewrite (enumerate_all_is _ _ _ (ic_observables ic) obs).
      2:{ exact Lo. }
      2:{ intros i l b El Hb. cbn [fst snd]. rewrite (nth_error_nth _ _ [] El), draw_for_level by (apply OL; exact El).
          unfold fill, result_bind. replace (nth i ([] : list (option nat)) None) with (@None nat) by (destruct i; reflexivity).
          rewrite (nth_error_nth _ _ 0 Hb). pose proof (OL i l El) as B. rewrite (nth_error_nth _ _ 0 Hb) in B.
          pose proof (de_observables _ _ _ D _ (nth_error_In _ _ El)). rewrite Nat.mod_small by lia. reflexivity. }
      unfold result_bind at 1. rewrite (enumerate_all_is _ _ _ (ic_start ic) exps).
      2:{ rewrite Li, (de_start _ _ _ D), map_length. reflexivity. }
      2:{ intros i l b El Hb. cbn [fst snd]. destruct (EL i l El) as [e [E1 [E2 E3]]].
          rewrite (nth_error_nth _ _ [] El), draw_for_level by (rewrite map_length; exact E2).
          unfold fill, result_bind. rewrite E3. replace (nth i ([] : list (option nat)) None) with (@None nat) by (destruct i; reflexivity).
          rewrite Hb in E1. injection E1 as <-. pose proof (start_levels _ _ El) as SL.
          assert (I : In b (map fst l)). { unfold key_of in E3. destruct (nth_error l (nth i ks 0)) as [kl|] eqn:E; [|discriminate]. injection E3 as <-. apply in_map. eapply nth_error_In; exact E. }
          pose proof (start_small _ _ _ SL I). rewrite Nat.mod_small by lia. reflexivity. }
      unfold result_bind at 1. rewrite (enumerate_all_is _ _ _ (ic_lags ic) codes).
      2:{ rewrite Ll. symmetry. apply (de_lags _ _ _ D). }
      2:{ intros i l b El Hb. cbn [fst snd]. destruct (CLn i l El) as [c [C1 [C2 C3]]]. rewrite Hb in C1. injection C1 as <-.
          rewrite (nth_error_nth _ _ [] El), C2, draw_for_level by exact C3.
          unfold fill, result_bind. replace (nth i ([] : list (option nat)) None) with (@None nat) by (destruct i; reflexivity).
          rewrite (de_choices _ _ _ D _ (nth_error_In _ _ El)) in C3. pose proof (de_some_choice _ _ _ D). rewrite Nat.mod_small by lia. reflexivity. }
      unfold result_bind at 1. destruct (Nat.leb_spec 2 (List.length (ic_types ic))) as [H2|H2].
      + inversion Ft as [|t ? tt ? Htt Ftt]; subst. inversion Ftt; subst. cbn [nth]. rewrite draw_for_level by exact Htt.
        unfold fill, result_bind. pose proof (de_types _ _ _ D). rewrite Nat.mod_small by lia. reflexivity.
      + inversion Ft; subst. reflexivity.
  Qed.

  Lemma initial_states_iff : forall x i,
    (exists u, uniform u /\ extend_row ic x u nothing_given = Ok i) <->
    in_model (create_core_state_space sp) grid 0 i /\ (grid = [] -> i_dense i = []).
  Proof.
    intros x i. split.
    - intros [u [U E]]. destruct (row_sampled x u nothing_given U) as [j [Ej [M _]]].
      { constructor; cbn; intros; try (destruct i0; discriminate); discriminate. }
      rewrite E in Ej. injection Ej as <-. split; [exact M|]. intros G.
      unfold extend_row, nothing_given in E. cbn [pt_obs pt_exp pt_lag pt_type] in E.
      rewrite (de_grid _ _ _ D) in G.
      assert (N : ic_observables ic = [] /\ Nat.leb 2 (List.length (ic_types ic)) = false).
      { unfold dense_state_space_grid in G. destruct (ic_observables ic) as [|l ls] eqn:O.
        - split; [reflexivity|]. destruct (Nat.leb 2 (List.length (ic_types ic))) eqn:T; [|reflexivity].
          apply Nat.leb_le in T. destruct (List.length (ic_types ic)) as [|n]; [lia|]. cbn in G. discriminate.
        - exfalso. assert (Z : Forall2 lt (map (fun _ => 0) (dims (map (@List.length _) (l :: ls)) (List.length (ic_types ic)))) (dims (map (@List.length _) (l :: ls)) (List.length (ic_types ic)))).
          { apply Forall2_nth_intro; [rewrite map_length; reflexivity|]. intros k a b Ha Hb.
            rewrite nth_error_map, Hb in Ha. injection Ha as <-. apply nth_error_In in Hb. unfold dims in Hb.
            apply in_app_iff in Hb. destruct Hb as [Hb|Hb].
            - apply in_map_iff in Hb. destruct Hb as [l' [<- Hl']]. rewrite <- O in Hl'. apply (de_observables _ _ _ D _ Hl').
            - destruct (Nat.leb_spec 2 (List.length (ic_types ic))); [|destruct Hb]. destruct Hb as [<-|[]]. lia. }
          apply grid_In in Z; [|discriminate]. unfold dense_state_space_grid in Z. rewrite G in Z. destruct Z. }
      destruct N as [N1 N2]. rewrite N1, N2 in E.
      cbn [enumerate enumerate_from map result_all result_bind] in E.
      repeat match type of E with context [result_bind ?r _] => destruct r; try discriminate; unfold result_bind at 1 in E end.
      injection E as <-. reflexivity.
    - intros [M G]. apply every_state_sampled; assumption.
  Qed.

  Lemma sampled_frame : forall x u n, (forall k, uniform (u k)) ->
    exists df, sampled_individuals ic x u n = Ok df /\ map fst df = map (fun k => (k, 0)) (seq 0 n) /\
      forall i y, In (i, y) df -> in_model (create_core_state_space sp) grid 0 y.
  Proof.
    intros x u n U. unfold sampled_individuals. generalize (seq 0 n) as l. induction l as [|k l IH].
    - exists []. split; [reflexivity|]. split; [reflexivity|]. intros i y [].
    - destruct IH as [df [E [I M]]].
      destruct (row_sampled (x k) (u k) nothing_given (U k)) as [i [Ei [Mi _]]].
      { constructor; cbn; intros; try (destruct i; discriminate); discriminate. }
      exists (((k, 0), i) :: df). split; [|split].
      + cbn [map result_all]. rewrite Ei. cbn [result_bind]. rewrite E. reflexivity.
      + cbn [map fst]. rewrite I. reflexivity.
      + intros j y [H|H]; [injection H as _ <-; exact Mi|eapply M; exact H].
  Qed.
End Row.
