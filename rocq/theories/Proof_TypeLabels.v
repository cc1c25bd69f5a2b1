(** Proofs about labels of types. *)
From Coq Require Import List Arith ZArith Bool Lia Lra Reals Sorting.Permutation.
From Verif Require Import Base Proof_Base Model_CoreStateSpace Model_Parallel Model_Solve Spec_Solve
  Model_ConditionalDraws Model_Likelihood Spec_Likelihood Proof_Likelihood Proof_LikelihoodPanel
  Model_LikelihoodDraws Spec_LikelihoodDraws Proof_LikelihoodDraws Proof_LikelihoodUnits Spec_TypeLabels.
Import ListNotations.
Open Scope nat_scope.

Lemma relabelling_perm : forall n pi, relabelling n pi -> Permutation (map pi (seq 0 n)) (seq 0 n).
Proof.
  intros n pi [R I]. apply NoDup_Permutation_bis.
  - assert (X : forall l, NoDup l -> (forall t, In t l -> t < n) -> NoDup (map pi l)).
    { induction l as [|a l IH]; intros ND B; [constructor|]. inversion ND as [|? ? N ND']; subst. cbn [map]. constructor.
      - intros C. apply in_map_iff in C. destruct C as [b [E Hb]]. apply N. rewrite (I a b); [exact Hb| | |symmetry; exact E].
        + apply B. left. reflexivity.
        + apply B. right. exact Hb.
      - apply IH; [exact ND'|]. intros t Ht. apply B. right. exact Ht. }
    apply X; [apply seq_NoDup|]. intros t Ht. apply in_seq in Ht. lia.
  - rewrite map_length. lia.
  - intros x Hx. apply in_map_iff in Hx. destruct Hx as [t [<- Ht]]. apply in_seq in Ht. apply in_seq. specialize (R t). lia.
Qed.

(** ** Rows of one dense key *)
Definition key_is (locate : index -> obs -> nat -> result (nat * nat)) (t k : nat) (d : index * obs) : bool :=
  match locate (fst d) (snd d) t with Ok kp => Nat.eqb (fst kp) k | _ => false end.

Definition type_block_rows (locate : index -> obs -> nat -> result (nat * nat)) (data : frame obs) (t : nat) : list (result lrow) :=
  map (fun r => result_bind (locate (fst r) (snd r) t) (fun kp => Ok (mkLrow (fst r) t (snd r) (fst kp) (snd kp)))) data.

Lemma block_filter : forall locate data t rows k, result_all (type_block_rows locate data t) = Ok rows ->
  map (fun r => (lr_index r, lr_obs r)) (filter (fun r => Nat.eqb (lr_key r) k) rows) = filter (key_is locate t k) data /\
  (forall r, In r rows -> lr_type r = t /\ In (lr_index r, lr_obs r) data /\ locate (lr_index r) (lr_obs r) t = Ok (lr_key r, lr_pos r)).
Proof.
  intros locate data t. induction data as [|[i o] data IH]; intros rows k E.
  - cbn in E. injection E as <-. split; [reflexivity|intros r []].
  - unfold type_block_rows in E. cbn [map result_all fst snd] in E. destruct (locate i o t) as [[k1 p1]| | | | |] eqn:L; try discriminate.
    cbn [result_bind fst snd] in E. fold (type_block_rows locate data t) in E.
    destruct (result_all (type_block_rows locate data t)) as [rest| | | | |] eqn:E2; try discriminate. cbn [result_bind] in E. injection E as <-.
    destruct (IH rest k eq_refl) as [F G]. split.
    + cbn [filter lr_key]. unfold key_is at 1. cbn [fst snd]. rewrite L. cbn [fst]. destruct (Nat.eqb k1 k); cbn [map lr_index lr_obs]; rewrite F; reflexivity.
    + intros r [<-|H]; [cbn [lr_type lr_index lr_obs lr_key lr_pos]; split; [reflexivity|split; [left; reflexivity|exact L]]|].
      destruct (G r H) as [A [B C]]. split; [exact A|split; [right; exact B|exact C]].
Qed.

Lemma result_all_flat : forall A (f : nat -> list (result A)) ts rows, result_all (flat_map f ts) = Ok rows ->
  exists blocks, Forall2 (fun t b => result_all (f t) = Ok b) ts blocks /\ rows = List.concat blocks.
Proof.
  intros A f ts. induction ts as [|t ts IH]; intros rows E.
  - cbn in E. injection E as <-. exists []. split; [constructor|reflexivity].
  - cbn [flat_map] in E. apply result_all_app in E. destruct E as [ys [zs [-> [E1 E2]]]]. destruct (IH zs E2) as [bs [F ->]].
    exists (ys :: bs). split; [constructor; assumption|reflexivity].
Qed.

Lemma filter_concat : forall A (p : A -> bool) ls, filter p (List.concat ls) = List.concat (map (filter p) ls).
Proof. intros A p ls. induction ls as [|l ls IH]; [reflexivity|]. cbn [List.concat map]. rewrite filter_app, IH. reflexivity. Qed.

(** All rows with dense key [k] are rows of one type [t]. *)
Lemma key_group : forall locate n data rows r, 2 <= n -> types_separated locate n ->
  duplicate_for_types locate n data = Ok rows -> In r rows ->
  lr_type r < n /\ In (lr_index r, lr_obs r) data /\ locate (lr_index r) (lr_obs r) (lr_type r) = Ok (lr_key r, lr_pos r) /\
  map (fun q => (lr_index q, lr_obs q)) (filter (fun q => Nat.eqb (lr_key q) (lr_key r)) rows) =
  filter (key_is locate (lr_type r) (lr_key r)) data.
Proof.
  intros locate n data rows r Hn SEP E Hr. unfold duplicate_for_types in E.
  destruct (Nat.leb_spec 2 n) as [_|X]; [|lia]. fold (type_block_rows locate data) in E.
  change (result_all (flat_map (type_block_rows locate data) (seq 0 n)) = Ok rows) in E.
  apply result_all_flat in E. destruct E as [blocks [F ->]].
  apply in_concat in Hr. destruct Hr as [b [Hb Hr]]. destruct (Forall2_In_r _ _ _ _ _ _ F Hb) as [t [Ht Eb]].
  destruct (block_filter _ _ _ _ (lr_key r) Eb) as [_ G]. destruct (G r Hr) as [T [D L]].
  assert (Htn : t < n) by (apply in_seq in Ht; lia). rewrite T. split; [exact Htn|]. split; [exact D|]. split; [exact L|].
  rewrite filter_concat, concat_map, map_map.
  assert (X : forall ts bs, Forall2 (fun t b => result_all (type_block_rows locate data t) = Ok b) ts bs -> NoDup ts ->
     (forall t', In t' ts -> t' < n) ->
     List.concat (map (fun x => map (fun q => (lr_index q, lr_obs q)) (filter (fun q => Nat.eqb (lr_key q) (lr_key r)) x)) bs) =
     if in_dec Nat.eq_dec t ts then filter (key_is locate t (lr_key r)) data else []).
  { clear - SEP Htn D L. intros ts bs F. induction F as [|t' b ts bs Eb F IH]; intros ND B; [reflexivity|].
    inversion ND as [|? ? N ND']; subst. cbn [map List.concat]. rewrite IH by (try assumption; intros z Hz; apply B; right; exact Hz).
    destruct (block_filter _ _ _ _ (lr_key r) Eb) as [EF _]. rewrite EF.
    destruct (Nat.eq_dec t' t) as [->|NE].
    - destruct (in_dec Nat.eq_dec t ts) as [C|_]; [contradiction|]. rewrite app_nil_r.
      destruct (in_dec Nat.eq_dec t (t :: ts)) as [_|C]; [reflexivity|exfalso; apply C; left; reflexivity].
    - assert (Z : filter (key_is locate t' (lr_key r)) data = []).
      { destruct (filter (key_is locate t' (lr_key r)) data) as [|d l] eqn:Q; [reflexivity|exfalso].
        assert (Hd : In d (filter (key_is locate t' (lr_key r)) data)) by (rewrite Q; left; reflexivity).
        apply filter_In in Hd. destruct Hd as [_ Hd]. unfold key_is in Hd. destruct (locate (fst d) (snd d) t') as [[k' p']| | | | |] eqn:L'; try discriminate.
        apply Nat.eqb_eq in Hd. cbn [fst] in Hd. subst k'. apply NE. eapply SEP; [apply B; left; reflexivity|exact Htn|exact L'|exact L]. }
      rewrite Z. cbn [app]. destruct (in_dec Nat.eq_dec t ts) as [C|C], (in_dec Nat.eq_dec t (t' :: ts)) as [C'|C']; try reflexivity.
      + exfalso. apply C'. right. exact C.
      + exfalso. destruct C' as [C'|C']; [congruence|contradiction]. }
  rewrite (X _ _ F (seq_NoDup _ _)) by (intros z Hz; apply in_seq in Hz; lia).
  destruct (in_dec Nat.eq_dec t (seq 0 n)) as [_|C]; [reflexivity|contradiction].
Qed.

Lemma number_rows_In : forall rows k j r, In ((k, j), r) (number_rows rows) <->
  nth_error (filter (fun q => Nat.eqb (lr_key q) k) rows) j = Some r.
Proof.
  intros rows k j r. unfold number_rows. rewrite in_flat_map. split.
  - intros [k' [_ H]]. apply in_map_iff in H. destruct H as [[j' r'] [E H]]. cbn [fst snd] in E. injection E as -> -> ->.
    apply In_enumerate in H. exact H.
  - intros H. exists k. split.
    + apply In_isort. apply In_drop_duplicates. apply nth_error_In in H. apply filter_In in H. destruct H as [H E]. apply Nat.eqb_eq in E.
      apply in_map_iff. exists r. auto.
    + apply in_map_iff. exists (j, r). split; [reflexivity|]. apply In_enumerate. exact H.
Qed.

(** ** The row of the same observation with the other label *)
Lemma row_exists : forall locate n data rows i o t, 1 <= n -> duplicate_for_types locate n data = Ok rows ->
  In (i, o) data -> t < n -> exists q, In q rows /\ lr_index q = i /\ lr_obs q = o /\ lr_type q = t /\ locate i o t = Ok (lr_key q, lr_pos q).
Proof.
  intros locate n data rows i o t Hn E D T. destruct (duplicate_rows _ _ _ _ Hn E) as [D1 D2].
  assert (H : In (i, t, o) (map (fun r => (lr_index r, lr_type r, lr_obs r)) rows)).
  { unfold index in *. rewrite D1. apply in_flat_map. exists t. split; [apply in_seq; lia|]. apply in_map_iff. exists (i, o). auto. }
  apply in_map_iff in H. destruct H as [q [Eq Hq]]. injection Eq as E1 E2 E3. exists q. repeat split; try assumption.
  rewrite <- E1, <- E2, <- E3. apply D2. exact Hq.
Qed.

Lemma partner : forall locate n pi data rows k j r, 2 <= n -> relabelling n pi -> types_separated locate n -> same_groups n pi locate data ->
  duplicate_for_types locate n data = Ok rows -> In ((k, j), r) (number_rows rows) ->
  exists q, In ((lr_key q, j), q) (number_rows rows) /\ lr_index q = lr_index r /\ lr_obs q = lr_obs r /\ lr_type q = pi (lr_type r) /\
    length (filter (fun x => Nat.eqb (lr_key x) (lr_key q)) rows) = length (filter (fun x => Nat.eqb (lr_key x) k) rows).
Proof.
  intros locate n pi data rows k j r Hn [R I] SEP SG E H. apply number_rows_In in H.
  pose proof H as Hin. apply nth_error_In in Hin. apply filter_In in Hin. destruct Hin as [Hr Ek]. apply Nat.eqb_eq in Ek. subst k.
  destruct (key_group _ _ _ _ _ Hn SEP E Hr) as [Ht [Hd [HL G]]].
  destruct (row_exists locate n data rows (lr_index r) (lr_obs r) (pi (lr_type r)) ltac:(lia) E Hd (R _ Ht)) as [q [Hq [Qi [Qo [Qt QL]]]]].
  destruct (key_group _ _ _ _ _ Hn SEP E Hq) as [_ [_ [_ G']]].
  assert (F : filter (key_is locate (lr_type q) (lr_key q)) data = filter (key_is locate (lr_type r) (lr_key r)) data).
  { apply filter_ext_in. intros [i o] Hio. unfold key_is. cbn [fst snd].
    destruct (row_exists locate n data rows i o (lr_type r) ltac:(lia) E Hio Ht) as [a [_ [_ [_ [_ La]]]]].
    destruct (row_exists locate n data rows i o (lr_type q) ltac:(lia) E Hio ltac:(rewrite Qt; apply R; exact Ht)) as [b [_ [_ [_ [_ Lb]]]]].
    rewrite La, Lb. cbn [fst]. rewrite Qt in Lb.
    pose proof (SG _ _ _ _ _ _ _ _ _ _ _ _ _ Hio Hd Ht La HL Lb QL) as S1.
    destruct (Nat.eqb_spec (lr_key b) (lr_key q)), (Nat.eqb_spec (lr_key a) (lr_key r)); try reflexivity; tauto. }
  rewrite F, <- G in G'.
  assert (Len : length (filter (fun x => Nat.eqb (lr_key x) (lr_key q)) rows) = length (filter (fun x => Nat.eqb (lr_key x) (lr_key r)) rows)).
  { apply (f_equal (@length _)) in G'. rewrite !map_length in G'. exact G'. }
  apply (f_equal (fun l => nth_error l j)) in G'. rewrite !nth_error_map, H in G'. cbn [option_map] in G'.
  destruct (nth_error (filter (fun x => Nat.eqb (lr_key x) (lr_key q)) rows) j) as [q'|] eqn:N; [|discriminate].
  cbn [option_map] in G'. injection G' as E1 E2.
  pose proof N as Nin. apply nth_error_In in Nin. apply filter_In in Nin. destruct Nin as [Hq' Kq']. apply Nat.eqb_eq in Kq'.
  destruct (key_group _ _ _ _ _ Hn SEP E Hq') as [Tq' [_ [Lq' _]]].
  assert (T : lr_type q' = pi (lr_type r)).
  { eapply SEP; [exact Tq'|apply R; exact Ht| |exact QL]. rewrite Lq', Kq'. reflexivity. }
  exists q'. rewrite Kq'. split; [apply number_rows_In; exact N|]. auto.
Qed.

Lemma base_draws_without_seed : forall generate seed nc rows k j r, without_seed generate -> In ((k, j), r) (number_rows rows) ->
  base_draws_est generate seed nc rows k j = nth j (generate 0%Z (length (filter (fun x => Nat.eqb (lr_key x) k) rows)) (nc k)) [].
Proof.
  intros generate seed nc rows k j r W H. unfold base_draws_est.
  destruct (find (fun p => Nat.eqb (snd p) k) (enumerate (observed_keys rows))) as [p|] eqn:F.
  - rewrite (W _ 0%Z). reflexivity.
  - exfalso. apply number_rows_In in H. apply nth_error_In in H. apply filter_In in H. destruct H as [H Ek]. apply Nat.eqb_eq in Ek.
    assert (O : In k (observed_keys rows)).
    { unfold observed_keys. apply In_isort, In_drop_duplicates, in_map_iff. exists r. auto. }
    apply In_nth_error in O. destruct O as [m O].
    pose proof (find_none _ _ F (m, k)) as X. cbn [snd] in X. rewrite Nat.eqb_refl in X. 
    assert (true = false) by (apply X; apply In_enumerate; exact O). discriminate.
Qed.

Lemma result_all_exists : forall A B (f : A -> result B) l, (forall x, In x l -> exists y, f x = Ok y) -> exists ys, result_all (map f l) = Ok ys.
Proof.
  intros A B f l. induction l as [|x l IH]; intros H; [exists []; reflexivity|].
  destruct (H x (or_introl eq_refl)) as [y E]. destruct IH as [ys E2]; [intros z Hz; apply H; right; exact Hz|].
  exists (y :: ys). cbn [map result_all]. rewrite E, E2. reflexivity.
Qed.

(** Each row of the changed model is evaluated like its partner. *)
Lemma row_partner : forall generate seed rc qr lk locate n pi data rows env env' k j r,
  2 <= n -> relabelling n pi -> types_separated locate n -> same_groups n pi locate data -> without_seed generate ->
  relabelled_env n pi locate data env env' ->
  duplicate_for_types locate n data = Ok rows -> In ((k, j), r) (number_rows rows) ->
  let D e := base_draws_est generate seed (fun k => count_true (le_choice_set e k)) rows in
  exists q, In ((lr_key q, j), q) (number_rows rows) /\ lr_index q = lr_index r /\ lr_type q = pi (lr_type r) /\
   forall ll, contributions_of_row rc qr lk (with_draws env (D env)) j q = Ok (q, ll) ->
              contributions_of_row rc qr lk (with_draws env' (D env')) j r = Ok (r, ll).
Proof.
  intros generate seed rc qr lk locate n pi data rows env env' k j r Hn RL SEP SG W RE E H D.
  destruct (partner _ _ _ _ _ _ _ _ Hn RL SEP SG E H) as [q [Nq [Qi [Qo [Qt Len]]]]].
  exists q. split; [exact Nq|]. split; [exact Qi|]. split; [exact Qt|]. intros ll C.
  assert (Kr : k = lr_key r) by (apply number_rows_key in H; exact H). subst k.
  assert (Hr : In r rows).
  { apply number_rows_In in H. apply nth_error_In in H. apply filter_In in H. apply H. }
  assert (Hq : In q rows).
  { apply number_rows_In in Nq. apply nth_error_In in Nq. apply filter_In in Nq. apply Nq. }
  destruct (key_group _ _ _ _ _ Hn SEP E Hr) as [Ht [Hd [HL _]]].
  destruct (key_group _ _ _ _ _ Hn SEP E Hq) as [_ [_ [QL _]]]. rewrite Qi, Qo, Qt in QL.
  destruct (RE _ _ _ _ _ _ _ Hd Ht HL QL) as [C1 [C2 [C3 C4]]].
  unfold contributions_of_row, with_draws in *. cbn [le_choice_set le_wages le_nonpec le_cont le_draws] in *.
  unfold D in *. rewrite (base_draws_without_seed _ _ _ _ _ _ _ W H). rewrite (base_draws_without_seed _ _ _ _ _ _ _ W Nq) in C.
  rewrite Len in C. rewrite C1, C2, C3, C4, <- Qo.
  destruct (row_loglikes _ _ _ _ _ _ _ _ _ _) as [l| | | | |]; try discriminate. cbn [result_bind] in C. injection C as ->. reflexivity.
Qed.

Lemma NoDup_map_inject : forall A B (f : A -> B) l x y, NoDup (map f l) -> In x l -> In y l -> f x = f y -> x = y.
Proof.
  intros A B f l. induction l as [|a l IH]; intros x y ND Hx Hy E; [destruct Hx|]. cbn [map] in ND. inversion ND as [|? ? N ND']; subst.
  destruct Hx as [->|Hx], Hy as [->|Hy]; [reflexivity| | |apply IH; assumption].
  - exfalso. apply N. rewrite E. apply in_map. exact Hy.
  - exfalso. apply N. rewrite <- E. apply in_map. exact Hx.
Qed.

Lemma found_self : forall rows c, unique_rows rows -> In c rows ->
  found rows (fst (lr_index (fst c))) (lr_type (fst c)) (snd (lr_index (fst c))) = cvalue c.
Proof.
  intros rows c U H. unfold found. destruct (find (hits _ _ _) rows) as [c'|] eqn:F.
  - apply find_some in F. destruct F as [H' X]. unfold hits in X. apply andb_true_iff in X. destruct X as [X X3]. apply andb_true_iff in X.
    destruct X as [X1 X2]. apply Nat.eqb_eq in X1, X2, X3. f_equal. eapply (NoDup_map_inject _ _ _ rows); [exact U|exact H'|exact H|].
    cbn beta. rewrite X3. destruct (lr_index (fst c')), (lr_index (fst c)). cbn [fst snd] in *. subst. reflexivity.
  - exfalso. pose proof (find_none _ _ F c H) as X. unfold hits in X. rewrite !Nat.eqb_refl in X. discriminate.
Qed.

Lemma per_type_data : forall rc qr lk locate env n data rows computed id t, 1 <= n -> t < n -> NoDup (map fst data) ->
  duplicate_for_types locate n data = Ok rows -> compute_contributions rc qr lk env rows = Ok computed ->
  unique_rows computed /\
  per_individual_and_type computed id t =
  rsum (map (fun d => found computed id t (snd (fst d))) (filter (fun d => Nat.eqb (fst (fst d)) id) data)).
Proof.
  intros rc qr lk locate env n data rows computed id t Hn Ht ND E C.
  destruct (covers_exists _ _ _ _ _ _ _ _ _ Hn E C) as [numbered [N CV]].
  pose proof (covers_unique _ _ _ _ _ _ _ _ ND CV) as U. rewrite N in U. split; [exact U|].
  rewrite per_type_sum by exact U.
  destruct (duplicate_rows _ _ _ _ Hn E) as [D1 _]. destruct (computed_rows _ _ _ _ _ _ C) as [C1 _].
  assert (P : Permutation (map fst computed) rows) by (rewrite C1; apply number_rows_perm).
  set (q := fun r : lrow => Nat.eqb (fst (lr_index r)) id && Nat.eqb (lr_type r) t).
  assert (A : map cvalue (filter (of_ind id t) computed) =
              map (fun r => found computed id t (snd (lr_index r))) (filter q (map fst computed))).
  { rewrite (filter_map_comm _ _ fst q (of_ind id t)) by reflexivity. rewrite map_map. apply map_ext_in.
    intros c Hc. apply filter_In in Hc. destruct Hc as [Hc X]. unfold of_ind in X. apply andb_true_iff in X. destruct X as [X1 X2].
    apply Nat.eqb_eq in X1, X2. rewrite <- (found_self computed c U Hc), X1, X2. reflexivity. }
  unfold crow in *. rewrite A.
  rewrite (rsum_perm _ _ (Permutation_map _ (filter_perm _ q _ _ P))).
  set (g := fun r : lrow => (lr_index r, lr_type r, lr_obs r)) in *.
  assert (B : map (fun r => found computed id t (snd (lr_index r))) (filter q rows) =
              map (fun x => found computed id t (snd (fst (fst x)))) (filter (selects id t) (map g rows))).
  { rewrite (filter_map_comm _ _ g (selects id t) q) by reflexivity. rewrite map_map. reflexivity. }
  rewrite B. unfold g in *. rewrite D1, filter_one_type; [|apply seq_NoDup|apply in_seq; lia].
  rewrite map_map. reflexivity.
Qed.

(** ** All rows *)
Lemma relabelled_rows : forall generate seed rc qr lk locate n pi data rows env env' computed,
  2 <= n -> relabelling n pi -> types_separated locate n -> same_groups n pi locate data -> without_seed generate ->
  relabelled_env n pi locate data env env' -> NoDup (map fst data) ->
  duplicate_for_types locate n data = Ok rows ->
  let D e := base_draws_est generate seed (fun k => count_true (le_choice_set e k)) rows in
  compute_contributions rc qr lk (with_draws env (D env)) rows = Ok computed ->
  exists computed', compute_contributions rc qr lk (with_draws env' (D env')) rows = Ok computed' /\
    unique_rows computed /\ unique_rows computed' /\
    forall id t, t < n -> per_individual_and_type computed' id t = per_individual_and_type computed id (pi t).
Proof.
  intros generate seed rc qr lk locate n pi data rows env env' computed Hn RL SEP SG W RE ND E D C.
  pose proof (computed_rows _ _ _ _ _ _ C) as [_ F].
  assert (X : forall x, In x (number_rows rows) -> exists y,
     contributions_of_row rc qr lk (with_draws env' (D env')) (snd (fst x)) (snd x) = Ok y).
  { intros [[k j] r] Hx. cbn [fst snd].
    destruct (row_partner generate seed rc qr lk locate n pi data rows env env' k j r Hn RL SEP SG W RE E Hx) as [q [Nq [_ [_ Z]]]].
    destruct (Forall2_In_l _ _ _ _ _ _ F Nq) as [[q' ll] [_ Cq]]. cbn [fst snd] in Cq.
    destruct (contributions_row_Ok _ _ _ _ _ _ _ Cq) as [Eq _]. cbn [fst] in Eq. subst q'. exists (r, ll). apply Z. exact Cq. }
  destruct (result_all_exists _ _ _ _ X) as [computed' C']. exists computed'. fold (compute_contributions rc qr lk (with_draws env' (D env')) rows) in C'.
  split; [exact C'|].
  destruct (per_type_data _ _ _ _ _ n _ _ _ 0 0 ltac:(lia) ltac:(lia) ND E C) as [U _].
  destruct (per_type_data _ _ _ _ _ n _ _ _ 0 0 ltac:(lia) ltac:(lia) ND E C') as [U' _].
  split; [exact U|]. split; [exact U'|]. intros id t Ht. pose proof RL as [R I].
  destruct (per_type_data _ _ _ _ _ n _ _ _ id (pi t) ltac:(lia) (R t Ht) ND E C) as [_ ->].
  destruct (per_type_data _ _ _ _ _ n _ _ _ id t ltac:(lia) Ht ND E C') as [_ ->].
  apply rsum_map_ext. intros [[i p] o] Hd. apply filter_In in Hd. destruct Hd as [Hd Hid]. cbn [fst snd] in *. apply Nat.eqb_eq in Hid. subst i.
  destruct (row_exists locate n data rows (id, p) o t ltac:(lia) E Hd Ht) as [r [Hr [Ri [Ro [Rt _]]]]].
  assert (Nr : exists j, In ((lr_key r, j), r) (number_rows rows)).
  { assert (Y : In r (filter (fun x => Nat.eqb (lr_key x) (lr_key r)) rows)) by (apply filter_In; split; [exact Hr|apply Nat.eqb_refl]).
    apply In_nth_error in Y. destruct Y as [j Y]. exists j. apply number_rows_In. exact Y. }
  destruct Nr as [j Nr].
  destruct (row_partner generate seed rc qr lk locate n pi data rows env env' _ j r Hn RL SEP SG W RE E Nr) as [q [Nq [Qi [Qt Z]]]].
  destruct (Forall2_In_l _ _ _ _ _ _ F Nq) as [[q' ll] [Hc Cq]]. cbn [fst snd] in Cq.
  destruct (contributions_row_Ok _ _ _ _ _ _ _ Cq) as [Eq _]. cbn [fst] in Eq. subst q'. apply Z in Cq.
  destruct (computed_rows _ _ _ _ _ _ C') as [_ F'].
  destruct (Forall2_In_l _ _ _ _ _ _ F' Nr) as [c' [Hc' Cr]]. cbn [fst snd] in Cr.
  pose proof (eq_trans (eq_sym Cr) Cq) as X1. injection X1 as ->.
  pose proof (found_self computed (q, ll) U Hc) as V. pose proof (found_self computed' (r, ll) U' Hc') as V'.
  cbn [fst] in V, V'. rewrite Qi, Qt, Ri, Rt in V. rewrite Ri, Rt in V'. cbn [fst snd] in V, V'. rewrite V, V'. reflexivity.
Qed.

(** ** Probabilities of types *)
Lemma nth_z_list : forall (z : list R), z = map (fun t => nth t z 0%R) (seq 0 (length z)).
Proof.
  intros z. induction z as [|a z IH]; [reflexivity|]. cbn [length seq map nth]. f_equal. rewrite <- seq_shift, map_map. exact IH.
Qed.

Lemma relabelled_list : forall n pi (z z' : list R) s, length z' = n -> (forall t, t < n -> nth t z' 0%R = (nth (pi t) z 0 - s)%R) ->
  z' = map (fun t => (nth (pi t) z 0 - s)%R) (seq 0 n).
Proof.
  intros n pi z z' s L H. rewrite (nth_z_list z'), L. apply map_ext_in. intros t Ht. apply in_seq in Ht. apply H. lia.
Qed.

Lemma sum_relabelled : forall n pi (f : nat -> R), relabelling n pi -> rsum (map (fun t => f (pi t)) (seq 0 n)) = rsum (map f (seq 0 n)).
Proof.
  intros n pi f RL. rewrite <- (map_map pi f). apply rsum_perm, Permutation_map, relabelling_perm, RL.
Qed.

Lemma map_seq_nonempty : forall A (f : nat -> A) n, 1 <= n -> map f (seq 0 n) <> [].
Proof. intros A f [|n] H; [lia|discriminate]. Qed.

Lemma log_types_relabelled : forall n pi z z' lps, 2 <= n -> relabelling n pi -> relabelled_indices n pi z z' ->
  log_type_probabilities z = Ok lps ->
  length lps = n /\ log_type_probabilities z' = Ok (map (fun t => nth (pi t) lps 0%R) (seq 0 n)).
Proof.
  intros n pi z z' lps Hn RL [L [L' [s H]]] E. pose proof RL as [R I].
  assert (NE : z <> []) by (destruct z; [cbn in L; lia|discriminate]).
  unfold log_type_probabilities in *. rewrite logsumexp_spec in E by exact NE. cbn [result_bind] in E. injection E as <-.
  split; [rewrite map_length; exact L|].
  rewrite (relabelled_list n pi z z' s L' H). rewrite logsumexp_spec by (apply map_seq_nonempty; lia). cbn [result_bind]. f_equal.
  rewrite map_map. apply map_ext_in. intros t Ht. apply in_seq in Ht.
  assert (X : rsum (map exp (map (fun t => (nth (pi t) z 0 - s)%R) (seq 0 n))) = (exp (- s) * rsum (map exp z))%R).
  { rewrite map_map. rewrite (rsum_map_ext _ _ (fun t => (exp (- s) * exp (nth (pi t) z 0))%R)).
    - rewrite (rsum_map_scal _ (fun t => exp (nth (pi t) z 0%R))). f_equal.
      rewrite (sum_relabelled n pi (fun t => exp (nth t z 0%R)) RL).
      pose proof (nth_z_list z) as Z. rewrite L in Z. apply (f_equal (map exp)) in Z. rewrite map_map in Z. rewrite Z. reflexivity.
    - intros a _. rewrite <- exp_plus. f_equal. lra. }
  rewrite X, ln_mult by (try apply exp_pos; apply rsum_exp_pos; exact NE). rewrite ln_exp.
  assert (Hp : pi t < length z) by (rewrite L; apply R; lia).
  symmetry. rewrite (nth_indep _ 0%R (clip (- max_float) max_float (0 - ln (rsum (map exp z)))%R)) by (rewrite map_length; exact Hp).
  rewrite (map_nth (fun x => clip (- max_float) max_float (x - ln (rsum (map exp z)))%R)). f_equal. lra.
Qed.

Lemma enumerate_as_map : forall A (l : list A) d, enumerate l = map (fun t => (t, nth t l d)) (seq 0 (length l)).
Proof.
  intros A l d. unfold enumerate. assert (X : forall n, enumerate_from n l = map (fun t => (n + t, nth t l d)) (seq 0 (length l))).
  { induction l as [|a l IH]; intros n; [reflexivity|]. cbn [enumerate_from length seq map nth]. f_equal; [f_equal; lia|].
    rewrite IH, <- seq_shift, map_map. apply map_ext. intros t. f_equal. lia. }
  apply (X 0).
Qed.

Lemma type_contribution_relabelled : forall n pi params params' (x x' : nat -> nat -> nat -> R) rows rows' id c,
  2 <= n -> relabelling n pi -> relabelled_indices n pi (type_indices params (x id)) (type_indices params' (x' id)) ->
  (forall t, t < n -> per_individual_and_type rows' id t = per_individual_and_type rows id (pi t)) ->
  type_contribution params x rows id = Ok c -> type_contribution params' x' rows' id = Ok c.
Proof.
  intros n pi params params' x x' rows rows' id c Hn RL RI P E. unfold type_contribution in *. rewrite !type_x_betas_linear in *.
  destruct (log_type_probabilities (type_indices params (x id))) as [lps| | | | |] eqn:EL; try discriminate. cbn [result_bind] in E.
  destruct (log_types_relabelled _ _ _ _ _ Hn RL RI EL) as [L ->]. cbn [result_bind].
  set (g := fun t => (per_individual_and_type rows id t + nth t lps 0)%R).
  assert (A : map (fun tl => (per_individual_and_type rows id (fst tl) + snd tl)%R) (enumerate lps) = map g (seq 0 n)).
  { rewrite (enumerate_as_map _ lps 0%R), map_map, L. reflexivity. }
  assert (B : map (fun tl => (per_individual_and_type rows' id (fst tl) + snd tl)%R) (enumerate (map (fun t => nth (pi t) lps 0%R) (seq 0 n)))
              = map (fun t => g (pi t)) (seq 0 n)).
  { rewrite (enumerate_as_map _ _ 0%R), map_map, map_length, seq_length. apply map_ext_in. intros t Ht. apply in_seq in Ht. cbn [fst snd].
    rewrite P by lia. unfold g. f_equal.
    rewrite (nth_indep _ 0%R (nth (pi 0) lps 0%R)) by (rewrite map_length, seq_length; lia).
    rewrite (map_nth (fun t => nth (pi t) lps 0%R)), seq_nth by lia. reflexivity. }
  rewrite A in E. rewrite B.
  rewrite logsumexp_spec in E by (apply map_seq_nonempty; lia). rewrite logsumexp_spec by (apply map_seq_nonempty; lia).
  rewrite map_map in E. rewrite map_map. rewrite (sum_relabelled n pi (fun t => exp (g t)) RL). exact E.
Qed.

Lemma result_all_same : forall A B (f g : A -> result B) l r, (forall a b, In a l -> f a = Ok b -> g a = Ok b) ->
  result_all (map f l) = Ok r -> result_all (map g l) = Ok r.
Proof.
  intros A B f g l. induction l as [|a l IH]; intros r H E; [exact E|]. cbn [map result_all] in *.
  destruct (f a) as [b| | | | |] eqn:Ea; try discriminate. cbn [result_bind] in E. rewrite (H a b (or_introl eq_refl) Ea). cbn [result_bind].
  destruct (result_all (map f l)) as [bs| | | | |] eqn:El; try discriminate. rewrite (IH bs); [exact E| |reflexivity].
  intros x y Hx. apply H. right. exact Hx.
Qed.

Lemma estimate_relabelled : forall generate seed rc qr lk locate env env' n pi params params' x x' order order' data v cs,
  2 <= n -> relabelling n pi -> types_separated locate n -> same_groups n pi locate data -> without_seed generate ->
  relabelled_env n pi locate data env env' -> NoDup (map fst data) ->
  (forall id, In id (individuals data) -> relabelled_indices n pi (type_indices params (x id)) (type_indices params' (x' id))) ->
  (forall l, Permutation (order l) l) -> (forall l, Permutation (order' l) l) ->
  estimate generate seed rc qr lk locate env n params x order data = Ok (v, cs) ->
  estimate generate seed rc qr lk locate env' n params' x' order' data = Ok (v, cs).
Proof.
  intros generate seed rc qr lk locate env env' n pi params params' x x' order order' data v cs Hn RL SEP SG W RE ND RI PO PO' E.
  unfold estimate in *. destruct (duplicate_for_types locate n data) as [rows| | | | |] eqn:ED; try discriminate. cbn [result_bind] in *.
  unfold log_like in *. rewrite ED in *. cbn [result_bind] in *.
  destruct (compute_contributions rc qr lk (with_draws env _) rows) as [computed| | | | |] eqn:EC; try discriminate. cbn [result_bind] in E.
  destruct (relabelled_rows generate seed rc qr lk locate n pi data rows env env' computed Hn RL SEP SG W RE ND ED EC) as [computed' [C' [U [U' P]]]].
  rewrite C'. cbn [result_bind]. unfold contributions in *. destruct (Nat.leb_spec 2 n) as [_|X]; [|lia].
  destruct (result_all (map (type_contribution params x (order computed)) (isort Nat.leb (type_rows data n)))) as [cs0| | | | |] eqn:E0; try discriminate.
  cbn [result_bind] in E. rewrite (result_all_same _ _ _ (type_contribution params' x' (order' computed')) _ _) with (2 := E0); [exact E|].
  intros id c Hid Ec. eapply type_contribution_relabelled; [exact Hn|exact RL| | |exact Ec].
  - apply RI. apply In_isort in Hid. unfold type_rows in Hid. apply in_flat_map in Hid. destruct Hid as [_ [_ Hid]]. exact Hid.
  - intros t Ht. rewrite !per_type_sum.
    + specialize (P id t Ht). rewrite !per_type_sum in P by assumption.
      rewrite (rsum_perm _ _ (Permutation_map cvalue (filter_perm _ (of_ind id t) _ _ (PO' computed')))), P.
      symmetry. apply rsum_perm, Permutation_map, filter_perm, PO.
    + eapply unique_rows_perm; [symmetry; apply PO|exact U].
    + eapply unique_rows_perm; [symmetry; apply PO'|exact U'].
Qed.

(** ** Normalised parameters *)
Lemma linear_coefficients : forall m b (x : nat -> R), linear_index x (coefficients m b) = rsum (map (fun j => (x j * b j)%R) (seq 0 m)).
Proof. intros m b x. unfold linear_index, coefficients. rewrite map_map. reflexivity. Qed.

Lemma type_indices_map : forall (f : nat -> list (nat * R)) n (x : nat -> R),
  type_indices (map f (seq 0 n)) (fun _ => x) = map (fun t => linear_index x (f t)) (seq 0 n).
Proof.
  intros f n x. unfold type_indices. rewrite (enumerate_as_map _ _ []), map_map, map_length, seq_length. apply map_ext_in.
  intros t Ht. apply in_seq in Ht. cbn [fst snd]. f_equal.
  rewrite (nth_indep _ [] (f 0)) by (rewrite map_length, seq_length; lia). rewrite (map_nth f), seq_nth by lia. reflexivity.
Qed.

Lemma normalised_relabelled : forall m beta n pi (x : nat -> R), relabelling n pi ->
  relabelled_indices n pi (type_indices (map (fun t => coefficients m (beta t)) (seq 0 n)) (fun _ => x))
                          (type_indices (normalised m beta n pi) (fun _ => x)).
Proof.
  intros m beta n pi x [B I]. unfold normalised. rewrite !type_indices_map. split; [rewrite map_length; apply seq_length|].
  split; [rewrite map_length; apply seq_length|]. exists (linear_index x (coefficients m (beta (pi 0)))).
  intros t Ht.
  assert (N : forall (f : nat -> R) i, i < n -> nth i (map f (seq 0 n)) 0%R = f i).
  { intros f i Hi. rewrite (nth_indep _ 0%R (f 0)) by (rewrite map_length, seq_length; lia). rewrite map_nth, seq_nth by lia. reflexivity. }
  rewrite (N _ t Ht), (N _ (pi t) (B t Ht)), !linear_coefficients.
  clear. induction (seq 0 m) as [|j l IH]; [cbn; lra|]. cbn [map]. unfold rsum in *. cbn [fold_right]. rewrite IH. lra.
Qed.

Lemma normalised_first : forall m beta n pi, 1 <= n -> nth_error (normalised m beta n pi) 0 = Some (coefficients m (fun _ => 0%R)).
Proof.
  intros m beta n pi Hn. unfold normalised. rewrite nth_error_map. destruct n as [|n]; [lia|]. cbn [seq nth_error option_map]. f_equal.
  unfold coefficients. apply map_ext. intros j. f_equal. lra.
Qed.
