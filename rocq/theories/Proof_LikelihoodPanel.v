(** Proofs about the aggregation of the likelihood over periods, types and individuals. *)
From Coq Require Import List Arith Bool Reals Lra Lia Sorting.Permutation.
From Verif Require Import Base Proof_Base Model_CoreStateSpace Model_StateSpace Proof_StateSpace
  Model_Parallel Model_Solve Spec_Solve Proof_Solve
  Model_ConditionalDraws Spec_ConditionalDraws Proof_Matrix Proof_ConditionalDraws
  Model_Likelihood Spec_Likelihood Proof_Likelihood Proof_LikelihoodRows.
Import ListNotations.
Open Scope R_scope.

Definition crow := (lrow * (R * R))%type.
Definition cvalue (r : crow) : R := fst (snd r) + snd (snd r).

Lemma rsum_perm : forall l l', Permutation l l' -> rsum l = rsum l'.
Proof. intros l l' P. induction P; simpl; unfold rsum in *; simpl; lra. Qed.

Lemma exp_rsum : forall A (f : A -> R) l, exp (rsum (map f l)) = rprod (map (fun x => exp (f x)) l).
Proof.
  intros A f l. induction l as [|x l IH]; simpl; [apply exp_0|].
  change (rsum (f x :: map f l)) with (f x + rsum (map f l)). unfold rprod in *. simpl. rewrite exp_plus, IH. reflexivity.
Qed.

Lemma rprod_ext : forall A (f g : A -> R) l, (forall x, f x = g x) -> rprod (map f l) = rprod (map g l).
Proof. intros A f g l H. f_equal. apply map_ext. exact H. Qed.

Lemma rsum_replace_one : forall (P : list nat) p v (g : nat -> R), NoDup P -> In p P -> g p = 0 ->
  rsum (map (fun q => if Nat.eqb q p then v else g q) P) = v + rsum (map g P).
Proof.
  induction P as [|q P IH]; intros p v g ND Hp Hg; [contradiction|].
  inversion ND as [|? ? Nq ND']; subst. cbn [map].
  change (rsum (?a :: ?b)) with (a + rsum b).
  change (rsum (g q :: map g P)) with (g q + rsum (map g P)).
  destruct (Nat.eqb_spec q p) as [->|N].
  - rewrite Hg. rewrite (rsum_map_ext _ _ g P); [lra|]. intros x Hx.
    destruct (Nat.eqb_spec x p) as [->|_]; [contradiction|reflexivity].
  - destruct Hp as [->|Hp]; [contradiction|]. rewrite (IH p v g ND' Hp Hg). lra.
Qed.

Definition hits (id p t : nat) (r : crow) : bool :=
  Nat.eqb (fst (lr_index (fst r))) id && Nat.eqb (snd (lr_index (fst r))) p && Nat.eqb (lr_type (fst r)) t.
Definition found (rows : list crow) (id t p : nat) : R :=
  match find (hits id p t) rows with Some r => cvalue r | None => 0 end.
Definition of_ind (id t : nat) (r : crow) : bool :=
  Nat.eqb (fst (lr_index (fst r))) id && Nat.eqb (lr_type (fst r)) t.

Lemma found_sum : forall rows id t P, NoDup P -> unique_rows rows ->
  (forall r, In r rows -> of_ind id t r = true -> In (snd (lr_index (fst r))) P) ->
  rsum (map (found rows id t) P) = rsum (map cvalue (filter (of_ind id t) rows)).
Proof.
  induction rows as [|r rows IH]; intros id t P ND U H.
  - unfold found. simpl. apply rsum_const0.
  - unfold unique_rows in U. cbn [map] in U. inversion U as [|? ? Nr U']; subst. clear U.
    assert (Q : forall r0, In r0 rows -> of_ind id t r0 = true -> In (snd (lr_index (fst r0))) P)
      by (intros; apply H; [right|]; assumption).
    specialize (IH id t P ND U' Q). cbn [filter]. destruct (of_ind id t r) eqn:E.
    + cbn [map]. change (rsum (?a :: ?b)) with (a + rsum b). rewrite <- IH.
      set (p := snd (lr_index (fst r))).
      rewrite <- (rsum_replace_one P p (cvalue r) (found rows id t) ND (H r (or_introl eq_refl) E)).
      * apply rsum_map_ext. intros q _. unfold found at 1. cbn [find].
        unfold of_ind in E. apply andb_true_iff in E. destruct E as [E1 E2].
        unfold hits at 1. rewrite E1, E2, andb_true_r. fold p. cbn [andb].
        rewrite (Nat.eqb_sym q p). destruct (Nat.eqb p q); reflexivity.
      * unfold found. destruct (find (hits id p t) rows) as [r'|] eqn:F; [|reflexivity].
        exfalso. apply find_some in F. destruct F as [F1 F2]. apply Nr.
        unfold of_ind in E. apply andb_true_iff in E. destruct E as [E1 E2].
        unfold hits in F2. apply andb_true_iff in F2. destruct F2 as [F2 F3]. apply andb_true_iff in F2. destruct F2 as [F2 F4].
        apply Nat.eqb_eq in E1, E2, F2, F3, F4. apply in_map_iff. exists r'. split; [|exact F1].
        destruct (lr_index (fst r)) as [a b] eqn:I1. destruct (lr_index (fst r')) as [a' b'] eqn:I2.
        cbn [fst snd] in *. subst p. cbn [snd] in *. congruence.
    + rewrite <- IH. apply rsum_map_ext. intros q _. unfold found. cbn [find]. unfold hits at 1.
      unfold of_ind in E. apply andb_false_iff in E.
      destruct E as [E|E]; rewrite E; rewrite ?andb_false_l, ?andb_false_r; reflexivity.
Qed.

Lemma per_type_sum : forall rows id t, unique_rows rows ->
  per_individual_and_type rows id t = rsum (map cvalue (filter (of_ind id t) rows)).
Proof.
  intros rows id t U. unfold per_individual_and_type.
  change (rsum (map (found rows id t) (isort Nat.leb (drop_duplicates Nat.eq_dec
      (map (fun r => snd (lr_index (fst r))) (filter (fun r => Nat.eqb (fst (lr_index (fst r))) id) rows))))) =
    rsum (map cvalue (filter (of_ind id t) rows))).
  apply found_sum; [apply NoDup_isort, NoDup_drop_duplicates|exact U|].
  intros r Hr E. apply In_isort, In_drop_duplicates. apply in_map_iff. exists r. split; [reflexivity|].
  apply filter_In. split; [exact Hr|]. unfold of_ind in E. apply andb_true_iff in E. apply E.
Qed.

Lemma per_type_likelihood : forall rows id t, unique_rows rows ->
  exp (per_individual_and_type rows id t) = likelihood_of rows id t.
Proof.
  intros rows id t U. rewrite (per_type_sum rows id t U), exp_rsum. unfold likelihood_of.
  apply rprod_ext. intros r. unfold cvalue. apply exp_plus.
Qed.

Lemma per_individual_likelihood : forall rows id,
  exp (per_individual rows id) =
  rprod (map (fun r => exp (fst (snd r)) * exp (snd (snd r)))
             (filter (fun r => Nat.eqb (fst (lr_index (fst r))) id) rows)).
Proof.
  intros rows id. change (per_individual rows id) with
    (rsum (map cvalue (filter (fun r => Nat.eqb (fst (lr_index (fst r))) id) rows))).
  rewrite exp_rsum. apply rprod_ext. intros r. unfold cvalue. apply exp_plus.
Qed.

(** ** Type probabilities *)
Lemma type_x_betas_linear : forall params x, type_x_betas params x = type_indices params x.
Proof. intros. unfold type_x_betas, type_indices. apply map_ext. intros tp. apply pandas_dot_linear. Qed.

Lemma logits_sum : forall z, z <> [] -> rsum (logits z) = 1.
Proof. intros. apply rsum_logit. assumption. Qed.
Lemma logits_pos : forall z p, In p (logits z) -> 0 < p <= 1.
Proof.
  intros z p H. unfold logits in H. apply in_map_iff in H. destruct H as [c [<- Hc]]. apply in_seq in Hc.
  split; [apply logit_pos; intros ->; simpl in Hc; lia|apply logit_le1; lia].
Qed.

Lemma logits_map : forall z, logits z = map (fun x => exp x / rsum (map exp z)) z.
Proof.
  intros z. unfold logits, logit.
  assert (G : forall (g : R -> R) l, map (fun c => g (nth c l 0)) (seq 0 (length l)) = map g l).
  { intros g l. induction l as [|x l IH]; [reflexivity|]. cbn [length seq map nth]. f_equal.
    rewrite <- seq_shift, map_map. exact IH. }
  exact (G (fun x => exp x / rsum (map exp z)) z).
Qed.

Lemma log_type_spec : forall z, z <> [] -> (forall p, In p (logits z) -> - max_float <= ln p) ->
  log_type_probabilities z = Ok (map ln (logits z)).
Proof.
  intros z Hz H. unfold log_type_probabilities. rewrite (logsumexp_spec z Hz). cbn [result_bind]. f_equal.
  pose proof (logits_map z) as E. rewrite E, map_map. apply map_ext_in. intros x Hx.
  pose proof (rsum_exp_pos z Hz) as P.
  assert (L : ln (exp x / rsum (map exp z)) = x - ln (rsum (map exp z))) by (rewrite ln_div, ln_exp; [reflexivity|apply exp_pos|exact P]).
  rewrite L. apply clip_id.
  assert (I : In (exp x / rsum (map exp z)) (logits z)) by (rewrite E; apply in_map_iff; exists x; auto).
  pose proof (H _ I) as H1. rewrite L in H1. split; [exact H1|].
  pose proof (logits_pos _ _ I) as [H2 H3].
  assert (ln (exp x / rsum (map exp z)) <= 0).
  { rewrite <- ln_1. destruct H3 as [H3|H3]; [left; apply ln_increasing; assumption|right; rewrite H3; reflexivity]. }
  pose proof max_float_pos. lra.
Qed.

Lemma enumerate_map : forall A B (f : A -> B) l n,
  enumerate_from n (map f l) = map (fun p => (fst p, f (snd p))) (enumerate_from n l).
Proof. induction l as [|x l IH]; intros n; [reflexivity|]. cbn [map enumerate_from]. rewrite IH. reflexivity. Qed.

Lemma type_contribution_spec : forall params x rows id, unique_rows rows -> params <> [] ->
  (forall p, In p (logits (type_indices params (x id))) -> - 10 ^ 200 <= ln p) ->
  type_contribution params x rows id =
  Ok (clip (- 10 ^ 200) (10 ^ 200)
        (ln (mixture (logits (type_indices params (x id))) (likelihood_of rows id)))).
Proof.
  intros params x rows id U Hp H. unfold type_contribution. rewrite type_x_betas_linear.
  set (z := type_indices params (x id)) in *.
  assert (Hz : z <> []).
  { unfold z, type_indices. intros X. apply (f_equal (@length R)) in X. rewrite map_length, length_enumerate in X.
    destruct params; [contradiction|discriminate]. }
  rewrite (log_type_spec z Hz H). cbn [result_bind]. unfold enumerate. rewrite enumerate_map, map_map.
  rewrite logsumexp_spec.
  - cbn [result_bind]. f_equal. unfold max_float. f_equal. f_equal. rewrite map_map. unfold mixture, enumerate.
    assert (G : forall l n, (forall q, In q l -> 0 < q) ->
      rsum (map (fun q => exp (per_individual_and_type rows id (fst (fst q, ln (snd q))) + snd (fst q, ln (snd q)))) (enumerate_from n l)) =
      rsum (map (fun tp => snd tp * likelihood_of rows id (fst tp)) (enumerate_from n l))).
    { intros l n Q. apply rsum_map_ext. intros [t q] Hq. cbn [fst snd]. rewrite exp_plus, (per_type_likelihood rows id t U).
      rewrite exp_ln; [apply Rmult_comm|]. apply Q. apply (in_map snd) in Hq. rewrite map_snd_enumerate_from in Hq. exact Hq. }
    apply G. intros q Hq. apply (logits_pos z q Hq).
  - intros X. apply (f_equal (@length R)) in X. rewrite map_length, length_enumerate_from in X. unfold logits in X.
    rewrite map_length, seq_length in X. destruct z; [contradiction|discriminate].
Qed.

(** ** Rows *)
Lemma NoDup_map_fst_enumerate : forall A (l : list A), NoDup (map fst (enumerate l)).
Proof. intros. unfold enumerate. rewrite map_fst_enumerate_from. apply seq_NoDup. Qed.

Lemma number_rows_keys : forall rows, NoDup (map fst (number_rows rows)).
Proof.
  intros rows. unfold number_rows. set (ks := isort _ _).
  assert (ND : NoDup ks) by (apply NoDup_isort, NoDup_drop_duplicates). clearbody ks.
  rewrite flat_map_concat_map, concat_map, map_map, <- flat_map_concat_map.
  apply NoDup_flat_map_intro.
  - exact ND.
  - intros k _. rewrite map_map.
    assert (E : map (fun jr : nat * lrow => fst (k, fst jr, snd jr)) (enumerate (filter (fun r => Nat.eqb (lr_key r) k) rows)) =
            map (fun j => (k, j)) (map fst (enumerate (filter (fun r => Nat.eqb (lr_key r) k) rows)))) by (rewrite map_map; reflexivity).
    rewrite E. apply FinFun.Injective_map_NoDup; [intros a b X; congruence|apply NoDup_map_fst_enumerate].
  - intros k k' b Hk Hk' H1 H2.
    apply in_map_iff in H1. destruct H1 as [y [E1 Y1]]. apply in_map_iff in Y1. destruct Y1 as [jr [E1' _]].
    apply in_map_iff in H2. destruct H2 as [y' [E2 Y2]]. apply in_map_iff in Y2. destruct Y2 as [jr' [E2' _]].
    subst. cbn [fst] in E2. congruence.
Qed.

Lemma number_rows_perm : forall rows, Permutation (map snd (number_rows rows)) rows.
Proof.
  intros rows. unfold number_rows.
  rewrite flat_map_concat_map, concat_map, map_map, <- flat_map_concat_map.
  assert (E : forall k, map snd (map (fun jr : nat * lrow => ((k, fst jr), snd jr)) (enumerate (filter (fun r => Nat.eqb (lr_key r) k) rows)))
     = filter (fun r => Nat.eqb (lr_key r) k) rows).
  { intros k. rewrite map_map. cbn [snd]. apply map_snd_enumerate. }
  rewrite (flat_map_ext _ (fun k => filter (fun r => Nat.eqb (lr_key r) k) rows)) by exact E.
  set (ks := isort _ _).
  assert (ND : NoDup ks) by (apply NoDup_isort, NoDup_drop_duplicates).
  assert (Cov : forall r, In r rows -> In (lr_key r) ks).
  { intros r Hr. apply In_isort, In_drop_duplicates, in_map. exact Hr. }
  clearbody ks. clear E. revert Cov. induction rows as [|r rows IH]; intros Cov.
  - clear. induction ks as [|k ks IH]; [constructor|exact IH].
  - assert (G : forall ks, NoDup ks -> In (lr_key r) ks ->
      Permutation (flat_map (fun k => filter (fun r0 => Nat.eqb (lr_key r0) k) (r :: rows)) ks)
                  (r :: flat_map (fun k => filter (fun r0 => Nat.eqb (lr_key r0) k) rows) ks)).
    { clear. induction ks as [|k ks IH]; intros ND Hk; [contradiction|]. inversion ND as [|? ? Nk ND']; subst.
      cbn [flat_map]. cbn [filter]. destruct (Nat.eqb_spec (lr_key r) k) as [E|N].
      - cbn [app]. apply perm_skip. apply Permutation_app_head.
        rewrite (flat_map_ext _ (fun k0 => filter (fun r0 => Nat.eqb (lr_key r0) k0) rows) ks) || idtac.
        assert (Z : forall ks', ~ In (lr_key r) ks' ->
          flat_map (fun k0 => if Nat.eqb (lr_key r) k0 then r :: filter (fun r0 => Nat.eqb (lr_key r0) k0) rows
                              else filter (fun r0 => Nat.eqb (lr_key r0) k0) rows) ks' =
          flat_map (fun k0 => filter (fun r0 => Nat.eqb (lr_key r0) k0) rows) ks').
        { clear. induction ks' as [|a ks' IH]; intros H; [reflexivity|]. cbn [flat_map].
          rewrite IH by (intros X; apply H; right; exact X).
          destruct (Nat.eqb_spec (lr_key r) a) as [E|_]; [exfalso; apply H; left; auto|reflexivity]. }
        cbn [filter]. rewrite Z by (rewrite E; exact Nk). reflexivity.
      - destruct Hk as [Hk|Hk]; [congruence|]. rewrite (IH ND' Hk).
        apply Permutation_sym, Permutation_middle. }
    rewrite (G ks ND (Cov r (or_introl eq_refl))). apply perm_skip. apply IH.
    intros r0 Hr0. apply Cov. right. exact Hr0.
Qed.

Lemma number_rows_key : forall rows n, In n (number_rows rows) -> fst (fst n) = lr_key (snd n).
Proof.
  intros rows n H. unfold number_rows in H. apply in_flat_map in H. destruct H as [k [_ H]].
  apply in_map_iff in H. destruct H as [jr [<- H]]. cbn [fst snd]. destruct jr as [j r]. cbn [fst snd].
  apply (in_map snd) in H. rewrite map_snd_enumerate in H. apply filter_In in H. destruct H as [_ H].
  apply Nat.eqb_eq in H. auto.
Qed.

Lemma contributions_row_Ok : forall rc qr lk env j r c, contributions_of_row rc qr lk env j r = Ok c ->
  fst c = r /\
  row_loglikes rc qr lk (le_choice_set env (lr_key r)) (le_wages env (lr_key r) (lr_pos r))
    (le_nonpec env (lr_key r) (lr_pos r)) (le_cont env (lr_key r) (lr_pos r)) (le_draws env (lr_key r) j)
    (ob_code (lr_obs r)) (ob_wage (lr_obs r)) = Ok (snd c).
Proof.
  intros rc qr lk env j r c H. unfold contributions_of_row in H.
  destruct (row_loglikes _ _ _ _ _ _ _ _ _ _) as [ll| | | | |]; try discriminate. cbn [result_bind] in H.
  injection H as <-. auto.
Qed.

Lemma computed_rows : forall rc qr lk env rows computed, compute_contributions rc qr lk env rows = Ok computed ->
  map fst computed = map snd (number_rows rows) /\
  Forall2 (fun n c => contributions_of_row rc qr lk env (snd (fst n)) (snd n) = Ok c) (number_rows rows) computed.
Proof.
  intros rc qr lk env rows computed H. unfold compute_contributions in H. apply result_all_map_Ok in H. split; [|exact H].
  induction H as [|n c ns cs Hn _ IH]; [reflexivity|]. cbn [map]. rewrite IH. f_equal.
  apply contributions_row_Ok in Hn. apply Hn.
Qed.

Lemma Forall2_In_r : forall A B (P : A -> B -> Prop) l m y, Forall2 P l m -> In y m -> exists x, In x l /\ P x y.
Proof. intros A B P l m y H. induction H as [|a b l m Hab F IH]; [intros []|]. intros [E|E]; [subst; exists a; simpl; auto|destruct (IH E) as [z [? ?]]; exists z; simpl; auto]. Qed.
Lemma Forall2_In_l : forall A B (P : A -> B -> Prop) l m x, Forall2 P l m -> In x l -> exists y, In y m /\ P x y.
Proof. intros A B P l m x H. induction H as [|a b l m Hab F IH]; [intros []|]. intros [E|E]; [subst; exists b; simpl; auto|destruct (IH E) as [z [? ?]]; exists z; simpl; auto]. Qed.

(** ** Repetition for the types *)
Lemma mean_repeat : forall (g : nat -> R) ids n, (0 < n)%nat -> ids <> [] ->
  mean (map g (flat_map (fun _ => ids) (seq 0 n))) = mean (map g ids).
Proof.
  intros g ids n Hn Hi. unfold mean. rewrite !map_length.
  assert (A : forall l, rsum (map g (flat_map (fun _ : nat => ids) l)) = INR (length l) * rsum (map g ids)).
  { induction l as [|a l IH]; [simpl; lra|]. cbn [flat_map length]. rewrite S_INR, map_app, rsum_app', IH. lra. }
  assert (B : forall l : list nat, length (flat_map (fun _ : nat => ids) l) = (length l * length ids)%nat).
  { induction l as [|a l IH]; [reflexivity|]. cbn [flat_map length]. rewrite app_length, IH. lia. }
  rewrite A, B, seq_length, mult_INR.
  assert (0 < INR n) by (apply lt_0_INR; exact Hn).
  assert (0 < INR (length ids)) by (apply lt_0_INR; destruct ids; [contradiction|simpl; lia]).
  field. lra.
Qed.

Lemma mean_perm : forall l l', Permutation l l' -> mean l = mean l'.
Proof. intros l l' P. unfold mean. rewrite (rsum_perm _ _ P), (Permutation_length P). reflexivity. Qed.

Lemma duplicate_rows : forall locate n_types data rows, (1 <= n_types)%nat ->
  duplicate_for_types locate n_types data = Ok rows ->
  map (fun r => (lr_index r, lr_type r, lr_obs r)) rows =
    flat_map (fun t => map (fun d => (fst d, t, snd d)) data) (seq 0 n_types) /\
  forall r, In r rows -> locate (lr_index r) (lr_obs r) (lr_type r) = Ok (lr_key r, lr_pos r).
Proof.
  intros locate n_types data rows Hn H. unfold duplicate_for_types in H.
  assert (En : (if Nat.leb 2 n_types then n_types else 1%nat) = n_types) by (destruct (Nat.leb_spec 2 n_types); lia).
  rewrite En in H.
  set (L := flat_map (fun t => map (fun d => (d, t)) data) (seq 0 n_types)).
  assert (E : flat_map (fun t => map (fun r => result_bind (locate (fst r) (snd r) t)
         (fun kp => Ok (mkLrow (fst r) t (snd r) (fst kp) (snd kp)))) data) (seq 0 n_types) =
     map (fun dt => result_bind (locate (fst (fst dt)) (snd (fst dt)) (snd dt))
         (fun kp => Ok (mkLrow (fst (fst dt)) (snd dt) (snd (fst dt)) (fst kp) (snd kp)))) L).
  { unfold L. generalize (seq 0 n_types) as ts. induction ts as [|t ts IH]; [reflexivity|]. cbn [flat_map].
    rewrite map_app, IH, map_map. reflexivity. }
  unfold index in *. rewrite E in H. apply result_all_map_Ok in H.
  assert (E2 : flat_map (fun t => map (fun d : nat * nat * obs => (fst d, t, snd d)) data) (seq 0 n_types) =
               map (fun dt => (fst (fst dt), snd dt, snd (fst dt))) L).
  { unfold L. clear. generalize (seq 0 n_types) as ts. induction ts as [|t ts IH]; [reflexivity|]. cbn [flat_map].
    rewrite map_app, IH, map_map. reflexivity. }
  unfold frame, index in *. rewrite E2. clear E E2. clearbody L. split.
  - induction H as [|dt r dts rs Hr _ IH]; [reflexivity|]. cbn [map]. rewrite IH. f_equal.
    destruct (locate _ _ _) as [kp| | | | |]; try discriminate. cbn [result_bind] in Hr. injection Hr as <-. reflexivity.
  - intros r Hr. destruct (Forall2_In_r _ _ _ _ _ _ H Hr) as [dt [_ Hd]].
    destruct (locate _ _ _) as [kp| | | | |] eqn:Lo in Hd; try discriminate. cbn [result_bind] in Hd. injection Hd as <-.
    cbn [lr_index lr_obs lr_type lr_key lr_pos]. rewrite Lo. destruct kp; reflexivity.
Qed.

Lemma NoDup_flat_types : forall (data : frame obs) n, NoDup (map fst data) ->
  NoDup (map (fun x => (fst (fst x), snd (fst x))) (flat_map (fun t => map (fun d => (fst d, t, snd d)) data) (seq 0 n))).
Proof.
  intros data n ND. rewrite flat_map_concat_map, concat_map, map_map, <- flat_map_concat_map.
  apply NoDup_flat_map_intro.
  - apply seq_NoDup.
  - intros t _. rewrite map_map. cbn [fst snd].
    assert (E : map (fun x : index * obs => (fst x, t)) data = map (fun i => (i, t)) (map fst data)) by (rewrite map_map; reflexivity).
    unfold frame, index in *. rewrite E. apply FinFun.Injective_map_NoDup; [intros a b X; congruence|exact ND].
  - intros t t' b Ht Ht' H1 H2. rewrite map_map in H1, H2. cbn [fst snd] in H1, H2.
    apply in_map_iff in H1. apply in_map_iff in H2. destruct H1 as [d [<- _]]. destruct H2 as [d' [X _]]. congruence.
Qed.

Lemma unique_rows_perm : forall rows rows', Permutation rows rows' -> unique_rows rows -> unique_rows rows'.
Proof. intros rows rows' P H. unfold unique_rows in *. eapply Permutation_NoDup; [|exact H]. apply Permutation_map. exact P. Qed.

Lemma likelihood_of_perm : forall rows rows' id t, Permutation rows rows' -> likelihood_of rows id t = likelihood_of rows' id t.
Proof.
  intros rows rows' id t P. unfold likelihood_of.
  assert (Q : forall l l', Permutation l l' -> rprod l = rprod l').
  { intros l l' X. induction X; unfold rprod in *; simpl; try lra. rewrite IHX. reflexivity. }
  apply Q. apply Permutation_map.
  clear Q. induction P; simpl.
  - constructor.
  - destruct (_ && _); [apply perm_skip|]; exact IHP.
  - destruct (_ && _), (_ && _); try apply Permutation_refl. apply perm_swap.
  - eapply Permutation_trans; eauto.
Qed.

Lemma covers_exists : forall rc qr lk locate env n_types data rows computed, (1 <= n_types)%nat ->
  duplicate_for_types locate n_types data = Ok rows ->
  compute_contributions rc qr lk env rows = Ok computed ->
  exists numbered, map snd numbered = computed /\ covers rc qr lk locate env n_types data numbered.
Proof.
  intros rc qr lk locate env n_types data rows computed Hn D C.
  destruct (duplicate_rows _ _ _ _ Hn D) as [D1 D2].
  destruct (computed_rows _ _ _ _ _ _ C) as [C1 C2].
  assert (Ln : length (map fst (number_rows rows)) = length computed).
  { rewrite map_length. apply (f_equal (@length lrow)) in C1. rewrite !map_length in C1. auto. }
  set (numbered := combine (map fst (number_rows rows)) computed).
  assert (F1 : map fst numbered = map fst (number_rows rows)).
  { unfold numbered. revert Ln. generalize (map fst (number_rows rows)) as a. generalize computed as b. clear.
    induction b as [|y b IH]; intros [|x a] H; try discriminate; [reflexivity|]. cbn. f_equal. apply IH. simpl in H. lia. }
  assert (F2 : map snd numbered = computed).
  { unfold numbered. revert Ln. generalize (map fst (number_rows rows)) as a. generalize computed as b. clear.
    induction b as [|y b IH]; intros [|x a] H; try discriminate; [reflexivity|]. cbn. f_equal. apply IH. simpl in H. lia. }
  exists numbered. split; [exact F2|]. split; [|split].
  - rewrite F1. apply number_rows_keys.
  - rewrite <- D1.
    assert (E : map (fun n => (lr_index (fst (snd n)), lr_type (fst (snd n)), lr_obs (fst (snd n)))) numbered =
                map (fun r => (lr_index r, lr_type r, lr_obs r)) (map fst computed)).
    { rewrite <- F2, !map_map. reflexivity. }
    rewrite E, C1. apply Permutation_map. apply number_rows_perm.
  - intros k j r ll H. unfold numbered in H.
    assert (X : exists n, In n (number_rows rows) /\ fst n = (k, j) /\
       contributions_of_row rc qr lk env (snd (fst n)) (snd n) = Ok (r, ll)).
    { revert H C2. generalize (number_rows rows) as ns. generalize computed as cs. clear.
      induction cs as [|c cs IH]; intros ns H F; inversion F as [|n c' ns' cs' Hn F']; subst; [contradiction|].
      cbn in H. destruct H as [H|H].
      - exists n. injection H as H1 H2. subst. split; [left; reflexivity|]. split; [exact H1|exact Hn].
      - destruct (IH ns' H F') as [n' [A [B C]]]. exists n'. split; [right; exact A|]. auto. }
    destruct X as [n [Hin [Ek Hc]]]. pose proof (number_rows_key _ _ Hin) as Kk. rewrite Ek in Kk, Hc. cbn [fst snd] in Kk, Hc.
    apply contributions_row_Ok in Hc. cbn [fst snd] in Hc. destruct Hc as [Er Hc]. subst r. rewrite <- Kk in Hc.
    split; [|exact Hc].
    assert (Hr : In (snd n) rows).
    { eapply Permutation_in; [apply number_rows_perm|]. apply in_map. exact Hin. }
    rewrite (D2 _ Hr), <- Kk. reflexivity.
Qed.

Lemma covers_unique : forall rc qr lk locate env n_types data numbered,
  NoDup (map fst data) -> covers rc qr lk locate env n_types data numbered -> unique_rows (map snd numbered).
Proof.
  intros rc qr lk locate env n_types data numbered ND [_ [P _]]. unfold unique_rows. rewrite map_map.
  pose proof (NoDup_flat_types data n_types ND) as N.
  eapply Permutation_NoDup; [|exact N]. apply Permutation_sym.
  apply (Permutation_map (fun x => (fst (fst x), snd (fst x)))) in P. rewrite map_map in P. cbn [fst snd] in P. exact P.
Qed.

Lemma log_like_types : forall rc qr lk locate env n_types params x order_rows order_types data v cs,
  (2 <= n_types)%nat -> length params = n_types -> NoDup (map fst data) -> individuals data <> [] ->
  (forall l, Permutation (order_rows l) l) -> (forall l, Permutation (order_types l) l) ->
  (forall id p, In id (individuals data) -> In p (logits (type_indices params (x id))) -> - 10 ^ 200 <= ln p) ->
  log_like rc qr lk locate env n_types params x order_rows order_types data = Ok (v, cs) ->
  exists numbered,
    covers rc qr lk locate env n_types data numbered /\
    let contribution id := clip (- 10 ^ 200) (10 ^ 200)
       (ln (mixture (logits (type_indices params (x id))) (likelihood_of (map snd numbered) id))) in
    v = mean (map contribution (individuals data)) /\
    Permutation cs (flat_map (fun _ => map contribution (individuals data)) (seq 0 n_types)).
Proof.
  intros rc qr lk locate env n_types params x order_rows order_types data v cs Hn Lp ND Hne Por Pot Hpr H.
  unfold log_like in H.
  destruct (duplicate_for_types locate n_types data) as [rows| | | | |] eqn:D; try discriminate. cbn [result_bind] in H.
  destruct (compute_contributions rc qr lk env rows) as [computed| | | | |] eqn:C; try discriminate. cbn [result_bind] in H.
  destruct (covers_exists _ _ _ _ _ _ _ _ _ (Nat.le_trans _ _ _ (Nat.le_succ_diag_r 1) Hn) D C) as [numbered [E Cov]].
  exists numbered. split; [exact Cov|]. intros contribution.
  pose proof (covers_unique _ _ _ _ _ _ _ _ ND Cov) as U. rewrite E in U.
  unfold contributions in H. rewrite (proj2 (Nat.leb_le 2 n_types) Hn) in H.
  set (ids := order_types (type_rows data n_types)) in *.
  assert (PI : Permutation ids (flat_map (fun _ => individuals data) (seq 0 n_types))) by apply Pot.
  rewrite (result_all_map_value _ _ _ contribution ids) in H.
  - cbn [result_bind] in H. injection H as Ev Ec.
    assert (PC : Permutation cs (flat_map (fun _ => map contribution (individuals data)) (seq 0 n_types))).
    { rewrite <- Ec. apply (Permutation_map contribution) in PI.
      rewrite flat_map_concat_map, concat_map, map_map, <- flat_map_concat_map in PI. exact PI. }
    split; [|exact PC].
    rewrite <- Ev. change (fold_right Rplus 0 (map contribution ids)) with (rsum (map contribution ids)).
    change (mean (map contribution ids) = mean (map contribution (individuals data))).
    rewrite (mean_perm _ _ (Permutation_map contribution PI)). apply mean_repeat; [lia|exact Hne].
  - intros id Hid.
    assert (Hid' : In id (individuals data)).
    { eapply Permutation_in in Hid; [|exact PI]. apply in_flat_map in Hid. destruct Hid as [t [_ Hid]]. exact Hid. }
    rewrite type_contribution_spec.
    + unfold contribution. f_equal. f_equal. f_equal. unfold mixture. apply rsum_map_ext. intros tp _. f_equal.
      rewrite E. apply likelihood_of_perm. apply Por.
    + eapply unique_rows_perm; [apply Permutation_sym, Por|exact U].
    + intros X. rewrite X in Lp. simpl in Lp. lia.
    + intros p Hp. apply (Hpr id p Hid' Hp).
Qed.

Lemma In_types : forall (data : frame obs) n x,
  In x (flat_map (fun t => map (fun d => (fst d, t, snd d)) data) (seq 0 n)) ->
  (snd (fst x) < n)%nat /\ In (fst (fst x), snd x) data.
Proof.
  intros data n x H. apply in_flat_map in H. destruct H as [t [Ht H]]. apply in_map_iff in H. destruct H as [d [<- Hd]].
  apply in_seq in Ht. cbn [fst snd]. split; [lia|]. destruct d. exact Hd.
Qed.

Lemma log_like_single : forall rc qr lk locate env params x order_rows order_types data v cs,
  (forall l, Permutation (order_rows l) l) ->
  log_like rc qr lk locate env 1 params x order_rows order_types data = Ok (v, cs) ->
  exists numbered ids,
    covers rc qr lk locate env 1 data numbered /\
    NoDup ids /\ (forall id, In id ids <-> exists p ob, In ((id, p), ob) data) /\
    cs = map (fun id => clip (- 10 ^ 200) (10 ^ 200) (ln (likelihood_of (map snd numbered) id 0))) ids /\
    v = mean cs.
Proof.
  intros rc qr lk locate env params x order_rows order_types data v cs Por H.
  unfold log_like in H.
  destruct (duplicate_for_types locate 1 data) as [rows| | | | |] eqn:D; try discriminate. cbn [result_bind] in H.
  destruct (compute_contributions rc qr lk env rows) as [computed| | | | |] eqn:C; try discriminate. cbn [result_bind] in H.
  destruct (covers_exists _ _ _ _ _ _ _ _ _ (Nat.le_refl 1) D C) as [numbered [E Cov]].
  unfold contributions in H. cbn [Nat.leb result_bind] in H.
  set (ids := isort Nat.leb (drop_duplicates Nat.eq_dec (map (fun r => fst (lr_index (fst r))) (order_rows computed)))) in *.
  exists numbered, ids. injection H as Ev Ec. split; [exact Cov|]. split; [apply NoDup_isort, NoDup_drop_duplicates|].
  destruct Cov as [_ [P _]].
  split; [|split].
  - intros id. unfold ids. rewrite In_isort, In_drop_duplicates, in_map_iff. split.
    + intros [r [Er Hr]]. eapply Permutation_in in Hr; [|apply Por]. rewrite <- E in Hr.
      apply in_map_iff in Hr. destruct Hr as [n [En Hn]]. subst r.
      assert (I : In (lr_index (fst (snd n)), lr_type (fst (snd n)), lr_obs (fst (snd n)))
                     (flat_map (fun t => map (fun d => (fst d, t, snd d)) data) (seq 0 1))).
      { eapply Permutation_in; [exact P|]. apply in_map_iff. exists n. auto. }
      apply In_types in I. cbn [fst snd] in I. destruct I as [_ I]. destruct (lr_index (fst (snd n))) as [a p]. cbn [fst] in Er. subst a. eauto.
    + intros [p [ob Hd]].
      assert (I : In ((id, p), 0%nat, ob) (flat_map (fun t => map (fun d => (fst d, t, snd d)) data) (seq 0 1))).
      { cbn [seq flat_map]. rewrite app_nil_r. apply in_map_iff. exists ((id, p), ob). auto. }
      eapply Permutation_in in I; [|apply Permutation_sym; exact P]. apply in_map_iff in I. destruct I as [n [En Hn]].
      exists (snd n). injection En as E1 E2 E3. rewrite E1. split; [reflexivity|].
      eapply Permutation_in; [apply Permutation_sym, Por|]. rewrite <- E. apply in_map. exact Hn.
  - rewrite <- Ec. apply map_ext. intros id. unfold max_float. f_equal.
    rewrite <- (ln_exp (per_individual (order_rows computed) id)), per_individual_likelihood. f_equal.
    transitivity (likelihood_of (order_rows computed) id 0).
    + unfold likelihood_of. f_equal. f_equal. apply filter_ext_in. intros r Hr.
      eapply Permutation_in in Hr; [|apply Por]. rewrite <- E in Hr. apply in_map_iff in Hr. destruct Hr as [n [En Hn]]. subst r.
      assert (I : In (lr_index (fst (snd n)), lr_type (fst (snd n)), lr_obs (fst (snd n)))
                     (flat_map (fun t => map (fun d => (fst d, t, snd d)) data) (seq 0 1))).
      { eapply Permutation_in; [exact P|]. apply in_map_iff. exists n. auto. }
      apply In_types in I. cbn [fst snd] in I. destruct I as [I _].
      assert (Z : lr_type (fst (snd n)) = 0%nat) by lia. rewrite Z. cbn [Nat.eqb]. rewrite andb_true_r. reflexivity.
    + rewrite E. apply likelihood_of_perm. apply Por.
  - rewrite <- Ev, <- Ec. reflexivity.
Qed.

(** ** When the likelihood can be evaluated *)
Lemma select_valid_filter : forall cs n, (n <= length cs)%nat ->
  select_valid_choices (seq 0 n) cs = filter (fun c => Nat.ltb c n) (positions cs).
Proof.
  intros cs n Hn. unfold select_valid_choices, positions, enumerate.
  assert (G : forall m (f : nat -> bool) k, 
     map snd (filter (fun p => f (fst p)) (enumerate_from k (seq k m))) = filter f (seq k m)).
  { induction m as [|m IH]; intros f k; [reflexivity|]. cbn [seq enumerate_from filter fst].
    destruct (f k); cbn [map snd]; rewrite IH; reflexivity. }
  rewrite (G n (fun i => nth i cs false) 0%nat). clear G.
  assert (G : forall cs k, map fst (filter (fun p => snd p) (enumerate_from k cs)) =
     filter (fun c => nth (c - k) cs false) (seq k (length cs))).
  { clear. induction cs as [|b cs IH]; intros k; [reflexivity|]. cbn [enumerate_from filter snd length seq].
    rewrite Nat.sub_diag. change (nth 0 (b :: cs) false) with b.
    assert (E : filter (fun c => nth (c - k) (b :: cs) false) (seq (S k) (length cs)) =
                filter (fun c => nth (c - S k) cs false) (seq (S k) (length cs))).
    { apply filter_ext_in. intros c Hc. apply in_seq in Hc. replace (c - k)%nat with (S (c - S k)) by lia. reflexivity. }
    rewrite E. destruct b; cbn [map fst]; rewrite IH; reflexivity. }
  rewrite (G cs 0%nat).
  assert (E : length cs = (n + (length cs - n))%nat) by lia. rewrite E at 1. rewrite seq_app, !filter_app.
  rewrite (filter_ext_in (fun i => nth i cs false) (fun c => nth (c - 0) cs false)) by (intros; rewrite Nat.sub_0_r; reflexivity).
  assert (F1 : forall l, (forall c, In c l -> (c < n)%nat) -> filter (fun c => Nat.ltb c n) l = l).
  { induction l as [|c l IH]; intros H; [reflexivity|]. cbn [filter].
    rewrite (proj2 (Nat.ltb_lt c n)) by (apply H; left; reflexivity). f_equal. apply IH. intros; apply H; right; assumption. }
  assert (F2 : forall l, (forall c, In c l -> (n <= c)%nat) -> filter (fun c => Nat.ltb c n) l = []).
  { induction l as [|c l IH]; intros H; [reflexivity|]. cbn [filter].
    rewrite (proj2 (Nat.ltb_ge c n)) by (apply H; left; reflexivity). apply IH. intros; apply H; right; assumption. }
  rewrite F1, F2, app_nil_r; [reflexivity| |].
  - intros c Hc. apply filter_In in Hc. destruct Hc as [Hc _]. apply in_seq in Hc. lia.
  - intros c Hc. apply filter_In in Hc. destruct Hc as [Hc _]. apply in_seq in Hc. lia.
Qed.

Lemma rank_below : forall (l : list nat) n i code, Sorted.StronglySorted lt l -> nth_error l i = Some code -> (code < n)%nat ->
  (i < length (filter (fun c => Nat.ltb c n) l))%nat.
Proof.
  induction l as [|x l IH]; intros n i code S H Hn; [destruct i; discriminate|].
  inversion S as [|? ? S' F]; subst. cbn [filter]. destruct i as [|i]; cbn [nth_error] in H.
  - injection H as ->. rewrite (proj2 (Nat.ltb_lt code n) Hn). simpl. lia.
  - assert (x < code)%nat by (rewrite Forall_forall in F; apply F; eapply nth_error_In; eauto).
    rewrite (proj2 (Nat.ltb_lt x n)) by lia. cbn [length]. specialize (IH n i code S' H Hn). lia.
Qed.

Lemma evaluable_row : forall rc qr lk env k pos ob j, lk_tau lk <> 0 -> (lk_nwages lk <= length (lk_meas lk))%nat ->
  evaluable lk env k pos ob ->
  exists ll, row_loglikes rc qr lk (le_choice_set env k) (le_wages env k pos) (le_nonpec env k pos)
    (le_cont env k pos) (le_draws env k j) (ob_code ob) (ob_wage ob) = Ok ll.
Proof.
  intros rc qr lk env k pos ob j Ht Hnw [Ha [Hw [Hl [L1 [L2 [L3 Hd]]]]]].
  destruct (map_choice_available _ _ Ha) as [i [_ Hi]].
  apply row_succeeds with (i := i); auto; try congruence.
  - rewrite <- Hl. assert (Hi' : (i < length (positions (le_choice_set env k)))%nat) by (apply nth_error_Some; rewrite Hi; discriminate).
    rewrite length_positions in Hi'.
    assert (forall m, count_true m <= length m)%nat.
    { clear. induction m as [|b m IH]; [simpl; lia|]. destruct b; simpl; lia. }
    specialize (H (le_choice_set env k)). lia.
  - destruct Hw as [Hw|Hw]; [left; exact Hw|right].
    rewrite select_valid_filter by lia. eapply rank_below; [apply positions_sorted|exact Hi|exact Hw].
Qed.

Lemma log_like_succeeds : forall rc qr lk locate env n_types params x order_rows order_types data,
  (1 <= n_types)%nat -> length params = n_types -> lk_tau lk <> 0 -> (lk_nwages lk <= length (lk_meas lk))%nat ->
  (forall idx ob t, In (idx, ob) data -> (t < n_types)%nat ->
     exists k pos, locate idx ob t = Ok (k, pos) /\ evaluable lk env k pos ob) ->
  exists v cs, log_like rc qr lk locate env n_types params x order_rows order_types data = Ok (v, cs).
Proof.
  intros rc qr lk locate env n_types params x order_rows order_types data Hn Lp Ht Hnw H.
  unfold log_like.
  assert (D : exists rows, duplicate_for_types locate n_types data = Ok rows).
  { unfold duplicate_for_types.
    assert (En : (if Nat.leb 2 n_types then n_types else 1%nat) = n_types) by (destruct (Nat.leb_spec 2 n_types); lia).
    rewrite En.
    assert (G : forall l, (forall z, In z l -> exists y, z = Ok y) -> exists ys, @result_all lrow l = Ok ys).
    { induction l as [|z l IH]; intros Hz; [exists []; reflexivity|].
      destruct (Hz z (or_introl eq_refl)) as [y ->]. destruct IH as [ys E]; [intros; apply Hz; right; assumption|].
      cbn [result_all result_bind]. rewrite E. cbn [result_bind]. eauto. }
    apply G. intros z Hz. apply in_flat_map in Hz. destruct Hz as [t [Ht' Hz]]. apply in_seq in Ht'.
    apply in_map_iff in Hz. destruct Hz as [[idx ob] [<- Hd]].
    destruct (H idx ob t Hd ltac:(lia)) as [k [pos [E _]]]. cbn [fst snd]. rewrite E. cbn [result_bind]. eauto. }
  destruct D as [rows D]. rewrite D. cbn [result_bind].
  destruct (duplicate_rows _ _ _ _ Hn D) as [D1 D2].
  assert (C : exists computed, compute_contributions rc qr lk env rows = Ok computed).
  { unfold compute_contributions. apply result_all_Ok_exists. intros n Hin.
    assert (Hr : In (snd n) rows) by (eapply Permutation_in; [apply number_rows_perm|apply in_map; exact Hin]).
    pose proof (D2 _ Hr) as Lo.
    assert (I : In (lr_index (snd n), lr_type (snd n), lr_obs (snd n)) (flat_map (fun t => map (fun d => (fst d, t, snd d)) data) (seq 0 n_types))).
    { rewrite <- D1. apply (in_map (fun r => (lr_index r, lr_type r, lr_obs r))). exact Hr. }
    apply In_types in I. cbn [fst snd] in I. destruct I as [It Id].
    destruct (H _ _ _ Id It) as [k [pos [E Ev]]]. rewrite Lo in E. injection E as Ek Ep. subst k pos.
    unfold contributions_of_row.
    destruct (evaluable_row rc qr lk env (lr_key (snd n)) (lr_pos (snd n)) (lr_obs (snd n)) (snd (fst n)) Ht Hnw Ev) as [ll E].
    rewrite E. cbn [result_bind]. eauto. }
  destruct C as [computed C]. rewrite C. cbn [result_bind]. unfold contributions.
  destruct (Nat.leb_spec 2 n_types) as [L|L].
  - assert (T : forall id, exists c, type_contribution params x (order_rows computed) id = Ok c).
    { intros id. unfold type_contribution, log_type_probabilities. rewrite logsumexp_spec.
      - cbn [result_bind]. rewrite logsumexp_spec.
        + cbn [result_bind]. eauto.
        + intros X. apply (f_equal (@length R)) in X. rewrite map_length, length_enumerate, map_length in X. unfold type_x_betas in X.
          rewrite map_length, length_enumerate in X. simpl in X. lia.
      - intros X. apply (f_equal (@length R)) in X. unfold type_x_betas in X. rewrite map_length, length_enumerate in X. simpl in X. lia. }
    destruct (result_all_Ok_exists _ _ (type_contribution params x (order_rows computed)) (order_types (type_rows data n_types)))
      as [cs Ecs]; [intros id _; apply T|]. rewrite Ecs. cbn [result_bind]. eauto.
  - cbn [result_bind]. eauto.
Qed.
