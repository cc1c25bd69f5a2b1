(** Proofs about the method of simulated moments: weights, errors and structures. *)
From Coq Require Import List Arith Bool String Reals Lra Lia Permutation.
From Verif Require Import Base Proof_Base Model_Choices Spec_Choices Proof_Choices Spec_Solve Proof_LikelihoodPanel Model_Cache Proof_Cache Model_MSM Spec_MSM Proof_MSM.
Import ListNotations.
Open Scope string_scope.
Local Open Scope nat_scope.

Lemma names_permutation : forall sims emp, same_sets sims emp -> Permutation (map fst sims) (map fst emp).
Proof. intros sims emp [N [NE [S _]]]. apply NoDup_Permutation; assumption. Qed.
Lemma flatten_nonempty : forall d, d <> [] -> flatten_index d = Ok (flat_map flatten_set d).
Proof. intros [|x d] H; [congruence|reflexivity]. Qed.
Lemma nonempty_names : forall A B (a : list (string * A)) (b : list (string * B)), map fst a = map fst b -> a <> [] -> b <> [].
Proof. intros A B [|x a] [|y b] H N; try discriminate; congruence. Qed.
Lemma nonempty_same : forall sims emp, same_sets sims emp -> emp <> [] -> sims <> [].
Proof. intros sims emp S N ->. apply names_permutation in S. destruct emp as [|[n m] emp]; [congruence|]. apply Permutation_nil in S. discriminate. Qed.
Lemma distinct_names_keys : forall emp, NoDup (map fst emp) -> distinct_names emp -> NoDup (map label_of (keys_of emp (map fst emp))).
Proof. intros emp N D. unfold distinct_names in D. rewrite (over_moments_keys _ emp _ N), map_map in D. exact D. Qed.

Lemma is_square_diag : forall n w, List.length w = n -> is_square n (diag w) = true.
Proof.
  intros n w L. unfold is_square, diag. rewrite map_length, seq_length, L, Nat.eqb_refl. cbn [andb]. apply forallb_forall.
  intros row I. apply in_map_iff in I. destruct I as [i [<- _]]. rewrite map_length, seq_length. apply Nat.eqb_refl.
Qed.

(** ** Weights *)

Theorem weights_by_label : forall emp ws, same_sets ws emp -> emp <> [] -> distinct_names emp ->
  get_diag_weighting_matrix (Named emp) (Some (Named ws)) = Ok (diag (map snd (over_moments emp (moment_of ws)))).
Proof.
  intros emp ws S NE D. pose proof S as [N [N' [E [W [WE A]]]]]. unfold get_diag_weighting_matrix. cbn [harmonize result_bind].
  destruct (reindexed_sets ws emp S) as [ws' [R [F1 F2]]]. rewrite R. cbn [result_bind].
  rewrite (flatten_nonempty ws') by (apply (nonempty_names _ _ ws ws' (eq_sym F1)), (nonempty_same _ _ S NE)). cbn [result_bind].
  rewrite (flatten_nonempty emp NE), F2, (flatten_own emp N' WE). cbn [result_bind].
  rewrite !(over_moments_keys _ emp _ N'), !map_map. cbn [fst snd].
  change (map (fun x => label_of x) (keys_of emp (map fst ws))) with (map label_of (keys_of emp (map fst ws))).
  change (map (fun x => label_of x) (keys_of emp (map fst emp))) with (map label_of (keys_of emp (map fst emp))).
  pose proof (keys_permutation emp _ _ (names_permutation _ _ S)) as P.
  pose proof (distinct_names_keys emp N' D) as DK.
  assert (DW : NoDup (map label_of (keys_of emp (map fst ws)))) by (apply (Permutation_NoDup (Permutation_map label_of (Permutation_sym P)) DK)).
  rewrite reindex_distinct by (rewrite ?map_length; auto). cbn [result_bind]. f_equal. f_equal. rewrite map_map. apply map_ext_in. intros np I.
  apply (lookup_labelled (keys_of emp (map fst ws)) (fun np => moment_of ws (fst np) (snd np)) np DW).
  apply (Permutation_in np (Permutation_sym P) I).
Qed.
Theorem default_weights : forall emp, emp <> [] -> (forall n m, In (n, m) emp -> well_formed m) -> NoDup (map fst emp) ->
  get_diag_weighting_matrix (Named emp) None = Ok (diag (map (fun _ => Some 1%R) (over_moments emp (moment_of emp)))).
Proof.
  intros emp NE W N. unfold get_diag_weighting_matrix. cbn [harmonize result_bind]. rewrite (flatten_nonempty emp NE). cbn [result_bind].
  rewrite (flatten_own emp N W). reflexivity.
Qed.

(** ** Errors *)

Lemma errors_of_keys : forall emp sims, NoDup (map fst emp) -> errors_of emp sims =
  map (fun np => (label_of np, difference (moment_of emp (fst np) (snd np)) (moment_of sims (fst np) (snd np)))) (keys_of emp (map fst emp)).
Proof. intros emp sims N. unfold errors_of. rewrite (over_moments_keys _ emp _ N). reflexivity. Qed.
Lemma moment_errors_any : forall sims emp W, same_sets sims emp -> emp <> [] -> distinct_names emp ->
  is_square (List.length (errors_of emp sims)) W = true ->
  exists o, moment_errors sims (keep_missing emp) emp W = Ok o /\ Permutation (o_errors o) (errors_of emp sims) /\
    (o_errors o = errors_of emp sims \/ alphabetical (map fst (o_errors o))).
Proof.
  intros sims emp W S NE D Q. pose proof S as [N [N' [E [Wf [WE A]]]]]. unfold moment_errors.
  destruct (reindexed_sets sims emp S) as [s [R [F1 F2]]]. rewrite R. cbn [result_bind].
  rewrite (replaced_none emp s N') by (rewrite F1; intros n I; apply E; exact I). cbn [result_bind].
  rewrite (flatten_nonempty emp NE). cbn [result_bind].
  rewrite (flatten_nonempty s) by (apply (nonempty_names _ _ sims s (eq_sym F1)), (nonempty_same _ _ S NE)). cbn [result_bind].
  rewrite F2, (flatten_own emp N' WE), (over_moments_keys _ emp _ N').
  destruct (subtract_any (keys_of emp (map fst emp)) (keys_of emp (map fst sims))
              (fun np => moment_of emp (fst np) (snd np)) (fun np => moment_of sims (fst np) (snd np))
              (Permutation_sym (keys_permutation emp _ _ (names_permutation _ _ S))) (distinct_names_keys emp N' D)) as [er [X [P O]]].
  rewrite X. cbn [result_bind]. pose proof (errors_of_keys emp sims N') as Z.
  rewrite <- Z in P, O. rewrite map_length, (Permutation_length P), Q. eexists. split; [reflexivity|]. cbn [o_errors]. split; [exact P|exact O].
Qed.
Theorem errors_by_label : forall sims emp W, same_sets sims emp -> emp <> [] -> map fst sims = map fst emp ->
  is_square (List.length (errors_of emp sims)) W = true ->
  exists o, moment_errors sims (keep_missing emp) emp W = Ok o /\ o_errors o = errors_of emp sims.
Proof.
  intros sims emp W S NE O Q. pose proof S as [N [N' [E [Wf [WE A]]]]]. unfold moment_errors.
  destruct (reindexed_sets sims emp S) as [s [R [F1 F2]]]. rewrite R. cbn [result_bind].
  rewrite (replaced_none emp s N') by (rewrite F1; intros n I; apply E; exact I). cbn [result_bind].
  rewrite (flatten_nonempty emp NE). cbn [result_bind].
  rewrite (flatten_nonempty s) by (apply (nonempty_names _ _ sims s (eq_sym F1)), (nonempty_same _ _ S NE)). cbn [result_bind].
  rewrite F2, (flatten_own emp N' WE), (over_moments_keys _ emp _ N'), O.
  rewrite (subtract_same (keys_of emp (map fst emp)) (fun np => moment_of emp (fst np) (snd np)) (fun np => moment_of sims (fst np) (snd np))).
  cbn [result_bind]. pose proof (errors_of_keys emp sims N') as Z.
  rewrite <- Z, map_length, Q. eexists. split; reflexivity.
Qed.

Lemma over_moments_length : forall A B d (f : string -> place -> A) (g : string -> place -> B),
  List.length (over_moments d f) = List.length (over_moments d g).
Proof.
  intros A B d f g. unfold over_moments. induction d as [|[n m] d IH]; cbn [flat_map]; [reflexivity|].
  rewrite !app_length, !map_length, IH. reflexivity.
Qed.

Lemma func_named : forall P D (simulate : P -> D) calc emp W p, same_sets (calculated calc (simulate p)) emp ->
  get_moment_errors_func simulate (Named calc) None (Named emp) (Some W) =
  Ok (fun params => moment_errors (calculated calc (simulate params)) (keep_missing emp) emp W).
Proof.
  intros P D simulate calc emp W p S. unfold get_moment_errors_func. cbn [harmonize result_bind]. rewrite map_length, !Nat.ltb_irrefl, andb_false_r.
  apply names_permutation, Permutation_length in S. unfold calculated in S. rewrite !map_length in S. rewrite S, Nat.eqb_refl. reflexivity.
Qed.
Lemma func_named_default : forall P D (simulate : P -> D) calc emp p, same_sets (calculated calc (simulate p)) emp -> emp <> [] ->
  get_moment_errors_func simulate (Named calc) None (Named emp) None =
  Ok (fun params => moment_errors (calculated calc (simulate params)) (keep_missing emp) emp
                      (diag (map (fun _ => Some 1%R) (over_moments emp (moment_of emp))))).
Proof.
  intros P D simulate calc emp p S NE. pose proof S as [N [N' [E [Wf [WE A]]]]].
  rewrite <- (func_named P D simulate calc emp (diag (map (fun _ => Some 1%R) (over_moments emp (moment_of emp)))) p S).
  unfold get_moment_errors_func. rewrite (default_weights emp NE WE N'). reflexivity.
Qed.

(** The criterion with weights by label, if sets of moments are in the same order. *)
Theorem weighted_criterion : forall P D (simulate : P -> D) calc emp ws, emp <> [] -> distinct_names emp -> same_sets ws emp ->
  (forall p, same_sets (calculated calc (simulate p)) emp) -> map fst calc = map fst emp -> inhabited P ->
  exists W f, get_diag_weighting_matrix (Named emp) (Some (Named ws)) = Ok W /\
    get_moment_errors_func simulate (Named calc) None (Named emp) (Some W) = Ok f /\
    forall p, exists o, f p = Ok o /\ o_errors o = errors_of emp (calculated calc (simulate p)) /\
      forall w e, map snd (over_moments emp (moment_of ws)) = map Some w ->
        map snd (errors_of emp (calculated calc (simulate p))) = map Some e ->
        (forall x, In x w -> (0 <= x)%R) -> o_value o = Some (weighted_sum_of_squares w e).
Proof.
  intros P D simulate calc emp ws NE DN SW S O [p0]. exists (diag (map snd (over_moments emp (moment_of ws)))).
  rewrite (func_named P D simulate calc emp _ p0 (S p0)). eexists. split; [apply weights_by_label; assumption|]. split; [reflexivity|]. intros p.
  destruct (errors_by_label (calculated calc (simulate p)) emp (diag (map snd (over_moments emp (moment_of ws))))) as [o [X Y]]; auto.
  - unfold calculated. rewrite map_map. exact O.
  - apply is_square_diag. rewrite map_length. apply over_moments_length.
  - exists o. split; [exact X|]. split; [exact Y|]. intros w e Hw He Hp. rewrite Hw in X. rewrite <- Y in He.
    apply (criterion _ _ _ w e o X He Hp).
Qed.

Lemma Permutation_map_Some : forall (l : list value) e, Permutation l (map Some e) -> exists e', l = map Some e' /\ Permutation e' e.
Proof.
  intros l e P. assert (X : exists e', l = map Some e').
  { assert (H : forall x, In x l -> x <> None).
    { intros x I. apply (Permutation_in x P) in I. apply in_map_iff in I. destruct I as [y [<- _]]. discriminate. }
    clear P. induction l as [|[x|] l IH].
    - exists []. reflexivity.
    - destruct (IH (fun y I => H y (or_intror I))) as [e' ->]. exists (x :: e'). reflexivity.
    - exfalso. apply (H None (or_introl eq_refl) eq_refl). }
  destruct X as [e' ->]. exists e'. split; [reflexivity|].
  assert (G : forall l, flat_map (fun x : value => match x with Some y => [y] | None => [] end) (map Some l) = l).
  { induction l as [|x l IH]; cbn; [reflexivity|]. f_equal. exact IH. }
  rewrite <- (G e'), <- (G e). apply Permutation_flat_map. exact P.
Qed.
Lemma weighted_ones : forall e w, (forall x, In x w -> x = 1%R) -> List.length e = List.length w -> weighted_sum_of_squares w e = sum_of_squares e.
Proof.
  unfold weighted_sum_of_squares, sum_of_squares. induction e as [|x e IH]; intros [|y w] H L; try discriminate; [reflexivity|]. injection L as L.
  cbn [combine map rsum fold_right fst snd]. pose proof (IH w (fun z I => H z (or_intror I)) L) as I. unfold rsum in I. rewrite I, (H y (or_introl eq_refl)). ring.
Qed.

(** The criterion without weights, whatever the order of sets of moments. *)
Theorem default_criterion : forall P D (simulate : P -> D) calc emp, emp <> [] -> distinct_names emp ->
  (forall p, same_sets (calculated calc (simulate p)) emp) -> inhabited P ->
  exists f, get_moment_errors_func simulate (Named calc) None (Named emp) None = Ok f /\
    forall p, exists o, f p = Ok o /\ Permutation (o_errors o) (errors_of emp (calculated calc (simulate p))) /\
      (o_errors o = errors_of emp (calculated calc (simulate p)) \/ alphabetical (map fst (o_errors o))) /\
      forall e, map snd (errors_of emp (calculated calc (simulate p))) = map Some e -> o_value o = Some (sum_of_squares e).
Proof.
  intros P D simulate calc emp NE DN S [p0]. rewrite (func_named_default P D simulate calc emp p0 (S p0) NE).
  eexists. split; [reflexivity|]. intros p. cbv beta.
  destruct (moment_errors_any (calculated calc (simulate p)) emp (diag (map (fun _ => Some 1%R) (over_moments emp (moment_of emp))))) as [o [X [Y Y']]]; auto.
  - apply is_square_diag. rewrite map_length. apply over_moments_length.
  - exists o. split; [exact X|]. split; [exact Y|]. split; [exact Y'|]. intros e He.
    pose proof (Permutation_map snd Y) as Z. rewrite He in Z. destruct (Permutation_map_Some _ _ Z) as [e' [E' PE]].
    set (w := map (fun _ : string * value => 1%R) (over_moments emp (moment_of emp))).
    assert (Ones : map (fun _ => Some 1%R) (over_moments emp (moment_of emp)) = map Some w) by (unfold w; rewrite map_map; reflexivity).
    rewrite Ones in X.
    assert (I1 : forall x, In x w -> x = 1%R) by (intros x I; unfold w in I; apply in_map_iff in I; destruct I as [? [<- _]]; reflexivity).
    destruct (criterion _ _ _ w e' o X E' (fun x I => eq_ind_r (fun y => (0 <= y)%R) Rle_0_1 (I1 x I))) as [L [V _]].
    rewrite V, (weighted_ones e' w I1 L). f_equal. unfold sum_of_squares. apply rsum_perm, Permutation_map. exact PE.
Qed.
