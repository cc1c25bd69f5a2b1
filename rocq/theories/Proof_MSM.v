(** Proofs about the method of simulated moments. *)
From Coq Require Import List Arith Bool String Reals Lra Lia Permutation.
From Verif Require Import Base Proof_Base Model_Choices Spec_Choices Proof_Choices Spec_Solve Proof_Likelihood Model_Cache Proof_Cache Model_MSM Spec_MSM.
Import ListNotations.
Open Scope string_scope.
Local Open Scope nat_scope.

(** ** Products *)

Lemma dot_some : forall u v, dot (map Some u) (map Some v) = Some (rsum (map (fun p => (fst p * snd p)%R) (combine u v))).
Proof.
  unfold dot. induction u as [|x u IH]; intros [|y v]; try reflexivity. cbn [map combine fold_right]. rewrite IH. reflexivity.
Qed.
Lemma dot_none : forall u v, List.length u = List.length v -> In None u \/ In None v -> dot u v = None.
Proof.
  unfold dot. induction u as [|x u IH]; intros [|y v] L H; try discriminate.
  - destruct H as [[]|[]].
  - cbn [combine map fold_right fst snd]. cbn in L. injection L as L.
    destruct x as [x|]; [|reflexivity]. destruct y as [y|]; [|reflexivity].
    rewrite IH; [reflexivity|exact L|]. destruct H as [[H|H]|[H|H]]; try discriminate; auto.
Qed.

Lemma pick : forall c e k j, rsum (map (fun p => (fst p * snd p)%R)
    (combine e (map (fun i => if Nat.eqb i (k + j) then c else 0%R) (seq k (List.length e))))) =
  if Nat.ltb j (List.length e) then (nth j e 0 * c)%R else 0%R.
Proof.
  intros c. induction e as [|x e IH]; intros k j; [reflexivity|]. cbn [List.length seq map combine fst snd rsum fold_right].
  fold (rsum (map (fun p => (fst p * snd p)%R) (combine e (map (fun i => if Nat.eqb i (k + j) then c else 0%R) (seq (S k) (List.length e)))))).
  destruct j as [|j].
  - rewrite Nat.add_0_r, Nat.eqb_refl. cbn [Nat.ltb Nat.leb nth].
    assert (Z : forall (e : list R) s, (k < s)%nat -> rsum (map (fun p => (fst p * snd p)%R) (combine e (map (fun i => if Nat.eqb i k then c else 0%R) (seq s (List.length e))))) = 0%R).
    { clear. induction e as [|y e IH]; intros s L; [reflexivity|]. cbn [List.length seq map combine fst snd rsum fold_right].
      fold (rsum (map (fun p => (fst p * snd p)%R) (combine e (map (fun i => if Nat.eqb i k then c else 0%R) (seq (S s) (List.length e)))))).
      rewrite IH by lia. destruct (Nat.eqb_spec s k); [lia|]. ring. }
    rewrite Z by lia. ring.
  - destruct (Nat.eqb_spec k (k + S j)) as [E|_]; [lia|]. replace (k + S j) with (S k + j) by lia. rewrite IH.
    change (Nat.ltb (S j) (S (List.length e))) with (Nat.ltb j (List.length e)). cbn [nth]. destruct (Nat.ltb j (List.length e)); ring.
Qed.

Lemma diag_column : forall w j, (j < List.length w)%nat ->
  map (fun row => nth j row None) (diag (map Some w)) =
  map Some (map (fun i => if Nat.eqb i j then nth j w 0%R else 0%R) (seq 0 (List.length w))).
Proof.
  intros w j L. unfold diag. rewrite !map_length, !map_map. apply map_ext_in. intros i I. apply in_seq in I.
  set (f := fun j0 => if Nat.eqb i j0 then nth i (map Some w) None else Some 0%R).
  rewrite (nth_indep _ None (f 0)) by (rewrite map_length, seq_length; lia).
  rewrite (map_nth f), seq_nth by lia. unfold f. cbn [Nat.add].
  destruct (Nat.eqb_spec i j) as [->|]; [|reflexivity].
  rewrite (nth_indep _ None (Some 0%R)) by (rewrite map_length; lia). rewrite map_nth. reflexivity.
Qed.

Lemma vector_diag : forall e w, List.length e = List.length w ->
  vector_matrix (map Some e) (diag (map Some w)) = map Some (map (fun p => (fst p * snd p)%R) (combine e w)).
Proof.
  intros e w L. unfold vector_matrix. rewrite map_length.
  assert (R : map (fun p => (fst p * snd p)%R) (combine e w) = map (fun j => (nth j e 0 * nth j w 0)%R) (seq 0 (List.length e))).
  { revert w L. induction e as [|x e IH]; intros [|y w] L; try discriminate; [reflexivity|]. injection L as L.
    cbn [combine map List.length seq nth fst snd]. f_equal. rewrite (IH w L), <- seq_shift, map_map. reflexivity. }
  rewrite R, map_map. apply map_ext_in. intros j J. apply in_seq in J. rewrite diag_column by lia. rewrite dot_some. f_equal.
  rewrite <- L. pose proof (pick (nth j w 0%R) e 0 j) as P. cbn [Nat.add] in P.
  rewrite P. destruct (Nat.ltb_spec j (List.length e)); [reflexivity|lia].
Qed.

Lemma sqrt_diag : forall w, (forall x, In x w -> (0 <= x)%R) -> map (map vsqrt) (diag (map Some w)) = diag (map Some (map sqrt w)).
Proof.
  intros w H. unfold diag. rewrite !map_length, !map_map. apply map_ext_in. intros i I. apply in_seq in I. rewrite map_map.
  apply map_ext. intros j. destruct (Nat.eqb i j).
  - rewrite (nth_indep (map Some w) None (Some 0%R)) by (rewrite map_length; lia). rewrite map_nth.
    rewrite (nth_indep (map (fun x => Some (sqrt x)) w) None (Some (sqrt 0))) by (rewrite !map_length; lia).
    rewrite (map_nth (fun x => Some (sqrt x))).
    cbn [vsqrt]. destruct (Rlt_dec (nth i w 0%R) 0) as [L|_]; [|reflexivity].
    exfalso. assert (J : In (nth i w 0%R) w) by (apply nth_In; lia). specialize (H _ J). lra.
  - cbn [vsqrt]. destruct (Rlt_dec 0 0); [lra|]. rewrite sqrt_0. reflexivity.
Qed.

Lemma dot_diag : forall e w, List.length e = List.length w ->
  dot (vector_matrix (map Some e) (diag (map Some w))) (map Some e) = Some (weighted_sum_of_squares w e).
Proof.
  intros e w L. rewrite (vector_diag e w L), dot_some. f_equal. unfold weighted_sum_of_squares. f_equal.
  revert w L. induction e as [|x e IH]; intros [|y w] L; try discriminate; [reflexivity|]. injection L as L. cbn.
  rewrite (IH w L). f_equal. ring.
Qed.

Lemma weighted_nonneg : forall w e, (forall x, In x w -> (0 <= x)%R) -> (0 <= weighted_sum_of_squares w e)%R.
Proof.
  unfold weighted_sum_of_squares. induction w as [|x w IH]; intros [|y e] H; cbn; try lra.
  assert (A : (0 <= x * (y * y))%R) by (apply Rmult_le_pos; [apply H; left; reflexivity|apply Rle_0_sqr]).
  specialize (IH e (fun z I => H z (or_intror I))). unfold rsum in IH. lra.
Qed.
Lemma weighted_zero : forall w e, List.length e = List.length w -> (forall x, In x w -> (0 < x)%R) ->
  weighted_sum_of_squares w e = 0%R -> forall x, In x e -> x = 0%R.
Proof.
  induction w as [|x w IH]; intros [|y e] L H E; try discriminate; [intros z []|]. injection L as L.
  assert (N : (0 <= weighted_sum_of_squares w e)%R) by (apply weighted_nonneg; intros z I; left; apply H; right; exact I).
  assert (P : (0 < x)%R) by (apply H; left; reflexivity).
  assert (S : (0 <= y * y)%R) by apply Rle_0_sqr.
  change (weighted_sum_of_squares (x :: w) (y :: e)) with (x * (y * y) + weighted_sum_of_squares w e)%R in E.
  assert (Q : (0 <= x * (y * y))%R) by (apply Rmult_le_pos; lra).
  assert (Y : (y * y = 0)%R). { assert (X : (x * (y * y) = 0)%R) by lra. apply Rmult_integral in X. destruct X; lra. }
  intros z [<-|I].
  - apply Rmult_integral in Y. tauto.
  - apply (IH e L (fun z I => H z (or_intror I))); [lra|exact I].
Qed.
Lemma zero_errors : forall w e, (forall x, In x e -> x = 0%R) -> weighted_sum_of_squares w e = 0%R.
Proof.
  unfold weighted_sum_of_squares. induction w as [|x w IH]; intros [|y e] H; try reflexivity. cbn. fold (rsum (map (fun p => (fst p * (snd p * snd p))%R) (combine w e))).
  rewrite (IH e (fun z I => H z (or_intror I))), (H y (or_introl eq_refl)). ring.
Qed.
Lemma roots_sum : forall e w, (forall x, In x w -> (0 <= x)%R) ->
  sum_of_squares (map (fun p => (fst p * snd p)%R) (combine e (map sqrt w))) = weighted_sum_of_squares w e.
Proof.
  unfold sum_of_squares, weighted_sum_of_squares. induction e as [|y e IH]; intros [|x w] H; try reflexivity.
  cbn [map combine rsum fold_right fst snd]. pose proof (IH w (fun z I => H z (or_intror I))) as I. unfold rsum in I. rewrite I. f_equal.
  assert (S : (sqrt x * sqrt x = x)%R) by (apply sqrt_sqrt; apply H; left; reflexivity).
  replace (y * sqrt x * (y * sqrt x))%R with ((sqrt x * sqrt x) * (y * y))%R by ring. rewrite S. reflexivity.
Qed.

(** What an outcome is. *)
Lemma moment_errors_inv : forall sims replace emp W o, moment_errors sims replace emp W = Ok o ->
  let e := map snd (o_errors o) in is_square (List.length e) W = true /\
  o_value o = dot (vector_matrix e W) e /\ o_roots o = vector_matrix e (map (map vsqrt) W).
Proof.
  intros sims replace emp W o H. unfold moment_errors in H.
  destruct (result_all _) as [s1| | | | |]; cbn [result_bind] in H; try discriminate.
  destruct (result_all _) as [s2| | | | |]; cbn [result_bind] in H; try discriminate.
  destruct (flatten_index emp) as [fe| | | | |]; cbn [result_bind] in H; try discriminate.
  destruct (flatten_index s2) as [fs| | | | |]; cbn [result_bind] in H; try discriminate.
  destruct (subtract fe fs) as [er| | | | |]; cbn [result_bind] in H; try discriminate.
  destruct (is_square _ W) eqn:S; [|discriminate]. inversion H; subst. cbn. auto.
Qed.

Theorem criterion : forall sims replace emp w e o,
  moment_errors sims replace emp (diag (map Some w)) = Ok o -> map snd (o_errors o) = map Some e ->
  (forall x, In x w -> (0 <= x)%R) ->
  List.length e = List.length w /\
  o_value o = Some (weighted_sum_of_squares w e) /\
  (exists r, o_roots o = map Some r /\ sum_of_squares r = weighted_sum_of_squares w e) /\
  (0 <= weighted_sum_of_squares w e)%R /\
  ((forall x, In x e -> x = 0%R) -> weighted_sum_of_squares w e = 0%R) /\
  ((forall x, In x w -> (0 < x)%R) -> weighted_sum_of_squares w e = 0%R -> forall x, In x e -> x = 0%R).
Proof.
  intros sims replace emp w e o H E P. destruct (moment_errors_inv _ _ _ _ _ H) as [S [V R]]. rewrite E in S, V, R.
  assert (L : List.length e = List.length w).
  { unfold is_square in S. apply andb_true_iff in S. destruct S as [S _]. apply Nat.eqb_eq in S.
    unfold diag in S. rewrite !map_length, seq_length in S. auto. }
  split; [exact L|]. split; [rewrite V; apply dot_diag; exact L|]. split.
  - rewrite sqrt_diag, vector_diag in R by (try rewrite map_length; auto). eexists. split; [exact R|]. apply roots_sum. exact P.
  - split; [apply weighted_nonneg; exact P|]. split; [apply zero_errors|]. intros Q. apply weighted_zero; assumption.
Qed.

Theorem missing_errors : forall sims replace emp W o, moment_errors sims replace emp W = Ok o ->
  In None (map snd (o_errors o)) -> o_value o = None.
Proof.
  intros sims replace emp W o H I. destruct (moment_errors_inv _ _ _ _ _ H) as [S [V _]]. rewrite V. cbv zeta in S.
  set (e := map snd (o_errors o)) in *. unfold is_square in S. apply andb_true_iff in S. destruct S as [S _]. apply Nat.eqb_eq in S.
  apply dot_none.
  - unfold vector_matrix. rewrite map_length, seq_length. reflexivity.
  - right. exact I.
Qed.

(** ** Labels *)

Lemma distinct_iff : forall l, distinct l = true <-> NoDup l.
Proof.
  induction l as [|x l IH]; cbn; [split; [constructor|reflexivity]|].
  rewrite andb_true_iff, IH, negb_true_iff. split.
  - intros [H N]. constructor; [|exact N]. intros I. apply mem_iff in I. congruence.
  - intros N. inversion N; subst. split; [|assumption]. destruct (mem x l) eqn:M; [|reflexivity]. apply mem_iff in M. contradiction.
Qed.
Lemma same_labels_iff : forall a b, same_labels a b = true <-> a = b.
Proof. intros a b. unfold same_labels. destruct (list_eq_dec string_dec a b); split; congruence. Qed.

Lemma lookup_self : forall A (d : A) i v, NoDup i -> List.length v = List.length i -> map (lookup d i v) i = v.
Proof.
  intros A d. unfold lookup. induction i as [|x i IH]; intros [|y v] N L; try discriminate; [reflexivity|].
  cbn in L. injection L as L. inversion N as [|? ? X N']; subst. cbn [map combine dict_get]. destruct (string_dec x x) as [_|C]; [|congruence].
  f_equal. etransitivity; [|apply (IH v N' L)]. apply map_ext_in. intros z I. destruct (string_dec z x) as [->|]; [contradiction|reflexivity].
Qed.
Lemma lookup_at_label : forall i v l, lookup None i v l = at_label i v l.
Proof.
  unfold lookup. induction i as [|x i IH]; intros [|y v] l; try reflexivity. cbn.
  destruct (string_dec l x) as [->|N]; destruct (string_dec x _) as [E|M]; try congruence. apply IH.
Qed.
Lemma reindex_distinct : forall A (d : A) i v t, NoDup i -> List.length v = List.length i ->
  reindex d i v t = Ok (map (lookup d i v) t).
Proof.
  intros A d i v t N L. unfold reindex. destruct (same_labels i t) eqn:S.
  - apply same_labels_iff in S. subst t. rewrite lookup_self by assumption. reflexivity.
  - apply distinct_iff in N. rewrite N. reflexivity.
Qed.
Lemma result_all_map_ok : forall A B (f : A -> result B) (g : A -> B) l, (forall x, In x l -> f x = Ok (g x)) ->
  result_all (map f l) = Ok (map g l).
Proof.
  intros A B f g. induction l as [|x l IH]; intros H; [reflexivity|]. cbn. rewrite (H x (or_introl eq_refl)). cbn.
  rewrite (IH (fun z I => H z (or_intror I))). reflexivity.
Qed.
Lemma combine_map_r : forall A B (f : A -> B) l, combine l (map f l) = map (fun x => (x, f x)) l.
Proof. intros A B f. induction l as [|x l IH]; cbn; [reflexivity|]. f_equal. exact IH. Qed.
Lemma at_label_none : forall i l, at_label i (map (fun _ => None) i) l = None.
Proof. induction i as [|x i IH]; intros l; [reflexivity|]. cbn. destruct (string_dec x l); auto. Qed.
Lemma combine_split_id : forall A B (l : list (A * B)), combine (map fst l) (map snd l) = l.
Proof. intros A B. induction l as [|[a b] l IH]; cbn; [reflexivity|]. f_equal. exact IH. Qed.
Lemma dict_get_In' : forall V n (v : V) d, dict_get string_dec n d = Some v -> In (n, v) d.
Proof. intros V n v d H. apply dict_get_Some_In in H. exact H. Qed.

(** A set after [reindex_like]: its values at the places of the other set. *)
Lemma reindex_like_ok : forall x m, well_formed x -> alike x m -> exists x',
  reindex_like x m = Ok x' /\ forall n, flatten_set (n, x') = map (fun p => (moment_label n p, at_place x p)) (places m).
Proof.
  intros [i v|i c] [i' v'|i' c'] W A; try contradiction.
  - destruct W as [N L]. cbn. rewrite (reindex_distinct _ None i v i' N L). cbn. eexists. split; [reflexivity|]. intros n. cbn [flatten_set snd fst].
    unfold flatten_set. cbn [snd fst places]. rewrite combine_map_r, !map_map. apply map_ext. intros l. cbn. rewrite lookup_at_label. reflexivity.
  - destruct W as [N [NC L]]. cbn. rewrite reindex_distinct by (rewrite ?map_length; auto). cbn [result_bind].
    set (g := fun col : list value => map (at_label i col) i').
    rewrite (result_all_map_ok _ _ _ g).
    2:{ intros col I. apply in_map_iff in I. destruct I as [n [<- I]]. unfold g. rewrite reindex_distinct; [|exact N|].
      - f_equal. apply map_ext. intros l. apply lookup_at_label.
      - unfold lookup. rewrite combine_split_id. match goal with |- context[@dict_get ?K ?V ?d n c] => destruct (@dict_get K V d n c) as [v|] eqn:G end; [|apply map_length].
        apply dict_get_In' in G. apply (L _ _ G). }
    cbn [result_bind]. eexists. split; [reflexivity|]. intros n. unfold flatten_set. cbn [snd fst places].
    rewrite map_map, combine_map_r. clear A.
    induction c' as [|[cn cv] c' IH]; [reflexivity|]. cbn [map flat_map fst snd]. rewrite map_app. f_equal; [|exact IH].
    unfold g. rewrite combine_map_r, !map_map. apply map_ext. intros l. cbn [moment_label at_place fst snd]. f_equal.
    unfold lookup. rewrite combine_split_id. unfold value in *. destruct (dict_get string_dec cn c) as [v|]; [reflexivity|apply at_label_none].
Qed.
Lemma flatten_set_own : forall n x, well_formed x -> flatten_set (n, x) = map (fun p => (moment_label n p, at_place x p)) (places x).
Proof.
  intros n [i v|i c] W.
  - destruct W as [N L]. unfold flatten_set. cbn [snd fst places]. rewrite map_map.
    rewrite <- (lookup_self _ None i v N L) at 1. rewrite combine_map_r, map_map. apply map_ext. intros l. cbn. rewrite lookup_at_label. reflexivity.
  - destruct W as [N [NC L]]. unfold flatten_set. cbn [snd fst places].
    rewrite flat_map_concat_map, (flat_map_concat_map _ c), concat_map, map_map. f_equal. apply map_ext_in. intros [cn cv] I. cbn [fst snd].
    rewrite map_map. rewrite <- (lookup_self _ None i cv N (L _ _ I)) at 1. rewrite combine_map_r, map_map. apply map_ext. intros l.
    cbn [moment_label at_place fst snd]. rewrite (dict_get_In_NoDup string_dec cn cv c NC I), lookup_at_label. reflexivity.
Qed.

Lemma NoDup_sorted_set : forall l, NoDup (sorted_set l).
Proof. intros l. unfold sorted_set. apply NoDup_isort. apply NoDup_drop_duplicates. Qed.

(** All moments of all sets. *)
Definition keys_of (emp : list (string * moments)) (names : list string) : list (string * place) :=
  flat_map (fun n => match dict_get string_dec n emp with Some m => map (fun p => (n, p)) (places m) | None => [] end) names.
Definition label_of (np : string * place) : string := moment_label (fst np) (snd np).

Lemma over_moments_keys : forall A emp (f : string -> place -> A), NoDup (map fst emp) ->
  over_moments emp f = map (fun np => (label_of np, f (fst np) (snd np))) (keys_of emp (map fst emp)).
Proof.
  intros A emp f N. unfold over_moments, keys_of. rewrite !flat_map_concat_map, !map_map, concat_map, map_map. f_equal.
  apply map_ext_in. intros [n m] I. cbn [fst snd]. rewrite (dict_get_In_NoDup string_dec n m emp N I), map_map. reflexivity.
Qed.
Lemma flatten_own : forall emp, NoDup (map fst emp) -> (forall n m, In (n, m) emp -> well_formed m) ->
  flat_map flatten_set emp = over_moments emp (moment_of emp).
Proof.
  intros emp N W. unfold over_moments. rewrite !flat_map_concat_map. f_equal. apply map_ext_in. intros [n m] I. cbn [fst snd].
  rewrite (flatten_set_own n m (W n m I)). apply map_ext. intros p. unfold moment_of. rewrite (dict_get_In_NoDup string_dec n m emp N I). reflexivity.
Qed.
Lemma in_keys_pair : forall A (d : list (string * A)) n, In n (map fst d) -> exists m, In (n, m) d.
Proof. intros A d n I. apply in_map_iff in I. destruct I as [[n' m] [E I]]. cbn in E. subst. exists m. exact I. Qed.

(** Sets after they are reindexed. *)
Lemma reindexed_sets : forall sims emp, same_sets sims emp -> exists sims',
  result_all (map (fun nm => match dict_get string_dec (fst nm) emp with
                             | Some m => result_bind (reindex_like (snd nm) m) (fun s => Ok (fst nm, s))
                             | None => KeyError
                             end) sims) = Ok sims' /\
  map fst sims' = map fst sims /\
  flat_map flatten_set sims' = map (fun np => (label_of np, moment_of sims (fst np) (snd np))) (keys_of emp (map fst sims)).
Proof.
  intros sims emp [N [NE [S [W [WE A]]]]].
  assert (G : forall part, (forall x, In x part -> In x sims) -> exists sims',
    result_all (map (fun nm => match dict_get string_dec (fst nm) emp with
                             | Some m => result_bind (reindex_like (snd nm) m) (fun s => Ok (fst nm, s))
                             | None => KeyError
                             end) part) = Ok sims' /\
    map fst sims' = map fst part /\
    flat_map flatten_set sims' = map (fun np => (label_of np, moment_of sims (fst np) (snd np))) (keys_of emp (map fst part))).
  { induction part as [|[n m] part IH]; intros P; [exists []; repeat split; reflexivity|].
    destruct (IH (fun x I => P x (or_intror I))) as [r [R [F1 F2]]].
    assert (I : In (n, m) sims) by (apply P; left; reflexivity).
    destruct (in_keys_pair _ emp n (proj1 (S n) (in_map fst _ _ I))) as [e E].
    destruct (reindex_like_ok m e (W n m I) (A n m e I E)) as [x [X Y]].
    exists ((n, x) :: r). cbn [map result_all fst snd]. rewrite (dict_get_In_NoDup string_dec n e emp NE E), X. cbn [result_bind]. rewrite R. cbn [result_bind].
    split; [reflexivity|]. split; [cbn; rewrite F1; reflexivity|]. cbn [flat_map]. unfold keys_of. cbn [flat_map].
    rewrite (dict_get_In_NoDup string_dec n e emp NE E), map_app, F2. f_equal. rewrite Y, map_map. apply map_ext. intros p. cbn [fst snd].
    unfold label_of, moment_of. cbn [fst snd]. rewrite (dict_get_In_NoDup string_dec n m sims N I). reflexivity. }
  apply G. auto.
Qed.

Lemma replaced_none : forall (emp sims : list (string * moments)), NoDup (map fst emp) -> (forall n, In n (map fst sims) -> In n (map fst emp)) ->
  result_all (map (fun nm => match dict_get string_dec (fst nm) (keep_missing emp) with
                             | Some f => Ok (fst nm, f (snd nm))
                             | None => KeyError
                             end) sims) = Ok sims.
Proof.
  intros emp sims N S. rewrite (result_all_map_ok _ _ _ (fun x => x)); [rewrite map_id; reflexivity|].
  intros [n m] I. cbn [fst snd]. destruct (in_keys_pair _ emp n (S n (in_map fst _ _ I))) as [e E].
  rewrite (dict_get_In_NoDup string_dec n (fun x : moments => x) (keep_missing emp)); [reflexivity| |].
  - unfold keep_missing, dict_keys. rewrite map_map. exact N.
  - unfold keep_missing. apply in_map_iff. exists (n, e). auto.
Qed.
Lemma keys_permutation : forall emp a b, Permutation a b -> Permutation (keys_of emp a) (keys_of emp b).
Proof. intros emp a b P. unfold keys_of. apply Permutation_flat_map. exact P. Qed.

Lemma combine_maps : forall A B C (f : A -> B) (g : A -> C) l, combine (map f l) (map g l) = map (fun x => (f x, g x)) l.
Proof. intros. induction l as [|x l IH]; cbn; [reflexivity|]. f_equal. exact IH. Qed.
Lemma vmap2_difference : forall x y, vmap2 Rminus x y = difference x y.
Proof. intros [x|] [y|]; reflexivity. Qed.

Lemma subtract_same : forall (l : list (string * place)) f g,
  subtract (map (fun np => (label_of np, f np)) l) (map (fun np => (label_of np, g np)) l) =
  Ok (map (fun np => (label_of np, difference (f np) (g np))) l).
Proof.
  intros l f g. unfold subtract. rewrite !map_map. cbn [fst]. rewrite (proj2 (same_labels_iff _ _) eq_refl).
  rewrite combine_maps, map_map. reflexivity.
Qed.
Lemma lookup_labelled : forall (l : list (string * place)) (f : string * place -> value) np, NoDup (map label_of l) -> In np l ->
  lookup None (map label_of l) (map f l) (label_of np) = f np.
Proof.
  intros l f np N I. unfold lookup. rewrite combine_maps.
  rewrite (dict_get_In_NoDup string_dec (label_of np) (f np)); [reflexivity| |].
  - unfold dict_keys. rewrite map_map. exact N.
  - apply in_map_iff. exists np. auto.
Qed.
Lemma map_injective_on : forall A B (f : A -> B) l l', Permutation l l' -> NoDup (map f l) -> map f l = map f l' -> l = l'.
Proof.
  intros A B f l l' P N E.
  assert (G : forall a b, incl a l -> incl b l -> map f a = map f b -> a = b).
  { induction a as [|x a IH]; intros [|y b] Ia Ib H; try discriminate; [reflexivity|]. cbn in H. injection H as H1 H2. f_equal.
    - assert (X : In x l) by (apply Ia; left; reflexivity). assert (Y : In y l) by (apply Ib; left; reflexivity).
      clear -N X Y H1. induction l as [|z l IH]; [destruct X|]. cbn in N. inversion N; subst.
      destruct X as [->|X]; destruct Y as [->|Y]; auto.
      + exfalso. apply H2. rewrite H1. apply in_map. exact Y.
      + exfalso. apply H2. rewrite <- H1. apply in_map. exact X.
    - apply IH; auto; intros z Z; [apply Ia|apply Ib]; right; exact Z. }
  apply G; auto using incl_refl. intros z Z. apply (Permutation_in z (Permutation_sym P) Z).
Qed.

Lemma subtract_any : forall (l l' : list (string * place)) f g, Permutation l l' -> NoDup (map label_of l) ->
  exists er, subtract (map (fun np => (label_of np, f np)) l) (map (fun np => (label_of np, g np)) l') = Ok er /\
  Permutation er (map (fun np => (label_of np, difference (f np) (g np))) l) /\
  (er = map (fun np => (label_of np, difference (f np) (g np))) l \/ alphabetical (map fst er)).
Proof.
  intros l l' f g P N. destruct (same_labels (map label_of l) (map label_of l')) eqn:S.
  - apply same_labels_iff in S. pose proof (map_injective_on _ _ _ _ _ P N S) as E. subst l'. rewrite subtract_same.
    eexists. split; [reflexivity|]. split; [apply Permutation_refl|left; reflexivity].
  - unfold subtract. rewrite !map_map. cbn [fst snd].
    change (map (fun x => label_of x) l) with (map label_of l). change (map (fun x => label_of x) l') with (map label_of l').
    change (map (fun x => f x) l) with (map f l). change (map (fun x => g x) l') with (map g l').
    rewrite S.
    assert (N' : NoDup (map label_of l')) by (apply (Permutation_NoDup (Permutation_map label_of P) N)).
    rewrite (proj2 (distinct_iff _) N), (proj2 (distinct_iff _) N'). cbn [andb]. eexists. split; [reflexivity|]. split.
    + set (h := fun x => (x, vmap2 Rminus (lookup None (map label_of l) (map f l) x) (lookup None (map label_of l') (map g l') x))).
      destruct (sorted_set_lists (map label_of l ++ map label_of l')) as [D M].
      assert (Q : Permutation (sorted_set (map label_of l ++ map label_of l')%list) (map label_of l)).
      { apply NoDup_Permutation; [apply NoDup_sorted_set|exact N|]. intros x. rewrite M, in_app_iff.
        split; [|tauto]. intros [I|I]; [exact I|]. apply (Permutation_in x (Permutation_map label_of (Permutation_sym P)) I). }
      eapply Permutation_trans; [apply (Permutation_map h Q)|]. rewrite map_map.
      erewrite map_ext_in; [apply Permutation_refl|]. intros np I. unfold h. cbn.
      rewrite (lookup_labelled l f np N I), (lookup_labelled l' g np N' (Permutation_in np P I)), vmap2_difference. reflexivity.
    + right. rewrite map_map. cbn [fst]. rewrite map_id. apply sorted_set_lists.
Qed.
