(** Proofs about draws. *)
From Coq Require Import List Arith ZArith Bool Lia Strings.String Sorting.Permutation Reals.
From Verif Require Import Base Proof_Base Model_Strings Model_Draws Spec_Draws Spec_LikelihoodDraws.
Import ListNotations.
Open Scope string_scope.
Open Scope list_scope.
Open Scope nat_scope.

(** ** Cutting lists *)
Lemma chunks_concat : forall A c (rows : list (list A)), (forall r, In r rows -> List.length r = c) ->
  chunks (List.length rows) c (List.concat rows) = rows.
Proof.
  intros A c rows. induction rows as [|r rows IH]; intros H; [reflexivity|]. cbn [List.length chunks List.concat].
  assert (L : List.length r = c) by (apply H; left; reflexivity).
  rewrite firstn_app, skipn_app, <- L, firstn_all, skipn_all, Nat.sub_diag. cbn [firstn skipn]. rewrite app_nil_r, L. cbn [app]. f_equal.
  apply IH. intros q Hq. apply H. right. exact Hq.
Qed.

Lemma chunks_seq : forall A (g : nat -> A) b a s,
  chunks a b (map g (seq s (a * b))) = map (fun t => map g (seq (s + t * b) b)) (seq 0 a).
Proof.
  intros A g b. induction a as [|a IH]; intros s; [reflexivity|].
  cbn [chunks Nat.mul seq map]. rewrite seq_app, map_app.
  assert (L : List.length (map g (seq s b)) = b) by (rewrite map_length, seq_length; reflexivity).
  rewrite firstn_app, skipn_app, L, Nat.sub_diag. rewrite firstn_all2 by (rewrite L; lia). rewrite skipn_all2 by (rewrite L; lia).
  cbn [firstn skipn app]. rewrite app_nil_r, IH, Nat.add_0_r. f_equal. rewrite <- seq_shift, map_map.
  apply map_ext. intros t. f_equal. f_equal. lia.
Qed.

Lemma length_concat_const : forall A c (rows : list (list A)), (forall r, In r rows -> List.length r = c) ->
  List.length (List.concat rows) = List.length rows * c.
Proof.
  intros A c rows. induction rows as [|r rows IH]; intros H; [reflexivity|]. cbn [List.concat List.length]. rewrite app_length, IH, H; [lia|left; reflexivity|].
  intros q Hq. apply H. right. exact Hq.
Qed.

Lemma concat_seq_mul : forall A (g : nat -> A) c n,
  List.concat (map (fun p => map (fun j => g (p * c + j)) (seq 0 c)) (seq 0 n)) = map g (seq 0 (n * c)).
Proof.
  intros A g c. induction n as [|n IH]; [reflexivity|].
  rewrite seq_S, map_app, concat_app, IH. cbn [map List.concat plus]. rewrite app_nil_r.
  replace (S n * c) with (n * c + c) by lia. rewrite seq_app, map_app. f_equal. cbn [plus].
  assert (X : forall k s, map (fun j => g (s + j)) (seq 0 k) = map g (seq s k)).
  { clear. induction k as [|k IH]; intros s; [reflexivity|]. rewrite !seq_S, !map_app. cbn [map plus]. rewrite IH. reflexivity. }
  apply X.
Qed.

(** ** One array of draws *)
(** Coordinate [j] of point [p]. *)
Definition point {A} (src : sources A) (n_points c : nat) (seed : Z) (name : string) (p j : nat) : A :=
  if String.eqb name "random" then normal src seed (p * c + j) else quasi src seed (rule_of name) n_points c j p.

Definition usable {A} (src : sources A) (name : string) : Prop := name = "random" \/ (quasi_name name /\ installed src = true).

Lemma flat_usable : forall A (src : sources A) n_points c seed name, usable src name ->
  flat_draws src n_points c seed name =
  Ok (List.concat (map (fun p => map (point src n_points c seed name p) (seq 0 c)) (seq 0 n_points))).
Proof.
  intros A src n c seed name U. unfold flat_draws. destruct (String.eqb name "random") eqn:E.
  - rewrite <- concat_seq_mul. f_equal. f_equal. apply map_ext. intros p. apply map_ext. intros j. unfold point. rewrite E. reflexivity.
  - destruct U as [->|[Q I]]; [discriminate|].
    assert (X : existsb (String.eqb name) ["sobol"; "halton"] = true) by (destruct Q as [->| ->]; reflexivity).
    rewrite X, I. f_equal. f_equal. apply map_ext_in. intros p Hp. apply in_seq in Hp.
    induction (seq 0 c) as [|i r IH]; [reflexivity|]. cbn [map flat_map]. rewrite IH.
    rewrite nth_error_map, (nth_error_nth' _ 0) by (rewrite seq_length; lia). rewrite seq_nth by lia. cbn [option_map app plus].
    unfold point at 2. rewrite E. reflexivity.
Qed.

Lemma flat_error : forall A (src : sources A) n_points c seed name, ~ usable src name -> flat_draws src n_points c seed name = OtherError.
Proof.
  intros A src n c seed name U. unfold flat_draws. destruct (String.eqb_spec name "random") as [->|N]; [exfalso; apply U; left; reflexivity|].
  destruct (existsb (String.eqb name) ["sobol"; "halton"]) eqn:X; [|reflexivity].
  destruct (installed src) eqn:I; [|reflexivity]. exfalso. apply U. right. split; [|exact I].
  cbn [existsb] in X. rewrite orb_false_r in X. apply orb_true_iff in X. destruct X as [X|X]; apply String.eqb_eq in X; [left|right]; exact X.
Qed.

Lemma usable_dec : forall A (src : sources A) name, {usable src name} + {~ usable src name}.
Proof.
  intros A src name. destruct (string_dec name "random") as [E|N]; [left; left; exact E|].
  destruct (installed src) eqn:I.
  - destruct (string_dec name "sobol") as [E|N1]; [left; right; split; [left; exact E|exact I]|].
    destruct (string_dec name "halton") as [E|N2]; [left; right; split; [right; exact E|exact I]|].
    right. intros [E|[[E|E] _]]; contradiction.
  - right. intros [E|[_ E]]; [contradiction|congruence].
Qed.

Definition array3 {A} (f : nat -> nat -> A) (a b c : nat) : list (list (list A)) :=
  map (fun t => map (fun p => map (f p) (seq 0 c)) (seq (t * b) b)) (seq 0 a).

Lemma rows_length : forall A (f : nat -> nat -> A) c n r, In r (map (fun p => map (f p) (seq 0 c)) (seq 0 n)) -> List.length r = c.
Proof. intros A f c n r H. apply in_map_iff in H. destruct H as [p [<- _]]. rewrite map_length. apply seq_length. Qed.

Lemma draws2_eq : forall A (src : sources A) n c seed name, usable src name ->
  create_base_draws2 src n c seed name = Ok (map (fun p => map (point src n c seed name p) (seq 0 c)) (seq 0 n)).
Proof.
  intros A src n c seed name U. unfold create_base_draws2. rewrite flat_usable by exact U. cbn [result_bind].
  set (rows := map (fun p => map (point src n c seed name p) (seq 0 c)) (seq 0 n)).
  assert (Hr : forall r, In r rows -> List.length r = c) by (apply rows_length).
  assert (Ln : List.length rows = n) by (unfold rows; rewrite map_length, seq_length; reflexivity).
  unfold reshape2. rewrite (length_concat_const _ c) by exact Hr. rewrite Ln, Nat.eqb_refl. f_equal.
  rewrite <- Ln at 1. apply chunks_concat. exact Hr.
Qed.

Lemma chunks_chunks : forall A b c a (l : list A), List.length l = a * (b * c) ->
  map (chunks b c) (chunks a (b * c) l) = chunks a b (chunks (a * b) c l).
Proof.
  intros A b c. induction a as [|a IH]; intros l L; [reflexivity|]. cbn [chunks map].
  assert (X : forall k m (q : list A), chunks (k + m) c q = chunks k c q ++ chunks m c (skipn (k * c) q)).
  { clear. induction k as [|k IH]; intros m q; [reflexivity|]. cbn [plus chunks app]. f_equal. rewrite IH. f_equal. f_equal.
    clear. revert q. simpl. generalize (k * c). induction c as [|c IH]; intros z q; [reflexivity|]. destruct q as [|x q]; [cbn; destruct z; reflexivity|].
    cbn. apply IH. }
  assert (Lc : forall k (q : list A), List.length (chunks k c q) = k).
  { clear. induction k as [|k IH]; intros q; [reflexivity|]. simpl. rewrite IH. reflexivity. }
  assert (Y : forall k (q : list A), chunks k c (firstn (k * c) q) = chunks k c q).
  { clear. induction k as [|k IH]; intros q; [reflexivity|]. cbn [chunks Nat.mul]. f_equal.
    - rewrite firstn_firstn. f_equal. lia.
    - rewrite skipn_firstn_comm. replace (c + k * c - c) with (k * c) by lia. apply IH. }
  change (S a * b) with (b + a * b). rewrite X, firstn_app, skipn_app, Lc, Nat.sub_diag. cbn [firstn skipn].
  rewrite app_nil_r. rewrite (firstn_all2 (chunks b c l)) by (rewrite Lc; lia). rewrite (skipn_all2 (chunks b c l)) by (rewrite Lc; lia). cbn [app].
  rewrite Y. f_equal. apply IH. rewrite skipn_length, L. simpl. lia.
Qed.

Lemma draws3_eq : forall A (src : sources A) a b c seed name, usable src name ->
  create_base_draws3 src a b c seed name = Ok (array3 (point src (a * b) c seed name) a b c).
Proof.
  intros A src a b c seed name U. unfold create_base_draws3. rewrite flat_usable by exact U. cbn [result_bind].
  set (rows := map (fun p => map (point src (a * b) c seed name p) (seq 0 c)) (seq 0 (a * b))).
  assert (Hr : forall r, In r rows -> List.length r = c) by (apply rows_length).
  assert (Ln : List.length rows = a * b) by (unfold rows; rewrite map_length, seq_length; reflexivity).
  assert (Lf : List.length (List.concat rows) = a * b * c) by (rewrite (length_concat_const _ c) by exact Hr; rewrite Ln; reflexivity).
  unfold reshape3. rewrite Lf, Nat.eqb_refl. f_equal.
  rewrite chunks_chunks by (rewrite Lf; lia). pose proof (chunks_concat A c rows Hr) as C. rewrite Ln in C. rewrite C. unfold rows. rewrite chunks_seq. reflexivity.
Qed.

Lemma draws3_error : forall A (src : sources A) a b c seed name, ~ usable src name -> create_base_draws3 src a b c seed name = OtherError.
Proof. intros. unfold create_base_draws3. rewrite flat_error by assumption. reflexivity. Qed.

Lemma base_draws_usable : forall A (src : sources A) a b c seed name,
  (exists draws, create_base_draws3 src a b c seed name = Ok draws) <->
  name = "random" \/ ((name = "sobol" \/ name = "halton") /\ installed src = true).
Proof.
  intros A src a b c seed name. split.
  - intros [d E]. destruct (usable_dec A src name) as [U|N]; [exact U|]. rewrite draws3_error in E by exact N. discriminate.
  - intros U. rewrite draws3_eq by exact U. eauto.
Qed.

Lemma entry_map : forall A (f : nat -> nat -> A) s n c i j, i < n -> j < c ->
  entry (map (fun p => map (f p) (seq 0 c)) (seq s n)) i j = Some (f (s + i) j).
Proof.
  intros A f s n c i j Hi Hj. unfold entry. rewrite nth_error_map, (nth_error_nth' _ 0) by (rewrite seq_length; exact Hi).
  rewrite seq_nth by exact Hi. cbn [option_map]. rewrite nth_error_map, (nth_error_nth' _ 0) by (rewrite seq_length; exact Hj).
  rewrite seq_nth by exact Hj. reflexivity.
Qed.

Lemma table_map : forall A (f : nat -> nat -> A) s n c, table_of n c (map (fun p => map (f p) (seq 0 c)) (seq s n)).
Proof.
  intros A f s n c. split; [rewrite map_length; apply seq_length|]. intros row H. apply in_map_iff in H. destruct H as [p [<- _]].
  rewrite map_length. apply seq_length.
Qed.

Lemma nth_array3 : forall A (f : nat -> nat -> A) a b c t, t < a ->
  nth_error (array3 f a b c) t = Some (map (fun p => map (f p) (seq 0 c)) (seq (t * b) b)).
Proof.
  intros A f a b c t H. unfold array3. rewrite nth_error_map, (nth_error_nth' _ 0) by (rewrite seq_length; exact H).
  rewrite seq_nth by exact H. reflexivity.
Qed.

Lemma simulation_draws : forall A (src : sources A) n c seed,
  exists draws, create_base_draws2 src n c seed "random" = Ok draws /\ table_of n c draws /\
    forall i j, i < n -> j < c -> entry draws i j = Some (normal src seed (i * c + j)).
Proof.
  intros A src n c seed. exists (map (fun p => map (point src n c seed "random" p) (seq 0 c)) (seq 0 n)).
  split; [apply draws2_eq; left; reflexivity|]. split; [apply table_map|].
  intros i j Hi Hj. rewrite entry_map by assumption. reflexivity.
Qed.

Lemma position_inj : forall n c t d j t' d' j', d < n -> d' < n -> j < c -> j' < c ->
  position n c t d j = position n c t' d' j' -> t = t' /\ d = d' /\ j = j'.
Proof.
  unfold position. intros n c t d j t' d' j' Hd Hd' Hj Hj' E.
  assert (X : forall m x y x' y', y < m -> y' < m -> x * m + y = x' * m + y' -> x = x' /\ y = y') by (intros m x y x' y' A B C; assert (x = x') by (destruct (lt_eq_lt_dec x x') as [[L|L]|L]; [exfalso|exact L|exfalso]; nia); subst; lia).
  destruct (X c _ _ _ _ Hj Hj' E) as [E1 ->]. destruct (X n _ _ _ _ Hd Hd' E1) as [-> ->]. auto.
Qed.

(** ** More periods or observations *)
Lemma array3_prefix : forall A (f : nat -> nat -> A) a a' b c, a <= a' -> array3 f a b c = firstn a (array3 f a' b c).
Proof.
  intros A f a a' b c H. unfold array3. replace a' with (a + (a' - a)) by lia. rewrite seq_app, map_app, firstn_app.
  rewrite firstn_all2 by (rewrite map_length, seq_length; lia). rewrite map_length, seq_length, Nat.sub_diag. cbn [firstn].
  rewrite app_nil_r. reflexivity.
Qed.

Lemma array3_ext : forall A (f g : nat -> nat -> A) a b c, (forall p j, p < a * b -> f p j = g p j) -> array3 f a b c = array3 g a b c.
Proof.
  intros A f g a b c H. unfold array3. apply map_ext_in. intros t Ht. apply in_seq in Ht. apply map_ext_in. intros p Hp. apply in_seq in Hp.
  apply map_ext. intros j. apply H. assert (S t * b <= a * b) by (apply Nat.mul_le_mono_r; lia). lia.
Qed.

Lemma base_draws_extended : forall A (src : sources A) a a' b c seed name, a <= a' ->
  name = "random" \/ extensible_points src ->
  usable src name ->
  exists draws draws', create_base_draws3 src a b c seed name = Ok draws /\ create_base_draws3 src a' b c seed name = Ok draws' /\
    List.length draws = a /\ draws = firstn a draws'.
Proof.
  intros A src a a' b c seed name H X U. do 2 eexists. split; [apply draws3_eq; exact U|]. split; [apply draws3_eq; exact U|].
  split; [unfold array3; rewrite map_length; apply seq_length|].
  rewrite <- (array3_prefix _ _ a a' b c) by exact H. apply array3_ext. intros p j Hp. unfold point.
  destruct (String.eqb_spec name "random") as [E|N]; [reflexivity|]. destruct X as [X|X]; [contradiction|]. apply X; [exact Hp|apply Nat.mul_le_mono_r; exact H].
Qed.

Lemma deterministic_seeds : forall A (src : sources A) a b c s s' name, deterministic_points src -> quasi_name name ->
  create_base_draws3 src a b c s name = create_base_draws3 src a b c s' name.
Proof.
  intros A src a b c s s' name D Q. destruct (usable_dec A src name) as [U|N].
  - rewrite !draws3_eq by exact U. f_equal. apply array3_ext. intros p j _. unfold point.
    destruct Q as [->| ->]; cbn [String.eqb]; apply D.
  - rewrite !draws3_error by exact N. reflexivity.
Qed.

(** ** The draws of the solution *)
Lemma result_all_Forall2 : forall A (l : list (result A)) r, result_all l = Ok r -> Forall2 (fun x y => x = Ok y) l r.
Proof.
  intros A l. induction l as [|x l IH]; intros r H; cbn [result_all] in H; [injection H as <-; constructor|].
  destruct x as [x| | | | |]; try discriminate. cbn [result_bind] in H. destruct (result_all l) as [ys| | | | |]; try discriminate.
  cbn [result_bind] in H. injection H as <-. constructor; [reflexivity|apply IH; reflexivity].
Qed.

Lemma result_all_map_Ok : forall A B (f : A -> result B) (g : A -> B) l, (forall x, In x l -> f x = Ok (g x)) -> result_all (map f l) = Ok (map g l).
Proof.
  intros A B f g l. induction l as [|x l IH]; intros H; [reflexivity|]. cbn [map result_all]. rewrite H by (left; reflexivity). cbn [result_bind].
  rewrite IH by (intros y Hy; apply H; right; exact Hy). reflexivity.
Qed.

Lemma index_of_Some : forall x l, In x l -> exists i, index_of x l = Ok i /\ nth_error l i = Some x.
Proof.
  intros x l. induction l as [|y l IH]; intros H; [destruct H|]. cbn [index_of]. destruct (Nat.eqb_spec x y) as [->|N].
  - exists 0. split; reflexivity.
  - destruct H as [H|H]; [congruence|]. destruct (IH H) as [i [E Hi]]. exists (S i). rewrite E. split; [reflexivity|exact Hi].
Qed.

Definition offset (l : list nat) (x : nat) : nat := match index_of x l with Ok i => i | _ => 0 end.

Lemma offset_nth : forall l x, In x l -> nth_error l (offset l x) = Some x.
Proof. intros l x H. destruct (index_of_Some x l H) as [i [E Hi]]. unfold offset. rewrite E. exact Hi. Qed.

Lemma nth_error_enumerate' : forall A (l : list A) i, nth_error (enumerate l) i = option_map (pair i) (nth_error l i).
Proof.
  intros A l i. unfold enumerate. change i with (0 + i) at 2. generalize 0 as s. revert i. induction l as [|x l IH]; intros i s.
  - destruct i; reflexivity.
  - destruct i as [|i]; cbn; [rewrite Nat.add_0_r; reflexivity|]. rewrite IH. replace (S s + i) with (s + S i) by lia. reflexivity.
Qed.

Definition numbers_of (keys : list (nat * (nat * list bool))) : list nat := drop_duplicates Nat.eq_dec (map (fun k => count_true (snd (snd k))) keys).

Lemma create_draws_eq : forall A (src : sources A) order n_periods n_draws seed name keys,
  (forall l, Permutation (order l) l) -> usable src name -> (forall k t cs, In (k, (t, cs)) keys -> t < n_periods) ->
  create_draws src order n_periods n_draws seed name keys =
  Ok (map (fun k => let c := count_true (snd (snd k)) in
        (fst k, map (fun p => map (point src (n_periods * n_draws) c (seed + Z.of_nat (offset (order (numbers_of keys)) c)) name p) (seq 0 c))
                    (seq (fst (snd k) * n_draws) n_draws))) keys).
Proof.
  intros A src order T n seed name keys P U H. unfold create_draws. fold (numbers_of keys). set (ns := order (numbers_of keys)).
  assert (Hin : forall k, In k keys -> In (count_true (snd (snd k))) ns).
  { intros k Hk. unfold ns. eapply Permutation_in; [symmetry; apply P|]. apply In_drop_duplicates. apply in_map_iff. eauto. }
  rewrite (result_all_map_Ok _ _ _ (fun p => array3 (point src (T * n) (snd p) (seed + Z.of_nat (fst p)) name) T n (snd p)))
    by (intros p _; apply draws3_eq; exact U).
  cbn [result_bind]. apply result_all_map_Ok. intros [k [t cs]] Hk. cbn [fst snd].
  pose proof (Hin _ Hk) as I. cbn [snd] in I. destruct (index_of_Some _ _ I) as [i [E Hi]]. unfold offset. rewrite E. cbn [result_bind].
  unfold lookup_result at 1. rewrite nth_error_map, nth_error_enumerate', Hi. cbn [option_map result_bind fst snd].
  unfold lookup_result. rewrite nth_array3 by (eapply H; exact Hk). reflexivity.
Qed.

Lemma dict_get_map : forall A (g : nat * (nat * list bool) -> A) keys k t cs, NoDup (map fst keys) -> In (k, (t, cs)) keys ->
  dict_get Nat.eq_dec k (map (fun x => (fst x, g x)) keys) = Some (g (k, (t, cs))).
Proof.
  intros A g keys k t cs. induction keys as [|x keys IH]; intros ND H; [destruct H|]. cbn [map] in ND. inversion ND as [|? ? N ND']; subst.
  cbn [map dict_get]. destruct H as [->|H].
  - cbn [fst]. destruct (Nat.eq_dec k k); [reflexivity|contradiction].
  - destruct (Nat.eq_dec k (fst x)) as [E|NE].
    + exfalso. apply N. rewrite <- E. apply in_map_iff. exists (k, (t, cs)). auto.
    + apply IH; assumption.
Qed.

Lemma numbers_occur : forall keys c, In c (numbers_of keys) <-> number_occurs keys c.
Proof.
  intros keys c. unfold numbers_of. rewrite In_drop_duplicates, in_map_iff. split.
  - intros [[k [t cs]] [E H]]. exists k, t, cs. auto.
  - intros [k [t [cs [H E]]]]. exists (k, (t, cs)). auto.
Qed.

Lemma n_numbers_eq : forall keys, List.length (numbers_of keys) = n_numbers keys.
Proof.
  intros keys. apply Permutation_length. apply NoDup_Permutation; [apply NoDup_drop_duplicates|apply NoDup_nodup|].
  intros c. unfold numbers_of. rewrite In_drop_duplicates, nodup_In. reflexivity.
Qed.

Lemma offset_inj : forall l c c', In c l -> In c' l -> offset l c = offset l c' -> c = c'.
Proof. intros l c c' H H' E. apply offset_nth in H, H'. congruence. Qed.

Lemma offset_lt : forall l c, In c l -> offset l c < List.length l.
Proof. intros l c H. apply nth_error_Some. rewrite offset_nth by exact H. discriminate. Qed.

Lemma solution_draws : forall A (src : sources A) order T n seed name keys,
  (forall l, Permutation (order l) l) -> usable src name -> (forall k t cs, In (k, (t, cs)) keys -> t < T) -> NoDup (map fst keys) ->
  let q := offset (order (numbers_of keys)) in
  exists draws, create_draws src order T n seed name keys = Ok draws /\ map fst draws = map fst keys /\
  (forall c c', number_occurs keys c -> number_occurs keys c' -> q c = q c' -> c = c') /\
  (forall c, number_occurs keys c -> q c < n_numbers keys) /\
  forall k t cs, In (k, (t, cs)) keys -> exists table, dict_get Nat.eq_dec k draws = Some table /\
    table_of n (count_true cs) table /\
    forall d j, d < n -> j < count_true cs ->
      entry table d j = Some (point src (T * n) (count_true cs) (seed + Z.of_nat (q (count_true cs))) name (t * n + d) j).
Proof.
  intros A src order T n seed name keys P U H ND q.
  assert (I : forall c, number_occurs keys c -> In c (order (numbers_of keys))).
  { intros c Hc. eapply Permutation_in; [symmetry; apply P|]. apply numbers_occur. exact Hc. }
  eexists. split; [apply create_draws_eq; assumption|]. split; [rewrite map_map; reflexivity|].
  split; [intros c c' Hc Hc' E; eapply offset_inj; [| |exact E]; apply I; assumption|].
  split.
  { intros c Hc. rewrite <- n_numbers_eq, <- (Permutation_length (P (numbers_of keys))). apply offset_lt, I, Hc. }
  intros k t cs Hk. eexists. split.
  - exact (dict_get_map _ (fun x => map (fun p => map (point src (T * n) (count_true (snd (snd x)))
       (seed + Z.of_nat (offset (order (numbers_of keys)) (count_true (snd (snd x))))) name p) (seq 0 (count_true (snd (snd x)))))
       (seq (fst (snd x) * n) n)) keys k t cs ND Hk).
  - cbn [fst snd]. split; [apply table_map|]. intros d j Hd Hj. rewrite entry_map by assumption. reflexivity.
Qed.

Lemma random_solution : forall A (src : sources A) order T n seed keys,
  (forall l, Permutation (order l) l) -> (forall k t cs, In (k, (t, cs)) keys -> t < T) -> NoDup (map fst keys) ->
  exists draws q, create_draws src order T n seed "random" keys = Ok draws /\ map fst draws = map fst keys /\
  (forall c c', number_occurs keys c -> number_occurs keys c' -> q c = q c' -> c = c') /\
  (forall c, number_occurs keys c -> q c < n_numbers keys) /\
  forall k t cs, In (k, (t, cs)) keys -> exists table, dict_get Nat.eq_dec k draws = Some table /\
    table_of n (count_true cs) table /\
    forall d j, d < n -> j < count_true cs ->
      entry table d j = Some (normal src (seed + Z.of_nat (q (count_true cs))) (position n (count_true cs) t d j)).
Proof.
  intros A src order T n seed keys P H ND.
  destruct (solution_draws A src order T n seed "random" keys P (or_introl eq_refl) H ND) as [draws [E R]].
  exists draws, (offset (order (numbers_of keys))). split; [exact E|exact R].
Qed.

Lemma quasi_solution : forall A (src : sources A) order T n seed name rule keys,
  (name = "sobol" /\ rule = "S") \/ (name = "halton" /\ rule = "H") -> installed src = true ->
  (forall l, Permutation (order l) l) -> (forall k t cs, In (k, (t, cs)) keys -> t < T) -> NoDup (map fst keys) ->
  exists draws q, create_draws src order T n seed name keys = Ok draws /\ map fst draws = map fst keys /\
  (forall c c', number_occurs keys c -> number_occurs keys c' -> q c = q c' -> c = c') /\
  (forall c, number_occurs keys c -> q c < n_numbers keys) /\
  forall k t cs, In (k, (t, cs)) keys -> exists table, dict_get Nat.eq_dec k draws = Some table /\
    table_of n (count_true cs) table /\
    forall d j, d < n -> j < count_true cs ->
      entry table d j = Some (quasi src (seed + Z.of_nat (q (count_true cs))) rule (T * n) (count_true cs) j (t * n + d)).
Proof.
  intros A src order T n seed name rule keys Q I P H ND.
  assert (U : usable src name) by (right; split; [destruct Q as [[-> _]|[-> _]]; [left|right]; reflexivity|exact I]).
  destruct (solution_draws A src order T n seed name keys P U H ND) as [draws [E [F [G [L R]]]]].
  exists draws, (offset (order (numbers_of keys))). split; [exact E|]. split; [exact F|]. split; [exact G|]. split; [exact L|].
  intros k t cs Hk. destruct (R k t cs Hk) as [table [E1 [E2 E3]]]. exists table. split; [exact E1|]. split; [exact E2|].
  intros d j Hd Hj. rewrite E3 by assumption. destruct Q as [[-> ->]|[-> ->]]; reflexivity.
Qed.

Lemma shared_draws : forall A (src : sources A) order T n seed name keys draws k k' t cs cs',
  (forall l, Permutation (order l) l) -> NoDup (map fst keys) -> (forall k t cs, In (k, (t, cs)) keys -> t < T) ->
  create_draws src order T n seed name keys = Ok draws ->
  In (k, (t, cs)) keys -> In (k', (t, cs')) keys -> count_true cs = count_true cs' ->
  exists table, dict_get Nat.eq_dec k draws = Some table /\ dict_get Nat.eq_dec k' draws = Some table.
Proof.
  intros A src order T n seed name keys draws k k' t cs cs' P ND H E Hk Hk' Ec.
  destruct (usable_dec A src name) as [U|N].
  - rewrite create_draws_eq in E by assumption. injection E as <-. cbv zeta. eexists.
    split; [apply (dict_get_map _ (fun x => map (fun p => map (point src (T * n) (count_true (snd (snd x)))
       (seed + Z.of_nat (offset (order (numbers_of keys)) (count_true (snd (snd x))))) name p) (seq 0 (count_true (snd (snd x)))))
       (seq (fst (snd x) * n) n)) keys k t cs ND Hk)|].
    etransitivity; [apply (dict_get_map _ (fun x => map (fun p => map (point src (T * n) (count_true (snd (snd x)))
       (seed + Z.of_nat (offset (order (numbers_of keys)) (count_true (snd (snd x))))) name p) (seq 0 (count_true (snd (snd x)))))
       (seq (fst (snd x) * n) n)) keys k' t cs' ND Hk')|]. cbn [fst snd]. rewrite Ec. reflexivity.
  - exfalso. unfold create_draws in E. fold (numbers_of keys) in E.
    destruct (order (numbers_of keys)) as [|c r] eqn:O.
    + assert (I : In (count_true cs) (order (numbers_of keys))).
      { eapply Permutation_in; [symmetry; apply P|]. apply numbers_occur. exists k, t, cs. auto. }
      rewrite O in I. destruct I.
    + unfold enumerate in E. cbn [enumerate_from map result_all fst snd] in E. rewrite draws3_error in E by exact N. discriminate.
Qed.

Lemma random_extendable : forall (src : sources R) n,
  extendable (fun seed rows c => match create_base_draws3 src rows n c seed "random" with Ok d => d | _ => [] end).
Proof.
  intros src n s a a' c H. destruct (base_draws_extended R src a a' n c s "random" H (or_introl eq_refl) (or_introl eq_refl))
    as [d [d' [E [E' [L F]]]]]. rewrite E, E'. split; assumption.
Qed.
