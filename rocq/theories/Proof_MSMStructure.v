(** Proofs about the method of simulated moments: inputs and what is returned. *)
From Coq Require Import List Arith Bool String Reals Lia Permutation.
From Verif Require Import Base Proof_Base Model_Choices Model_Cache Proof_Cache Model_MSM Spec_MSM Proof_MSM Proof_MSMLabels.
Import ListNotations.
Open Scope string_scope.
Local Open Scope nat_scope.

Lemma at_label_map : forall (f : string -> value) i l, In l i -> at_label i (map f i) l = f l.
Proof. intros f. induction i as [|x i IH]; intros l I; [destruct I|]. cbn. destruct (string_dec x l) as [->|N]; [reflexivity|]. destruct I; [congruence|auto]. Qed.
Lemma dict_get_map : forall A (f : string -> A) i l, In l i -> dict_get string_dec l (map (fun n => (n, f n)) i) = Some (f l).
Proof. intros A f. induction i as [|x i IH]; intros l I; [destruct I|]. cbn. destruct (string_dec l x) as [->|N]; [reflexivity|]. destruct I; [congruence|auto]. Qed.

Lemma reindex_like_structure : forall x m, well_formed x -> well_formed m -> alike x m ->
  exists s, reindex_like x m = Ok s /\ has_structure s m x /\ well_formed s.
Proof.
  intros [i v|i c] [i' v'|i' c'] W WM A; try contradiction.
  - destruct W as [N L]. destruct WM as [N' L']. cbn [reindex_like]. rewrite (reindex_distinct _ None i v i' N L). cbn [result_bind]. eexists. split; [reflexivity|].
    split; [|split; [exact N'|apply map_length]]. split; [exact I|]. split; [reflexivity|]. intros [[cn|] l] P; cbn [places] in P; apply in_map_iff in P; destruct P as [l' [E P]]; inversion E; subst.
    cbn [at_place fst snd]. rewrite at_label_map by exact P. apply lookup_at_label.
  - destruct W as [N [NC L]]. destruct WM as [N' [NC' L']]. cbn [reindex_like]. rewrite reindex_distinct by (rewrite ?map_length; auto). cbn [result_bind].
    set (h := fun n : string => map (at_label i (lookup (map (fun _ => None) i) (map fst c) (map snd c) n)) i').
    assert (E : result_all (map (fun v => reindex None i v i') (map (lookup (map (fun _ : string => None) i) (map fst c) (map snd c)) (map fst c'))) = Ok (map h (map fst c'))).
    { rewrite !map_map. apply result_all_map_ok. intros [n col] J. cbn [fst]. unfold h. rewrite reindex_distinct; [|exact N|].
      - f_equal. apply map_ext. intros l. apply lookup_at_label.
      - unfold lookup. rewrite combine_split_id. match goal with |- context[@dict_get ?K ?V ?d n c] => destruct (@dict_get K V d n c) as [v|] eqn:G end; [|apply map_length].
        apply dict_get_In' in G. apply (L _ _ G). }
    rewrite E. cbn [result_bind]. rewrite combine_map_r. eexists. split; [reflexivity|]. split.
    + split; [exact I|]. split.
      * cbn [places]. rewrite !flat_map_concat_map, !map_map. reflexivity.
      * intros [[cn|] l] P; cbn [places] in P; apply in_flat_map in P; destruct P as [[n col] [J P]]; apply in_map_iff in P; destruct P as [l' [Q P]]; cbn [fst] in Q; [|discriminate]; injection Q as Q1 Q2; subst cn l.
        cbn [at_place fst snd]. rewrite (dict_get_map _ h) by (apply in_map_iff; exists (n, col); auto). unfold h. rewrite at_label_map by exact P.
        unfold lookup. rewrite combine_split_id. unfold value in *. destruct (dict_get string_dec n c); [reflexivity|apply at_label_none].
    + cbn [well_formed]. rewrite !map_map. cbn [fst]. split; [exact N'|]. split; [exact NC'|]. intros n v J. apply in_map_iff in J.
      destruct J as [[n' v'] [Q J]]. inversion Q; subst. unfold h. apply map_length.
Qed.

Lemma result_all_Forall2 : forall A B (f : A -> result B) (P : A -> B -> Prop) l r,
  (forall x, In x l -> exists y, f x = Ok y /\ P x y) -> result_all (map f l) = Ok r -> Forall2 P l r.
Proof.
  intros A B f P. induction l as [|x l IH]; intros r H E; cbn in E.
  - inversion E; subst. constructor.
  - destruct (H x (or_introl eq_refl)) as [y [F Y]]. rewrite F in E. cbn in E.
    destruct (result_all (map f l)) as [r'| | | | |] eqn:R; cbn in E; try discriminate. inversion E; subst.
    constructor; [exact Y|]. apply IH; [|reflexivity]. intros z I. apply H. right. exact I.
Qed.
Definition kept (emp : list (string * moments)) (nx ns : string * moments) : Prop :=
  fst nx = fst ns /\ well_formed (snd ns) /\ exists m, In (fst nx, m) emp /\ has_structure (snd ns) m (snd nx).
Lemma Forall2_fst : forall emp a b, Forall2 (kept emp) a b -> map fst a = map fst b.
Proof. intros emp a b H. induction H as [|x y a b [E _] H IH]; cbn; [reflexivity|]. f_equal; assumption. Qed.

Lemma simulated_sets : forall sims emp W o, same_sets sims emp -> moment_errors sims (keep_missing emp) emp W = Ok o ->
  Forall2 (kept emp) sims (o_simulated o).
Proof.
  intros sims emp W o S H. pose proof S as [N [N' [E [Wf [WE A]]]]]. unfold moment_errors in H.
  destruct (result_all (map _ sims)) as [s1| | | | |] eqn:R1; cbn [result_bind] in H; try discriminate.
  assert (F : Forall2 (kept emp) sims s1).
  { refine (result_all_Forall2 _ _ _ _ _ _ _ R1). intros [n x] I. cbn [fst snd].
    destruct (in_keys_pair _ emp n (proj1 (E n) (in_map fst _ _ I))) as [m M].
    rewrite (dict_get_In_NoDup string_dec n m emp N' M).
    destruct (reindex_like_structure x m (Wf n x I) (WE n m M) (A n x m I M)) as [s [X [Y Z]]]. exists (n, s). rewrite X. split; [reflexivity|].
    split; [reflexivity|]. split; [exact Z|]. exists m. auto. }
  rewrite (replaced_none emp s1 N') in H by (rewrite <- (Forall2_fst _ _ _ F); intros n I; apply E; exact I). cbn [result_bind] in H.
  destruct (flatten_index emp) as [fe| | | | |]; cbn [result_bind] in H; try discriminate.
  destruct (flatten_index s1) as [fs| | | | |]; cbn [result_bind] in H; try discriminate.
  destruct (subtract fe fs) as [er| | | | |]; cbn [result_bind] in H; try discriminate.
  destruct (is_square _ W); [|discriminate]. inversion H; subst. exact F.
Qed.

(** ** Harmonized inputs *)

Lemma enumerate_fst : forall A (l : list A), map fst (enumerate l) = seq 0 (List.length l).
Proof.
  intros A l. unfold enumerate. assert (G : forall s, map fst (enumerate_from s l) = seq s (List.length l)).
  { induction l as [|x l IH]; intros s; cbn; [reflexivity|]. f_equal. apply IH. }
  apply G.
Qed.
Lemma enumerate_snd : forall A (l : list A), map snd (enumerate l) = l.
Proof.
  intros A l. unfold enumerate. assert (G : forall s, map snd (enumerate_from s l) = l).
  { induction l as [|x l IH]; intros s; cbn; [reflexivity|]. f_equal. apply IH. }
  apply G.
Qed.
Definition listed {A} (l : list A) : list (string * A) := map (fun p => (dec (fst p), snd p)) (enumerate l).
Lemma listed_fst : forall A (l : list A), map fst (listed l) = map dec (seq 0 (List.length l)).
Proof. intros A l. unfold listed. rewrite map_map. cbn [fst]. rewrite <- (enumerate_fst A l), map_map. reflexivity. Qed.
Lemma listed_snd : forall A (l : list A), map snd (listed l) = l.
Proof. intros A l. unfold listed. rewrite map_map. cbn [snd]. apply enumerate_snd. Qed.
Lemma listed_NoDup : forall A (l : list A), NoDup (map fst (listed l)).
Proof. intros A l. rewrite listed_fst. apply FinFun.Injective_map_NoDup; [intros a b; apply dec_inj|apply seq_NoDup]. Qed.
Lemma listed_length : forall A (l : list A), List.length (listed l) = List.length l.
Proof. intros A l. rewrite <- (map_length snd), listed_snd. reflexivity. Qed.
Lemma In_listed : forall A (l : list A) n x, In (n, x) (listed l) <-> exists i, n = dec i /\ nth_error l i = Some x.
Proof.
  intros A l n x. unfold listed. rewrite in_map_iff. split.
  - intros [[i y] [E I]]. inversion E; subst. exists i. split; [reflexivity|]. apply In_enumerate. exact I.
  - intros [i [-> I]]. exists (i, x). split; [reflexivity|]. apply In_enumerate. exact I.
Qed.
Lemma calculated_listed : forall D (fs : list (D -> moments)) d, calculated (listed fs) d = listed (map (fun g => g d) fs).
Proof.
  intros D fs d. unfold calculated, listed. rewrite !map_map. unfold enumerate.
  generalize 0 as s. induction fs as [|g fs IH]; intros s; cbn; [reflexivity|]. f_equal. apply IH.
Qed.
Lemma same_sets_listed : forall xs ms, List.length xs = List.length ms ->
  (forall m, In m ms -> well_formed m) -> (forall x, In x xs -> well_formed x) ->
  (forall i x m, nth_error xs i = Some x -> nth_error ms i = Some m -> alike x m) -> same_sets (listed xs) (listed ms).
Proof.
  intros xs ms L WM WX A. split; [apply listed_NoDup|]. split; [apply listed_NoDup|]. split; [intros n; rewrite !listed_fst, L; tauto|].
  split; [|split].
  - intros n x I. apply In_listed in I. destruct I as [i [_ I]]. apply WX, nth_error_In in I || (apply WX; eapply nth_error_In; exact I).
  - intros n x I. apply In_listed in I. destruct I as [i [_ I]]. apply WM. eapply nth_error_In. exact I.
  - intros n x m I J. apply In_listed in I. apply In_listed in J. destruct I as [i [-> I]]. destruct J as [j [E J]]. apply dec_inj in E. subst j. eapply A; eassumption.
Qed.

Lemma func_inv : forall P D (simulate : P -> D) calc emp W f, get_moment_errors_func simulate calc None emp W = Ok f ->
  exists hc he w, harmonize calc = Ok hc /\ harmonize emp = Ok he /\ List.length hc = List.length he /\
  forall p, f p = moment_errors (calculated hc (simulate p)) (keep_missing he) he w.
Proof.
  intros P D simulate calc emp W f H. unfold get_moment_errors_func in H.
  destruct (match W with Some w => Ok w | None => get_diag_weighting_matrix emp None end) as [w| | | | |]; cbn [result_bind] in H; try discriminate.
  destruct (harmonize emp) as [he| | | | |]; cbn [result_bind] in H; try discriminate.
  destruct (harmonize calc) as [hc| | | | |]; cbn [result_bind] in H; try discriminate.
  rewrite map_length, !Nat.ltb_irrefl, andb_false_r in H.
  destruct (Nat.eqb_spec (List.length hc) (List.length he)) as [L|]; cbn [negb] in H; [|discriminate]. inversion H; subst.
  exists hc, he, w. repeat split; auto.
Qed.

Lemma Forall2_nth : forall A B (P : A -> B -> Prop) a b, Forall2 P a b -> forall i x, nth_error a i = Some x -> exists y, nth_error b i = Some y /\ P x y.
Proof.
  intros A B P a b H. induction H as [|x y a b X H IH]; intros [|i] z E; cbn in E; try discriminate.
  - inversion E; subst. exists y. auto.
  - apply IH. exact E.
Qed.
Lemma listed_nth : forall A (l : list A) i x, nth_error l i = Some x -> nth_error (listed l) i = Some (dec i, x).
Proof.
  intros A l i x H. unfold listed, enumerate. assert (G : forall s, nth_error (map (fun p : nat * A => (dec (fst p), snd p)) (enumerate_from s l)) i = Some (dec (s + i), x)).
  { revert i H. induction l as [|y l IH]; intros [|i] H s; cbn in H; try discriminate.
    - inversion H; subst. cbn. rewrite Nat.add_0_r. reflexivity.
    - cbn. rewrite (IH i H). f_equal. f_equal. f_equal. lia. }
  rewrite G. reflexivity.
Qed.

(** Lists of sets of moments. *)
Lemma listed_outcome : forall P D (simulate : P -> D) fs ms W f p o,
  get_moment_errors_func simulate (Listed fs) None (Listed ms) W = Ok f -> f p = Ok o ->
  (forall m, In m ms -> well_formed m) -> (forall g, In g fs -> well_formed (g (simulate p))) ->
  (forall i g m, nth_error fs i = Some g -> nth_error ms i = Some m -> alike (g (simulate p)) m) ->
  List.length (o_simulated o) = List.length ms /\
  forall i g m, nth_error fs i = Some g -> nth_error ms i = Some m ->
    exists s, nth_error (map snd (o_simulated o)) i = Some s /\ has_structure s m (g (simulate p)).
Proof.
  intros P D simulate fs ms W f p o H F WM WF A. destruct (func_inv _ _ _ _ _ _ _ H) as [hc [he [w [C [E [L Q]]]]]].
  inversion C; subst hc. inversion E; subst he. change (map (fun q => (dec (fst q), snd q)) (enumerate fs)) with (listed fs) in *.
  change (map (fun q => (dec (fst q), snd q)) (enumerate ms)) with (listed ms) in *. rewrite !listed_length in L.
  rewrite Q, calculated_listed in F.
  assert (S : same_sets (listed (map (fun g => g (simulate p)) fs)) (listed ms)).
  { apply same_sets_listed; [rewrite map_length; exact L|exact WM| |].
    - intros x I. apply in_map_iff in I. destruct I as [g [<- I]]. apply WF. exact I.
    - intros i x m X M. rewrite nth_error_map in X. destruct (nth_error fs i) as [g|] eqn:G; cbn in X; [|discriminate]. inversion X; subst. eapply A; eassumption. }
  pose proof (simulated_sets _ _ _ _ S F) as K. split.
  - rewrite <- (map_length fst), <- (Forall2_fst _ _ _ K), map_length, listed_length, map_length. exact L.
  - intros i g m G M. assert (X : nth_error (listed (map (fun g => g (simulate p)) fs)) i = Some (dec i, g (simulate p))).
    { apply listed_nth. rewrite nth_error_map, G. reflexivity. }
    destruct (Forall2_nth _ _ _ _ _ K i _ X) as [[n s] [Y [N [_ [m' [M' T]]]]]]. exists s. rewrite nth_error_map, Y. split; [reflexivity|].
    cbn [fst snd] in *. apply In_listed in M'. destruct M' as [j [J M']]. apply dec_inj in J. subst j. rewrite M in M'. inversion M'; subst. exact T.
Qed.
Theorem lists_return_lists : forall P D (simulate : P -> D) fs ms W f p o,
  get_moment_errors_func simulate (Listed fs) None (Listed ms) W = Ok f -> f p = Ok o ->
  (forall m, In m ms -> well_formed m) -> (forall g, In g fs -> well_formed (g (simulate p))) ->
  (forall i g m, nth_error fs i = Some g -> nth_error ms i = Some m -> alike (g (simulate p)) m) ->
  List.length ms <> 1 ->
  exists l, returned_moments (Listed ms) o = Listed l /\ List.length l = List.length ms /\
    forall i g m, nth_error fs i = Some g -> nth_error ms i = Some m ->
      exists s, nth_error l i = Some s /\ has_structure s m (g (simulate p)).
Proof.
  intros P D simulate fs ms W f p o H F WM WF A N. destruct (listed_outcome _ _ _ _ _ _ _ _ _ H F WM WF A) as [L G].
  exists (map snd (o_simulated o)). split; [|split; [rewrite map_length; exact L|exact G]].
  cbn [returned_moments]. unfold reconstruct. rewrite <- (map_length snd) in L. destruct (map snd (o_simulated o)) as [|x [|y l]]; try reflexivity.
  cbn in L. congruence.
Qed.
Theorem one_element_list : forall P D (simulate : P -> D) g m W f p o,
  get_moment_errors_func simulate (Listed [g]) None (Listed [m]) W = Ok f -> f p = Ok o ->
  well_formed m -> well_formed (g (simulate p)) -> alike (g (simulate p)) m ->
  exists s, returned_moments (Listed [m]) o = Single s /\ has_structure s m (g (simulate p)).
Proof.
  intros P D simulate g m W f p o H F WM WF A.
  destruct (listed_outcome _ _ _ _ _ _ _ _ _ H F) as [L G].
  - intros x [<-|[]]. exact WM.
  - intros x [<-|[]]. exact WF.
  - intros [|[|i]] x y X Y; cbn in X, Y; try discriminate. inversion X; inversion Y; subst. exact A.
  - destruct (G 0 g m eq_refl eq_refl) as [s [E T]]. exists s. split; [|exact T]. cbn [returned_moments]. unfold reconstruct.
    rewrite <- (map_length snd) in L. destruct (map snd (o_simulated o)) as [|x [|y l]]; cbn in L; try discriminate. cbn in E. inversion E; subst. reflexivity.
Qed.
Theorem single_returns_single : forall P D (simulate : P -> D) g m W f p o,
  get_moment_errors_func simulate (Single g) None (Single m) W = Ok f -> f p = Ok o ->
  well_formed m -> well_formed (g (simulate p)) -> alike (g (simulate p)) m ->
  exists s, returned_moments (Single m) o = Single s /\ has_structure s m (g (simulate p)).
Proof.
  intros P D simulate g m W f p o H F WM WF A.
  apply (one_element_list P D simulate g m W f p o); auto.
Qed.
Theorem dictionaries_return_dictionaries : forall P D (simulate : P -> D) calc emp W f p o,
  get_moment_errors_func simulate (Named calc) None (Named emp) W = Ok f -> f p = Ok o ->
  same_sets (calculated calc (simulate p)) emp ->
  exists d, returned_moments (Named emp) o = Named d /\ map fst d = map fst calc /\
    forall n g m, In (n, g) calc -> In (n, m) emp -> exists s, In (n, s) d /\ has_structure s m (g (simulate p)).
Proof.
  intros P D simulate calc emp W f p o H F S. destruct (func_inv _ _ _ _ _ _ _ H) as [hc [he [w [C [E [L Q]]]]]]. inversion C; subst hc. inversion E; subst he.
  rewrite Q in F. pose proof (simulated_sets _ _ _ _ S F) as K. exists (o_simulated o). split; [reflexivity|]. split.
  - rewrite <- (Forall2_fst _ _ _ K). unfold calculated. rewrite map_map. reflexivity.
  - intros n g m G M. apply In_nth_error in G. destruct G as [i G].
    assert (X : nth_error (calculated calc (simulate p)) i = Some (n, g (simulate p))) by (unfold calculated; rewrite nth_error_map, G; reflexivity).
    destruct (Forall2_nth _ _ _ _ _ K i _ X) as [[n' s] [Y [N [_ [m' [M' T]]]]]]. cbn [fst snd] in *. subst n'. exists s. split; [apply nth_error_In in Y; exact Y|].
    destruct S as [_ [N' _]]. pose proof (dict_get_In_NoDup string_dec n m emp N' M) as U. pose proof (dict_get_In_NoDup string_dec n m' emp N' M') as V. rewrite U in V. inversion V; subst. exact T.
Qed.

(** ** Errors in inputs *)

Lemma result_all_not_ok : forall A B (f : A -> result B) l x, In x l -> (forall y, f x <> Ok y) -> forall r, result_all (map f l) <> Ok r.
Proof.
  intros A B f. induction l as [|z l IH]; intros x I N r; [destruct I|]. cbn. destruct I as [->|I].
  - destruct (f x) as [y| | | | |] eqn:E; cbn; try discriminate. exfalso. apply (N y). reflexivity.
  - destruct (f z) as [y| | | | |]; cbn; try discriminate. destruct (result_all (map f l)) as [r'| | | | |] eqn:R; cbn; try discriminate.
    exfalso. apply (IH x I N r'). reflexivity.
Qed.
Lemma result_all_fst : forall A B (f : string * A -> result (string * B)) l r,
  (forall x y, f x = Ok y -> fst y = fst x) -> result_all (map f l) = Ok r -> map fst r = map fst l.
Proof.
  intros A B f. induction l as [|x l IH]; intros r H E; cbn in E; [inversion E; reflexivity|].
  destruct (f x) as [y| | | | |] eqn:F; cbn in E; try discriminate. destruct (result_all (map f l)) as [r'| | | | |] eqn:R; cbn in E; try discriminate.
  inversion E; subst. cbn. f_equal; [apply (H _ _ F)|apply IH; auto].
Qed.

Lemma unknown_replacement : forall sims repl emp W n o, In n (map fst sims) -> ~ In n (map fst repl) -> moment_errors sims repl emp W <> Ok o.
Proof.
  intros sims repl emp W n o I N H. unfold moment_errors in H.
  destruct (result_all (map _ sims)) as [s1| | | | |] eqn:R1; cbn [result_bind] in H; try discriminate.
  apply result_all_fst in R1.
  2:{ intros [k x] y E. cbn [fst snd] in E. destruct (dict_get string_dec k emp); [|discriminate]. destruct (reindex_like x _); cbn in E; inversion E; reflexivity. }
  rewrite <- R1 in I. apply in_map_iff in I. destruct I as [[k x] [E I]]. cbn in E. subst k.
  match type of H with result_bind ?r _ = _ => destruct r as [s2| | | | |] eqn:R2 end; cbn [result_bind] in H; try discriminate.
  refine (result_all_not_ok _ _ _ s1 (n, x) I _ s2 R2). intros y. cbn [fst snd].
  destruct (dict_get string_dec n repl) as [g|] eqn:G; [|discriminate]. exfalso. apply N. apply dict_get_In' in G. apply in_map_iff. exists (n, g). auto.
Qed.
Lemma unknown_empirical : forall sims repl emp W n o, In n (map fst sims) -> ~ In n (map fst emp) -> moment_errors sims repl emp W <> Ok o.
Proof.
  intros sims repl emp W n o I N H. unfold moment_errors in H. apply in_map_iff in I. destruct I as [[k x] [E I]]. cbn in E. subst k.
  match type of H with result_bind ?r _ = _ => destruct r as [s2| | | | |] eqn:R2 end; cbn [result_bind] in H; try discriminate.
  refine (result_all_not_ok _ _ _ sims (n, x) I _ s2 R2). intros y. cbn [fst snd].
  destruct (dict_get string_dec n emp) as [g|] eqn:G; [|discriminate]. exfalso. apply N. apply dict_get_In' in G. apply in_map_iff. exists (n, g). auto.
Qed.

Theorem one_replacement_in_a_list : forall P D (simulate : P -> D) calc hc r emp he W,
  harmonize calc = Ok hc -> NoDup (map fst hc) -> harmonize emp = Ok he -> List.length hc = List.length he -> 2 <= List.length he ->
  exists f, get_moment_errors_func simulate calc (Some (Listed [r])) emp (Some W) = Ok f /\ forall p o, f p <> Ok o.
Proof.
  intros P D simulate calc hc r emp he W C N E L T. unfold get_moment_errors_func. rewrite E, C. cbn [result_bind harmonize].
  set (rp := map (fun q => (dec (fst q), snd q)) (enumerate [r])). assert (LR : List.length rp = 1) by reflexivity. rewrite LR.
  change (Nat.ltb 1 1) with false. cbn [andb]. destruct (Nat.ltb_spec (List.length he) 1); [lia|]. rewrite L, Nat.eqb_refl. cbn [negb].
  eexists. split; [reflexivity|]. intros p o. cbv beta.
  assert (X : exists n, In n (map fst hc) /\ n <> dec 0).
  { destruct hc as [|[a ga] [|[b gb] hc]]; cbn in L; try lia. cbn in N. inversion N as [|? ? NA _]; subst.
    destruct (string_dec a (dec 0)) as [->|Ne].
    - exists b. split; [right; left; reflexivity|]. intros ->. apply NA. left. reflexivity.
    - exists a. split; [left; reflexivity|exact Ne]. }
  destruct X as [n [I Ne]]. apply (unknown_replacement _ _ _ _ n).
  - rewrite map_map. exact I.
  - intros [Q|[]]. apply Ne. symmetry. exact Q.
Qed.
Theorem unknown_set : forall P D (simulate : P -> D) calc hc emp he W n,
  harmonize calc = Ok hc -> harmonize emp = Ok he -> List.length hc = List.length he -> In n (map fst hc) -> ~ In n (map fst he) ->
  exists f, get_moment_errors_func simulate calc None emp (Some W) = Ok f /\ forall p o, f p <> Ok o.
Proof.
  intros P D simulate calc hc emp he W n C E L I N. unfold get_moment_errors_func. rewrite E, C. cbn [result_bind].
  rewrite map_length, !Nat.ltb_irrefl, andb_false_r, L, Nat.eqb_refl. cbn [negb]. eexists. split; [reflexivity|]. intros p o.
  apply (unknown_empirical _ _ _ _ n); [rewrite map_map; exact I|exact N].
Qed.
Theorem wrong_numbers : forall P D (simulate : P -> D) calc hc emp he W,
  harmonize calc = Ok hc -> harmonize emp = Ok he ->
  (List.length hc <> List.length he -> forall repl f, get_moment_errors_func simulate calc repl emp (Some W) <> Ok f) /\
  (List.length hc <> List.length he -> get_moment_errors_func simulate calc None emp (Some W) = ValueError) /\
  (forall repl hr, harmonize repl = Ok hr -> (forall g, repl <> Single g) -> List.length hr <> List.length he -> List.length hr <> 1 -> hr <> [] ->
     get_moment_errors_func simulate calc (Some repl) emp (Some W) = ValueError).
Proof.
  intros P D simulate calc hc emp he W C E. split; [|split].
  - intros L repl f. unfold get_moment_errors_func. rewrite E, C. cbn [result_bind].
    match goal with |- result_bind ?r _ <> _ => destruct r as [hr| | | | |] end; cbn [result_bind]; try discriminate.
    destruct (_ && _); [discriminate|]. destruct (Nat.ltb _ _); [discriminate|]. apply Nat.eqb_neq in L. rewrite L. discriminate.
  - intros L. unfold get_moment_errors_func. rewrite E, C. cbn [result_bind]. rewrite map_length, !Nat.ltb_irrefl, andb_false_r. apply Nat.eqb_neq in L. rewrite L. reflexivity.
  - intros repl hr R NS L N1 N0. unfold get_moment_errors_func. rewrite E, C. cbn [result_bind].
    assert (Q : match repl with Single g => Ok (map (fun nm : string * moments => (fst nm, g)) he) | other => harmonize other end = Ok hr).
    { destruct repl as [g|l|d|]; try exact R. exfalso. apply (NS g). reflexivity. }
    rewrite Q. cbn [result_bind]. assert (2 <= List.length hr) by (destruct hr as [|a [|b hr]]; cbn in *; [congruence|congruence|lia]).
    destruct (Nat.ltb_spec 1 (List.length hr)); [|lia]. cbn [andb].
    destruct (Nat.ltb_spec (List.length hr) (List.length he)); [reflexivity|]. destruct (Nat.ltb_spec (List.length he) (List.length hr)); [reflexivity|lia].
Qed.
Theorem broadcast : forall P D (simulate : P -> D) calc g emp he W, harmonize emp = Ok he ->
  get_moment_errors_func simulate calc (Some (Single g)) emp W =
  get_moment_errors_func simulate calc (Some (Named (map (fun n => (n, g)) (map fst he)))) emp W.
Proof.
  intros P D simulate calc g emp he W E. unfold get_moment_errors_func. destruct (match W with Some _ => _ | None => _ end); cbn [result_bind]; try reflexivity.
  rewrite E. cbn [result_bind]. destruct (harmonize calc); cbn [result_bind]; try reflexivity. cbn [harmonize result_bind]. rewrite map_map. reflexivity.
Qed.

(** ** Data for plots *)

Lemma tidy_set_own : forall n x, well_formed x -> tidy_set (n, x) = map (fun p => plot_row n p (at_place x p)) (places x).
Proof.
  intros n [i v|i c] W.
  - destruct W as [N L]. unfold tidy_set. cbn [snd fst places]. rewrite map_map.
    rewrite <- (lookup_self _ None i v N L) at 1. rewrite combine_map_r, map_map. apply map_ext. intros l. cbn. rewrite lookup_at_label. reflexivity.
  - destruct W as [N [NC L]]. unfold tidy_set. cbn [snd fst places].
    rewrite flat_map_concat_map, (flat_map_concat_map _ c), concat_map, map_map. f_equal. apply map_ext_in. intros [cn cv] I. cbn [fst snd].
    rewrite map_map. rewrite <- (lookup_self _ None i cv N (L _ _ I)) at 1. rewrite combine_map_r, map_map. apply map_ext. intros l.
    unfold plot_row. cbn [at_place fst snd]. rewrite (dict_get_In_NoDup string_dec cn cv c NC I), lookup_at_label. reflexivity.
Qed.
Lemma rows_of_app : forall k a b, rows_of k (a ++ b)%list = (rows_of k a ++ rows_of k b)%list.
Proof. intros k a b. unfold rows_of. rewrite filter_app, map_app. reflexivity. Qed.
Lemma rows_of_same : forall k l, rows_of k (map (fun r => (r, k)) l) = l.
Proof. intros k l. unfold rows_of. induction l as [|r l IH]; [reflexivity|]. cbn. rewrite String.eqb_refl. cbn. f_equal. exact IH. Qed.
Lemma rows_of_other : forall k k' l, k <> k' -> rows_of k (map (fun r => (r, k')) l) = [].
Proof. intros k k' l N. unfold rows_of. induction l as [|r l IH]; [reflexivity|]. cbn. destruct (String.eqb_spec k' k); [congruence|exact IH]. Qed.

Theorem plot_data : forall sims emp W o, same_sets sims emp -> moment_errors sims (keep_missing emp) emp W = Ok o ->
  let data := comparison_plot_data emp (o_simulated o) in
  rows_of "empirical" data = plot_rows emp (moment_of emp) /\
  Permutation (rows_of "simulated" data) (plot_rows emp (moment_of sims)) /\
  List.length data = List.length (rows_of "empirical" data) + List.length (rows_of "simulated" data).
Proof.
  intros sims emp W o S H data. pose proof S as [N [N' [E [Wf [WE A]]]]]. pose proof (simulated_sets _ _ _ _ S H) as K.
  unfold data, comparison_plot_data. rewrite !rows_of_app, !rows_of_same, !rows_of_other, app_nil_r, app_nil_l by discriminate.
  split; [|split; [|rewrite app_length, !map_length; reflexivity]].
  - unfold plot_rows. rewrite !flat_map_concat_map. f_equal. apply map_ext_in. intros [n m] I. cbn [fst snd]. rewrite (tidy_set_own n m (WE n m I)).
    apply map_ext. intros p. unfold moment_of. rewrite (dict_get_In_NoDup string_dec n m emp N' I). reflexivity.
  - set (g := fun n => match dict_get string_dec n emp with Some m => map (fun p => plot_row n p (moment_of sims n p)) (places m) | None => [] end).
    assert (X : plot_rows emp (moment_of sims) = flat_map g (map fst emp)).
    { unfold plot_rows. rewrite !flat_map_concat_map, map_map. f_equal. apply map_ext_in. intros [n m] I. unfold g. cbn [fst snd].
      rewrite (dict_get_In_NoDup string_dec n m emp N' I). reflexivity. }
    assert (Y : flat_map tidy_set (o_simulated o) = flat_map g (map fst sims)).
    { assert (G : forall part out, Forall2 (kept emp) part out -> incl part sims -> flat_map tidy_set out = flat_map g (map fst part)).
      { intros part out Q. induction Q as [|[n x] [n' s] part out [Q1 [Q2 [m [M [_ [T V]]]]]] Q IH]; intros IC; [reflexivity|]. cbn [fst snd] in *. subst n'.
        cbn [flat_map map fst]. f_equal; [|apply IH; intros z Z; apply IC; right; exact Z].
        rewrite (tidy_set_own n s Q2), T. unfold g. rewrite (dict_get_In_NoDup string_dec n m emp N' M). apply map_ext_in. intros p P. rewrite (V p P).
        unfold moment_of. rewrite (dict_get_In_NoDup string_dec n x sims N); [reflexivity|]. apply IC. left. reflexivity. }
      apply G; [exact K|apply incl_refl]. }
    rewrite X, Y. apply Permutation_flat_map, names_permutation. exact S.
Qed.
