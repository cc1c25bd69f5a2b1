(** Columns of experience and data types of columns. *)
From Coq Require Import List ZArith Bool String Lia Sorted.
From Verif Require Import Base Proof_Base Model_Choices Proof_Choices Model_Data Spec_Data.
Import ListNotations.
Open Scope Z_scope.

(** ** Experience *)

Definition group_sum (i : Z) (l : list (Z * Z)) : Z := fold_right Z.add 0 (map snd (filter (fun p => Z.eqb (fst p) i) l)).
Definition group_last (i : Z) (l : list (Z * Z)) : Z := match find (fun p => Z.eqb (fst p) i) l with Some p => snd p | None => 0 end.

Lemma group_sum_cons : forall i j x l, group_sum i ((j, x) :: l) = (if Z.eqb j i then x else 0) + group_sum i l.
Proof. intros i j x l. unfold group_sum. cbn. destruct (Z.eqb j i); reflexivity. Qed.
Lemma group_sum_app : forall i a b, group_sum i (a ++ b) = group_sum i a + group_sum i b.
Proof.
  intros i a b. induction a as [|[j x] a IH]; [reflexivity|]. cbn [app]. rewrite !group_sum_cons, IH. lia.
Qed.
Lemma group_sum_rev : forall i a, group_sum i (rev a) = group_sum i a.
Proof.
  intros i a. induction a as [|[j x] a IH]; [reflexivity|]. cbn [rev]. rewrite group_sum_app, !group_sum_cons, IH.
  unfold group_sum at 2. cbn. lia.
Qed.

Lemma cumsum_of_shift : forall l before lagged, (forall i, group_sum i lagged + group_last i before = group_sum i before) ->
  forall k, nth_error (group_cumsum lagged (combine (map fst l) (group_shift before l))) k =
    match nth_error l k with
    | Some p => Some (group_sum (fst p) (rev (firstn k l) ++ before))
    | None => None
    end.
Proof.
  induction l as [|[i x] l IH]; intros before lagged INV k; [destruct k; reflexivity|].
  cbn [map fst group_shift combine group_cumsum]. fold (group_last i before). fold (group_sum i lagged).
  destruct k as [|k]; cbn [nth_error firstn rev app]; [rewrite INV; reflexivity|].
  rewrite IH.
  - destruct (nth_error l k); [|reflexivity]. rewrite <- app_assoc. reflexivity.
  - intros j. rewrite !group_sum_cons. unfold group_last at 2. cbn [find fst].
    destruct (Z.eqb_spec i j) as [<-|NE]; cbn [snd]; [specialize (INV i); lia|].
    fold (group_last j before). specialize (INV j). lia.
Qed.

Theorem experience_counts : forall rows choice k,
  nth_error (working_experience rows choice) k =
  match nth_error rows k with Some _ => Some (Z.of_nat (earlier_choices rows choice k)) | None => None end.
Proof.
  intros rows choice k. unfold working_experience. cbv zeta.
  set (worked := map (fun r => (fst r, if known [choice] (snd r) then 1 else 0)) rows).
  assert (E : map fst rows = map fst worked) by (unfold worked; rewrite map_map; reflexivity).
  rewrite E, cumsum_of_shift by reflexivity. unfold worked at 1. unfold earlier_choices. rewrite nth_error_map.
  destruct (nth_error rows k) as [r|]; cbn [option_map fst]; [|reflexivity]. f_equal.
  rewrite app_nil_r, group_sum_rev. unfold worked. clear E worked. rewrite firstn_map.
  generalize (firstn k rows) as l. induction l as [|[j c] l IH]; [reflexivity|].
  cbn [map fst snd]. rewrite group_sum_cons, IH. cbn [filter fst snd].
  assert (K : known [choice] c = match c with Some d => String.eqb d choice | None => false end).
  { destruct c as [d|]; [|reflexivity]. cbn. unfold mem. cbn. rewrite orb_false_r. first [reflexivity | apply String.eqb_sym]. }
  rewrite <- K. destruct (Z.eqb j (fst r)); cbn [andb]; [|lia]. destruct (known [choice] c); cbn [List.length]; lia.
Qed.

(** ** Data types *)

Lemma bits_pos : forall d, is_type d -> 0 < d_bits d.
Proof. intros d H. cbn in H. destruct H as [H|[H|[H|[H|[]]]]]; lia. Qed.
Lemma range_size : forall d, is_type d -> d_max d - d_min d + 1 = 2 ^ d_bits d.
Proof.
  intros d H. pose proof (bits_pos d H) as P. unfold d_max, d_min. destruct (d_signed d); [|lia].
  replace (2 ^ d_bits d) with (2 * 2 ^ (d_bits d - 1)); [lia|].
  rewrite <- Z.pow_succ_r by lia. f_equal. lia.
Qed.
Lemma wrap_id : forall d x, is_type d -> (wrap d x = x <-> d_min d <= x <= d_max d).
Proof.
  intros d x H. pose proof (range_size d H) as S. unfold wrap. split.
  - intros E. assert (P : 0 < 2 ^ d_bits d) by (apply Z.pow_pos_nonneg; pose proof (bits_pos d H); lia).
    pose proof (Z.mod_pos_bound (x - d_min d) (2 ^ d_bits d) P). lia.
  - intros R. rewrite Z.mod_small by lia. lia.
Qed.
Lemma map_wrap_id : forall d l, is_type d -> (map (wrap d) l = l <-> fits d l).
Proof.
  intros d l H. unfold fits. induction l as [|x l IH]; cbn; [split; [intros _ x []|reflexivity]|]. split.
  - intros E. injection E as E1 E2. intros y [<-|I]; [apply (wrap_id d x H); exact E1 | exact (proj1 IH E2 y I)].
  - intros F. f_equal; [apply wrap_id; auto|apply IH; auto].
Qed.

Lemma first_type_spec : forall types c, (forall d, In d types -> is_type d) -> fits (fst c) (snd c) -> is_type (fst c) ->
  let d := first_type types c in
  is_type d /\ fits d (snd c) /\ (d = fst c \/ In d types) /\ (d_bits d <= d_bits (fst c)).
Proof.
  induction types as [|d types IH]; intros c T F I; cbn [first_type].
  - split; [exact I|]. split; [exact F|]. split; [left; reflexivity|lia].
  - destruct (Z.leb_spec (d_bits d) (d_bits (fst c))) as [L|L]; cbn [andb].
    + destruct (list_eq_dec Z.eq_dec (snd (astype d c)) (snd c)) as [E|E].
      * cbn in E. assert (Td : is_type d) by (apply T; left; reflexivity).
        apply map_wrap_id in E; [|exact Td]. split; [exact Td|]. split; [exact E|]. split; [right; left; reflexivity|exact L].
      * destruct (IH c (fun e X => T e (or_intror X)) F I) as [A [B [C D]]]. split; [exact A|]. split; [exact B|]. split; [|exact D]. destruct C as [C|C]; [left; exact C|]. right. right. exact C.
    + destruct (IH c (fun e X => T e (or_intror X)) F I) as [A [B [C D]]]. split; [exact A|]. split; [exact B|]. split; [|exact D]. destruct C as [C|C]; [left; exact C|]. right. right. exact C.
Qed.

Lemma types_are : forall signed d, In d (map (mkDtype signed) sizes) -> is_type d /\ d_signed d = signed.
Proof. intros signed d I. apply in_map_iff in I. destruct I as [b [<- I]]. split; [exact I|reflexivity]. Qed.

(** The first type in the list which is at most as large and holds all values. *)
Lemma first_type_first : forall types c d, StronglySorted (fun a b => d_bits a <= d_bits b) types ->
  In d types -> is_type d -> fits d (snd c) -> d_bits d <= d_bits (fst c) ->
  In (first_type types c) types /\ d_bits (first_type types c) <= d_bits d.
Proof.
  induction types as [|t types IH]; intros c d S I T F B; [destruct I|]. inversion S as [|? ? S1 S2]; subst. cbn [first_type].
  destruct ((d_bits t <=? d_bits (fst c)) && (if list_eq_dec Z.eq_dec (snd (astype t c)) (snd c) then true else false)) eqn:E.
  - split; [left; reflexivity|]. destruct I as [->|I]; [lia|]. rewrite Forall_forall in S2. apply S2. exact I.
  - destruct I as [->|I].
    + exfalso. apply andb_false_iff in E. destruct E as [E|E]; [apply Z.leb_gt in E; lia|].
      destruct (list_eq_dec Z.eq_dec _ _) as [_|N]; [discriminate|]. apply N. cbn. apply map_wrap_id; assumption.
    + destruct (IH c d S1 I T F B) as [A1 A2]. split; [right; exact A1|exact A2].
Qed.
Lemma sizes_sorted : forall signed, StronglySorted (fun a b => d_bits a <= d_bits b) (map (mkDtype signed) sizes).
Proof. intros signed. repeat constructor; cbn; lia. Qed.
Lemma type_in : forall d, is_type d -> In d (map (mkDtype (d_signed d)) sizes).
Proof. intros [s b] T. cbn in *. destruct T as [<-|[<-|[<-|[<-|[]]]]]; cbn; auto. Qed.

Lemma nonneg_iff : forall l, forallb (Z.leb 0) l = true <-> forall x, In x l -> 0 <= x.
Proof.
  intros l. rewrite forallb_forall. split; intros H x I; specialize (H x I).
  - apply Z.leb_le. exact H.
  - apply Z.leb_le. exact H.
Qed.

(** The unsigned type of the same size holds all values of a column without negative values. *)
Lemma unsigned_fits : forall c, is_type (fst c) -> fits (fst c) (snd c) -> (forall x, In x (snd c) -> 0 <= x) ->
  fits (mkDtype false (d_bits (fst c))) (snd c).
Proof.
  intros c T F N x I. specialize (F x I). specialize (N x I). pose proof (bits_pos _ T) as P. pose proof (range_size _ T) as S.
  unfold d_min, d_max in *. cbn [d_signed d_bits]. split; [exact N|]. destruct (d_signed (fst c)); [|lia].
  assert (X : 2 ^ (d_bits (fst c) - 1) <= 2 ^ d_bits (fst c)) by (apply Z.pow_le_mono_r; lia). lia.
Qed.

Theorem downcast_ok : forall c, is_type (fst c) -> fits (fst c) (snd c) ->
  let out := downcast c in
  snd out = snd c /\ is_type (fst out) /\ fits (fst out) (snd c) /\
  ((forall x, In x (snd c) -> 0 <= x) -> d_signed (fst out) = false /\
     forall d, is_type d -> d_signed d = false -> fits d (snd c) -> d_bits (fst out) <= d_bits d) /\
  ((exists x, In x (snd c) /\ x < 0) -> d_signed (fst out) = true /\
     forall d, is_type d -> d_signed d = true -> fits d (snd c) -> d_bits (fst out) <= d_bits d).
Proof.
  intros c T F. unfold downcast, to_numeric_type. cbn [orb].
  assert (AS : forall d, is_type d -> fits d (snd c) -> snd (astype d c) = snd c).
  { intros d Td Fd. cbn. apply map_wrap_id; assumption. }
  destruct (forallb (Z.leb 0) (snd c)) eqn:NN.
  - pose proof (proj1 (nonneg_iff _) NN) as N. pose proof (unsigned_fits c T F N) as UF.
    set (u := first_type (map (mkDtype false) sizes) c).
    destruct (first_type_spec (map (mkDtype false) sizes) c (fun d I => proj1 (types_are false d I)) F T) as [Tu [Fu _]]. fold u in Tu, Fu.
    assert (FI : forall d, is_type d -> d_signed d = false -> fits d (snd c) -> d_bits d <= d_bits (fst c) ->
                 In u (map (mkDtype false) sizes) /\ d_bits u <= d_bits d).
    { intros d Td Sd Fd Bd. apply first_type_first; auto; [apply sizes_sorted|]. rewrite <- Sd. apply type_in. exact Td. }
    destruct (FI (mkDtype false (d_bits (fst c))) T eq_refl UF ltac:(cbn; lia)) as [Iu Bu]. cbn [d_bits] in Bu.
    destruct (types_are false u Iu) as [_ Su]. rewrite Su. cbn [negb]. split; [apply AS; assumption|]. cbn [fst astype].
    split; [exact Tu|]. split; [exact Fu|]. split.
    + intros _. split; [exact Su|]. intros d Td Sd Fd. destruct (Z.le_gt_cases (d_bits d) (d_bits (fst c))) as [B|B]; [|lia].
      apply (FI d Td Sd Fd B).
    + intros [x [I X]]. specialize (N x I). lia.
  - assert (NEG : ~ forall x, In x (snd c) -> 0 <= x) by (intros H; apply nonneg_iff in H; congruence).
    assert (SC : d_signed (fst c) = true).
    { destruct (d_signed (fst c)) eqn:E; [reflexivity|]. exfalso. apply NEG. intros x I. specialize (F x I). unfold d_min in F. rewrite E in F. lia. }
    rewrite SC. cbn [negb]. rewrite Z.ltb_irrefl.
    set (s := first_type (map (mkDtype true) sizes) c).
    destruct (first_type_spec (map (mkDtype true) sizes) c (fun d I => proj1 (types_are true d I)) F T) as [Ts [Fs _]]. fold s in Ts, Fs.
    assert (FI : forall d, is_type d -> d_signed d = true -> fits d (snd c) -> d_bits d <= d_bits (fst c) ->
                 In s (map (mkDtype true) sizes) /\ d_bits s <= d_bits d).
    { intros d Td Sd Fd Bd. apply first_type_first; auto; [apply sizes_sorted|]. rewrite <- Sd. apply type_in. exact Td. }
    destruct (FI (fst c) T SC F ltac:(lia)) as [Is Bs]. destruct (types_are true s Is) as [_ Ss]. rewrite Ss. cbn [negb].
    assert (SM : let d := if d_bits s <? d_bits (fst c) then s else fst c in
                 is_type d /\ fits d (snd c) /\ d_signed d = true /\ d_bits d = d_bits s).
    { destruct (Z.ltb_spec (d_bits s) (d_bits (fst c))).
      - split; [exact Ts|]. split; [exact Fs|]. split; [exact Ss|reflexivity].
      - split; [exact T|]. split; [exact F|]. split; [exact SC|lia]. }
    cbv zeta in SM. destruct SM as [Td [Fd [Sd Bd]]]. split; [apply AS; assumption|]. cbn [fst astype].
    split; [exact Td|]. split; [exact Fd|]. split; [intros H; contradiction|]. intros _. split; [exact Sd|].
    intros d Td' Sd' Fd'. rewrite Bd. destruct (Z.le_gt_cases (d_bits d) (d_bits (fst c))) as [B|B]; [|lia].
    apply (FI d Td' Sd' Fd' B).
Qed.
