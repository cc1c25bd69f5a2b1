(** Proofs about the ways to pass parameters. *)
From Coq Require Import Strings.String List Arith Bool Lia.
From Verif Require Import Base Model_ReadParams Spec_ReadParams.
Import ListNotations.
Local Open Scope string_scope.

Lemma levels_eqb_eq : forall a b, levels_eqb a b = true <-> a = b.
Proof.
  induction a as [|x a IH]; intros [|y b]; cbn; split; try discriminate; try reflexivity; intros H.
  - apply andb_true_iff in H. destruct H as [H1 H2]. apply IH in H2. subst b. f_equal.
    destruct x, y; cbn in H1; try discriminate; [apply String.eqb_eq in H1; subst; reflexivity|reflexivity].
  - injection H as -> ->. apply andb_true_iff. split; [|apply IH; reflexivity]. destruct y; cbn; [apply String.eqb_refl|reflexivity].
Qed.

Lemma position_some : forall cs n i, column_position cs n = Some i -> nth_error cs i = Some n.
Proof.
  induction cs as [|c cs IH]; intros n i H; cbn in H; [discriminate|].
  destruct (String.eqb c n) eqn:E; [injection H as <-; apply String.eqb_eq in E; subst; reflexivity|].
  destruct (column_position cs n) as [j|] eqn:Ej; [|discriminate]. injection H as <-. cbn. apply IH. exact Ej.
Qed.
Lemma position_in : forall cs n, In n cs -> exists i, column_position cs n = Some i.
Proof.
  induction cs as [|c cs IH]; intros n H; [destruct H|]. cbn. destruct (String.eqb c n) eqn:E; [eauto|].
  destruct H as [->|H]; [rewrite String.eqb_refl in E; discriminate|]. destruct (IH n H) as [i Ei]. rewrite Ei. cbn. eauto.
Qed.
Lemma position_none : forall cs n, ~ In n cs -> column_position cs n = None.
Proof.
  intros cs n H. destruct (column_position cs n) as [i|] eqn:E; [|reflexivity]. apply position_some in E. apply nth_error_In in E. contradiction.
Qed.

Lemma entry_position : forall V cs (cells : list V) n v i, NoDup cs -> length cells = length cs -> column_position cs n = Some i ->
  (entry cs cells n v <-> nth_error cells i = Some v).
Proof.
  intros V. unfold entry. induction cs as [|c cs IH]; intros [|x cells] n v i N L E; cbn in *; try discriminate.
  apply NoDup_cons_iff in N. destruct N as [N1 N2]. injection L as L.
  destruct (String.eqb c n) eqn:En.
  - apply String.eqb_eq in En. subst n. injection E as <-. cbn. split.
    + intros [H|H]; [injection H as ->; reflexivity|]. apply in_combine_l in H. contradiction.
    + intros H. injection H as ->. left. reflexivity.
  - destruct (column_position cs n) as [j|] eqn:Ej; [|discriminate]. injection E as <-. cbn. rewrite <- (IH cells n v j N2 L Ej). split.
    + intros [H|H]; [injection H as -> ->; rewrite String.eqb_refl in En; discriminate|exact H].
    + right. exact H.
Qed.

Lemma remove_at_length : forall A i (l : list A), i < length l -> length (remove_at i l) = length l - 1.
Proof.
  intros A. induction i as [|i IH]; intros [|x l] H; cbn in *; try lia. rewrite IH by lia. lia.
Qed.
Lemma in_remove_at : forall A i (l : list A) x, In x (remove_at i l) -> In x l.
Proof.
  intros A. induction i as [|i IH]; intros [|y l] x H; cbn in *; auto. destruct H as [H|H]; auto.
Qed.
Lemma in_remove_other : forall A i (l : list A) x y, nth_error l i = Some y -> x <> y -> In x l -> In x (remove_at i l).
Proof.
  intros A. induction i as [|i IH]; intros [|z l] x y E N H; cbn in *; try contradiction.
  - injection E as ->. destruct H as [H|H]; [congruence|exact H].
  - destruct H as [H|H]; [left; exact H|right; eapply IH; eauto].
Qed.
Lemma remove_at_nodup : forall A i (l : list A), NoDup l -> NoDup (remove_at i l).
Proof.
  intros A. induction i as [|i IH]; intros [|x l] N; cbn; auto; apply NoDup_cons_iff in N; destruct N as [N1 N2]; [exact N2|].
  constructor; [|auto]. intros H. apply N1. eapply in_remove_at. exact H.
Qed.
Lemma combine_remove_at : forall A B i (l : list A) (m : list B), combine (remove_at i l) (remove_at i m) = remove_at i (combine l m).
Proof.
  intros A B. induction i as [|i IH]; intros [|x l] [|y m]; cbn; try reflexivity;
    first [f_equal; apply IH|destruct l; reflexivity|destruct (remove_at i l); reflexivity].
Qed.
Lemma nth_error_combine : forall A B (l : list A) (m : list B) i x, length m = length l -> nth_error l i = Some x -> exists y, nth_error (combine l m) i = Some (x, y).
Proof.
  intros A B. induction l as [|a l IH]; intros [|b m] [|i] x L E; cbn in *; try discriminate.
  - injection E as ->. eauto.
  - injection L as L. apply (IH m i x L E).
Qed.
Lemma entry_remove : forall V cs (cells : list V) n v i n', length cells = length cs -> nth_error cs i = Some n' -> n <> n' ->
  entry cs cells n v -> entry (remove_at i cs) (remove_at i cells) n v.
Proof.
  intros V cs cells n v i n' L E N H. unfold entry in *. rewrite combine_remove_at.
  destruct (nth_error_combine _ _ cs cells i n' L E) as [y Ey]. eapply in_remove_other; [exact Ey| |exact H]. congruence.
Qed.

Lemma option_all_forall2 : forall A B (f : A -> option B) l ys, Forall2 (fun x y => f x = Some y) l ys -> option_all (map f l) = Some ys.
Proof.
  intros A B f l ys H. induction H as [|x y l ys E _ IH]; [reflexivity|]. cbn. rewrite E, IH. reflexivity.
Qed.

Lemma Forall2_impl_ : forall A B (P Q : A -> B -> Prop) l m, (forall x y, P x y -> Q x y) -> Forall2 P l m -> Forall2 Q l m.
Proof. intros A B P Q l m H F. induction F; constructor; auto. Qed.

(** Moving a column of known entries to the index. *)
Lemma move_column_spec : forall V name columns (rows : list (list V * list V)) i,
  NoDup columns -> (forall r, In r rows -> length (snd r) = length columns) -> column_position columns name = Some i ->
  exists vs, Forall2 (fun r v => entry columns (snd r) name v) rows vs /\
    move_column name columns rows =
      Some (remove_at i columns, map (fun rv => ((fst (fst rv) ++ [snd rv])%list, remove_at i (snd (fst rv)))) (combine rows vs)).
Proof.
  intros V name columns rows i N L E. unfold move_column. rewrite E.
  assert (G : exists vs, Forall2 (fun r v => entry columns (snd r) name v) rows vs).
  { induction rows as [|r rows IH]; [exists []; constructor|].
    destruct IH as [vs H]; [intros r' Hr; apply L; right; exact Hr|].
    assert (Lr := L r (or_introl eq_refl)). pose proof (position_some _ _ _ E) as P.
    assert (Hi : i < length (snd r)) by (rewrite Lr; apply nth_error_Some; rewrite P; discriminate).
    apply nth_error_Some in Hi. destruct (nth_error (snd r) i) as [v|] eqn:Ev; [|contradiction].
    exists (v :: vs). constructor; [|exact H]. apply (entry_position V columns (snd r) name v i N Lr E). exact Ev. }
  destruct G as [vs H]. exists vs. split; [exact H|].
  rewrite (option_all_forall2 _ _ _ rows (map (fun rv => ((fst (fst rv) ++ [snd rv])%list, remove_at i (snd (fst rv)))) (combine rows vs))); [reflexivity|].
  induction H as [|r v rows vs Hv H IH]; cbn; constructor.
  - rewrite (proj1 (entry_position V columns (snd r) name v i N (L r (or_introl eq_refl)) E) Hv). reflexivity.
  - apply IH. intros r' Hr. apply L. right. exact Hr.
Qed.

Lemma get_column_spec : forall V (df : table V) name ps, NoDup (t_columns df) -> (forall r, In r (t_rows df) -> length (snd r) = length (t_columns df)) ->
  In name (t_columns df) ->
  Forall2 (fun r (p : list V * V) => fst r = fst p /\ entry (t_columns df) (snd r) name (snd p)) (t_rows df) ps ->
  get_column df name = Some (mkSeries (t_levels df) ps).
Proof.
  intros V df name ps N L I H. unfold get_column. destruct (position_in _ _ I) as [i E]. rewrite E.
  rewrite (option_all_forall2 _ _ _ (t_rows df) ps); [reflexivity|].
  induction H as [|r p rows ps [H1 H2] H IH]; constructor.
  - rewrite (proj1 (entry_position V (t_columns df) (snd r) name (snd p) i N (L r (or_introl eq_refl)) E) H2). cbn. rewrite H1. destruct p; reflexivity.
  - apply IH. intros r' Hr. apply L. right. exact Hr.
Qed.

Lemma entry_unique : forall V cs (cells : list V) n v w, NoDup cs -> length cells = length cs -> entry cs cells n v -> entry cs cells n w -> v = w.
Proof.
  intros V cs cells n v w N L H1 H2. assert (I : In n cs) by (eapply in_combine_l; exact H1).
  destruct (position_in _ _ I) as [i E]. apply (entry_position V cs cells n v i N L E) in H1. apply (entry_position V cs cells n w i N L E) in H2. congruence.
Qed.

(** ** Frames *)
Lemma read_frame_spec : forall V (df : table V), proper_table df -> has_columns df ->
  exists ps, has_parameters df ps /\ read_frame df = Returns (parameters ps).
Proof.
  intros V df [N L] [Iv Hi]. unfold read_frame, has_parameters.
  destruct (levels_eqb (t_levels df) param_levels) eqn:E.
  - apply levels_eqb_eq in E. destruct (position_in _ _ Iv) as [i Ei].
    assert (G : exists ps : list ((V * V) * V), Forall2 (fun r p => fst r = [fst (fst p); snd (fst p)] /\ entry (t_columns df) (snd r) "value" (snd p)) (t_rows df) ps).
    { revert L. induction (t_rows df) as [|r rows IH]; intros L; [exists []; constructor|].
      destruct IH as [ps H]; [intros r' Hr; apply L; right; exact Hr|].
      destruct (L r (or_introl eq_refl)) as [L1 L2]. rewrite E in L1. cbn in L1.
      destruct (fst r) as [|a [|b [|? ?]]] eqn:Er; try discriminate.
      assert (Hlt : i < length (snd r)) by (rewrite L2; apply nth_error_Some; rewrite (position_some _ _ _ Ei); discriminate).
      apply nth_error_Some in Hlt. destruct (nth_error (snd r) i) as [v|] eqn:Ev; [|contradiction].
      exists (((a, b), v) :: ps). constructor; [|exact H]. cbn [fst snd]. split; [exact Er|].
      apply (entry_position V _ (snd r) "value" v i N L2 Ei). exact Ev. }
    destruct G as [ps H]. exists ps. split.
    + eapply Forall2_impl_; [|exact H]. intros r p [H1 H2]. split; [exact H2|]. split; [intros _; exact H1|]. intros X. contradiction.
    + rewrite (get_column_spec V df "value" (map (fun p => ([fst (fst p); snd (fst p)], snd p)) ps) N (fun r Hr => proj2 (L r Hr)) Iv).
      * unfold parameters. rewrite E. reflexivity.
      * clear L. induction H as [|r p rows ps H1 H IH]; cbn; constructor; [exact H1|exact IH].
  - assert (NE : t_levels df <> [Some "category"; Some "name"]) by (intros X; rewrite X in E; discriminate).
    destruct Hi as [Hi|[Ic In_]]; [contradiction|].
    destruct (position_in _ _ Ic) as [i Ei].
    set (rows0 := map (fun r : list V * list V => (@nil V, snd r)) (t_rows df)).
    assert (L0 : forall r, In r rows0 -> length (snd r) = length (t_columns df)).
    { intros r Hr. unfold rows0 in Hr. apply in_map_iff in Hr. destruct Hr as [r' [<- Hr]]. cbn. apply (L r' Hr). }
    destruct (move_column_spec V "category" (t_columns df) rows0 i N L0 Ei) as [cs [Hc Mc]].
    unfold set_index. fold rows0. rewrite Mc.
    set (columns1 := remove_at i (t_columns df)).
    set (rows1 := map _ (combine rows0 cs)).
    assert (N1 : NoDup columns1) by (apply remove_at_nodup; exact N).
    assert (Pi := position_some _ _ _ Ei). assert (Bi : i < length (t_columns df)) by (apply nth_error_Some; rewrite Pi; discriminate).
    assert (L1 : forall r, In r rows1 -> length (snd r) = length columns1).
    { intros r Hr. unfold rows1 in Hr. apply in_map_iff in Hr. destruct Hr as [[r' v] [<- Hr]]. cbn [fst snd]. apply in_combine_l in Hr.
      unfold columns1. rewrite !remove_at_length; rewrite ?(L0 _ Hr); auto. }
    assert (In1 : In "name" columns1) by (unfold columns1; eapply in_remove_other; [exact Pi|discriminate|exact In_]).
    assert (Iv1 : In "value" columns1) by (unfold columns1; eapply in_remove_other; [exact Pi|discriminate|exact Iv]).
    destruct (position_in _ _ In1) as [j Ej].
    destruct (move_column_spec V "name" columns1 rows1 j N1 L1 Ej) as [ns [Hn Mn]]. rewrite Mn.
    set (columns2 := remove_at j columns1). set (rows2 := map _ (combine rows1 ns)).
    assert (N2 : NoDup columns2) by (apply remove_at_nodup; exact N1).
    assert (Pj := position_some _ _ _ Ej). assert (Bj : j < length columns1) by (apply nth_error_Some; rewrite Pj; discriminate).
    assert (L2 : forall r, In r rows2 -> length (snd r) = length columns2).
    { intros r Hr. unfold rows2 in Hr. apply in_map_iff in Hr. destruct Hr as [[r' v] [<- Hr]]. cbn [fst snd]. apply in_combine_l in Hr.
      unfold columns2. rewrite !remove_at_length; rewrite ?(L1 _ Hr); auto. }
    assert (Iv2 : In "value" columns2) by (unfold columns2; eapply in_remove_other; [exact Pj|discriminate|exact Iv1]).
    destruct (position_in _ _ Iv) as [k Ek].
    assert (G : exists ps : list ((V * V) * V),
       Forall2 (fun r p => entry (t_columns df) (snd r) "value" (snd p) /\ entry (t_columns df) (snd r) "category" (fst (fst p)) /\
                           entry (t_columns df) (snd r) "name" (snd (fst p))) (t_rows df) ps /\
       Forall2 (fun r p => fst r = [fst (fst p); snd (fst p)] /\ entry columns2 (snd r) "value" (snd p)) rows2 ps).
    { clear L1 L2 Mc Mn. unfold rows2, rows1, rows0 in *. clear rows2 rows1 rows0. revert cs ns L0 Hc Hn L. induction (t_rows df) as [|r rows IH]; intros cs ns L0 Hc Hn L.
      - exists []. cbn in *. inversion Hc; subst. cbn in *. inversion Hn; subst. split; constructor.
      - cbn [map] in *. inversion Hc as [|? c ? cs' Hc1 Hc2]; subst. cbn [combine map] in Hn. inversion Hn as [|? m ? ns' Hn1 Hn2]; subst.
        cbn [fst snd app] in *. cbn [combine map fst snd app].
        destruct (IH cs' ns') as [ps [H1 H2]]; [intros r' Hr; apply L0; right; exact Hr|exact Hc2|exact Hn2|intros r' Hr; apply L; right; exact Hr|].
        destruct (L r (or_introl eq_refl)) as [_ Lr].
        assert (Hlt : k < length (snd r)) by (rewrite Lr; apply nth_error_Some; rewrite (position_some _ _ _ Ek); discriminate).
        apply nth_error_Some in Hlt. destruct (nth_error (snd r) k) as [v|] eqn:Ev; [|contradiction].
        apply (entry_position V _ (snd r) "value" v k N Lr Ek) in Ev.
        assert (Lr1 : length (remove_at i (snd r)) = length columns1) by (unfold columns1; rewrite !remove_at_length; lia).
        exists (((c, m), v) :: ps). split; constructor; cbn [fst snd]; auto.
        + split; [exact Ev|]. split; [exact Hc1|].
          (* the name was found among the remaining columns *)
          unfold entry in *. unfold columns1 in Hn1. rewrite combine_remove_at in Hn1. eapply in_remove_at. exact Hn1.
        + split; [reflexivity|]. unfold columns2. eapply entry_remove; [exact Lr1|exact Pj|discriminate|].
          unfold columns1. eapply entry_remove; [exact Lr|exact Pi|discriminate|exact Ev]. }
    destruct G as [ps [H1 H2]]. exists ps. split.
    + eapply Forall2_impl_; [|exact H1]. intros r p (A & B & C). split; [exact A|]. split; [intros X; contradiction|]. intros _. split; assumption.
    + rewrite (get_column_spec V (mkTable [Some "category"; Some "name"] columns2 rows2) "value" (map (fun p => ([fst (fst p); snd (fst p)], snd p)) ps)); cbn [t_columns t_rows t_levels]; auto.
      clear -H2. induction H2 as [|r p rows ps H1 H IH]; cbn; constructor; [exact H1|exact IH].
Qed.

Lemma has_parameters_unique : forall V (df : table V) ps ps', proper_table df -> has_parameters df ps -> has_parameters df ps' -> ps = ps'.
Proof.
  intros V df ps ps' [N L] H. unfold has_parameters in *. revert ps' L. induction H as [|r p rows ps (A & B & C) H IH]; intros ps' L H'; inversion H' as [|? p' ? ps'' (A' & B' & C') H'']; subst; [reflexivity|].
  f_equal; [|apply IH; [intros r' Hr; apply L; right; exact Hr|exact H'']].
  destruct (L r (or_introl eq_refl)) as [_ Lr]. destruct p as [[a b] v], p' as [[a' b'] v']. cbn [fst snd] in *.
  assert (v = v') by (eapply entry_unique; eauto). subst v'.
  destruct (levels_eqb (t_levels df) param_levels) eqn:E.
  - apply levels_eqb_eq in E. specialize (B E). specialize (B' E). rewrite B in B'. injection B' as -> ->. reflexivity.
  - assert (NE : t_levels df <> [Some "category"; Some "name"]) by (intros X; rewrite X in E; discriminate).
    destruct (C NE) as [C1 C2], (C' NE) as [C1' C2'].
    assert (a = a') by (eapply entry_unique; eauto). assert (b = b') by (eapply entry_unique; eauto). subst. reflexivity.
Qed.

Lemma move_column_columns : forall V name columns (rows : list (list V * list V)) columns' rows',
  move_column name columns rows = Some (columns', rows') -> In name columns /\ forall n, In n columns' -> In n columns.
Proof.
  intros V name columns rows columns' rows' H. unfold move_column in H. destruct (column_position columns name) as [i|] eqn:E; [|discriminate].
  destruct (option_all _); [|discriminate]. injection H as <- _. split; [eapply nth_error_In, position_some, E|]. intros n. apply in_remove_at.
Qed.

Lemma read_frame_missing : forall V (df : table V), ~ has_columns df -> read_frame df = RaisesKeyError.
Proof.
  intros V df H. unfold read_frame. destruct (levels_eqb (t_levels df) param_levels) eqn:E.
  - apply levels_eqb_eq in E. unfold get_column. rewrite position_none; [reflexivity|]. intros I. apply H. split; [exact I|left; exact E].
  - destruct (set_index df "category" "name") as [df'|] eqn:Es; [|reflexivity]. unfold set_index in Es.
    destruct (move_column "category" _ _) as [[c1 r1]|] eqn:M1; [|discriminate]. destruct (move_column "name" c1 r1) as [[c2 r2]|] eqn:M2; [|discriminate].
    injection Es as <-. apply move_column_columns in M1. apply move_column_columns in M2. destruct M1 as [I1 S1], M2 as [I2 S2].
    unfold get_column. cbn [t_columns]. rewrite position_none; [reflexivity|]. intros I. apply H. split; [auto|]. right. auto.
Qed.

Lemma read_frame_parameters : forall V (df : table V) ps, proper_table df -> has_columns df -> has_parameters df ps -> read_frame df = Returns (parameters ps).
Proof.
  intros V df ps P C H. destruct (read_frame_spec V df P C) as [ps' [H' E]]. rewrite (has_parameters_unique V df ps ps' P H H'). exact E.
Qed.

Lemma read_csv_proper : forall V (number : nat -> V) header lines, NoDup header -> (forall l, In l lines -> length l = length header) ->
  proper_table (read_csv number header lines).
Proof.
  intros V number header lines N L. split; [exact N|]. cbn [read_csv t_rows t_levels t_columns]. intros r Hr. apply in_map_iff in Hr.
  destruct Hr as [[k l] [<- Hr]]. cbn [fst snd length]. split; [reflexivity|]. apply L.
  assert (G : forall (m : list (list V)) k0, In (k, l) (enumerate_from k0 m) -> In l m).
  { induction m as [|a m IH]; intros k0 H; cbn in *; [exact H|]. destruct H as [H|H]; [injection H as _ ->; left; reflexivity|right; eapply IH; exact H]. }
  eapply G. exact Hr.
Qed.

Lemma formats_agree : forall V (number : nat -> V) header lines df df' ps,
  NoDup header -> (forall l, In l lines -> length l = length header) ->
  proper_table df -> proper_table df' ->
  has_columns (read_csv number header lines) -> has_columns df -> has_columns df' ->
  has_parameters (read_csv number header lines) ps -> has_parameters df ps -> has_parameters df' ps ->
  read_params number (GivenPath header lines) = Returns (parameters ps) /\
  read_params number (GivenFrame df) = Returns (parameters ps) /\
  read_params number (GivenFrame df') = Returns (parameters ps) /\
  read_params number (GivenSeries (parameters ps)) = Returns (parameters ps).
Proof.
  intros V number header lines df df' ps N L P P' C0 C C' H0 H H'. cbn [read_params].
  split; [apply read_frame_parameters; auto; apply read_csv_proper; auto|].
  split; [apply read_frame_parameters; auto|]. split; [apply read_frame_parameters; auto|]. reflexivity.
Qed.

Lemma frames_read : forall V (number : nat -> V) df, proper_table df ->
  (has_columns df -> exists ps, has_parameters df ps /\ (forall ps', has_parameters df ps' -> ps' = ps) /\
     read_params number (GivenFrame df) = Returns (parameters ps)) /\
  (~ has_columns df -> read_params number (GivenFrame df) = RaisesKeyError).
Proof.
  intros V number df P. split; intros C; cbn [read_params].
  - destruct (read_frame_spec V df P C) as [ps [H E]]. exists ps. split; [exact H|]. split; [|exact E].
    intros ps' H'. apply (has_parameters_unique V df ps' ps P H' H).
  - apply read_frame_missing. exact C.
Qed.

Lemma files_read : forall V (number : nat -> V) header lines, NoDup header -> (forall l, In l lines -> length l = length header) ->
  (In "category" header /\ In "name" header /\ In "value" header ->
     exists ps, Forall2 (fun l p => entry header l "category" (fst (fst p)) /\ entry header l "name" (snd (fst p)) /\ entry header l "value" (snd p)) lines ps /\
       read_params number (GivenPath header lines) = Returns (parameters ps)) /\
  (~ (In "category" header /\ In "name" header /\ In "value" header) -> read_params number (GivenPath header lines) = RaisesKeyError).
Proof.
  intros V number header lines N L. assert (P := read_csv_proper V number header lines N L). split; intros C; cbn [read_params].
  - destruct C as (C1 & C2 & C3). destruct (read_frame_spec V _ P) as [ps [H E]]; [split; [exact C3|right; split; assumption]|].
    exists ps. split; [|exact E]. unfold has_parameters in H. cbn [read_csv t_levels t_columns t_rows] in H. clear E P L N. unfold enumerate in H. revert ps H.
    generalize 0 as k. induction lines as [|l lines IH]; intros k ps H; cbn in H; inversion H as [|? p ? ps' (A & _ & B) H']; subst; constructor.
    + cbn [fst snd] in *. destruct B as [B1 B2]; [discriminate|]. auto.
    + eapply IH. exact H'.
  - apply read_frame_missing. intros [I [X|[X1 X2]]]; [discriminate|]. apply C. auto.
Qed.

Lemma other_inputs : forall V (number : nat -> V),
  (forall s, s_levels s <> [Some "category"; Some "name"] -> read_params number (GivenSeries s) = RaisesAssertionError) /\
  (forall s, s_levels s = [Some "category"; Some "name"] -> read_params number (GivenSeries s) = Returns s) /\
  read_params number (GivenOther true) = RaisesTypeError /\ read_params number (GivenOther false) = RaisesAttributeError.
Proof.
  intros V number. split; [|split; [|split; reflexivity]]; intros s H; cbn [read_params].
  - destruct (levels_eqb _ _) eqn:E; [|reflexivity]. apply levels_eqb_eq in E. contradiction.
  - rewrite H. reflexivity.
Qed.
