(** Lemmas about strings. *)
From Coq Require Import List Arith Bool Lia String Ascii.
From Verif Require Import Model_Strings.
Import ListNotations.
Open Scope string_scope.

Lemma append_nil_r : forall s, s ++ "" = s.
Proof. induction s as [|c s IH]; cbn; [reflexivity | rewrite IH; reflexivity]. Qed.

Lemma append_assoc_s : forall a b c : string, (a ++ b) ++ c = a ++ (b ++ c).
Proof. induction a as [|x a IH]; intros; cbn; [reflexivity | rewrite IH; reflexivity]. Qed.

Lemma append_inj_l : forall a b c : string, a ++ b = a ++ c -> b = c.
Proof. induction a as [|x a IH]; intros b c H; cbn in H; [exact H | inversion H; auto]. Qed.

Lemma length_append : forall a b, String.length (a ++ b) = String.length a + String.length b.
Proof. induction a as [|x a IH]; intros; cbn; [reflexivity | rewrite IH; reflexivity]. Qed.

Lemma append_inj_r : forall a b c : string, a ++ c = b ++ c -> a = b.
Proof.
  induction a as [|x a IH]; intros [|y b] c H; cbn in H.
  - reflexivity.
  - exfalso. pose proof (f_equal String.length H) as L. cbn in L. rewrite length_append in L. lia.
  - exfalso. pose proof (f_equal String.length H) as L. cbn in L. rewrite length_append in L. lia.
  - inversion H; subst. f_equal. eapply IH; eauto.
Qed.

Lemma prefix_iff : forall p s, prefix p s = true <-> exists r, s = p ++ r.
Proof.
  induction p as [|x p IH]; intros s.
  - split; [intros _; exists s; reflexivity | intros _; destruct s; reflexivity].
  - destruct s as [|y s]; [split; [discriminate | intros [r H]; discriminate]|].
    change (prefix (String x p) (String y s)) with (if ascii_dec x y then prefix p s else false).
    destruct (ascii_dec x y) as [->|N].
    + rewrite IH. split; intros [r H]; exists r; [rewrite H; reflexivity | inversion H; reflexivity].
    + split; [discriminate | intros [r H]; inversion H; congruence].
Qed.

Lemma contains_iff : forall p s, contains p s = true <-> exists a b, s = a ++ p ++ b.
Proof.
  intros p; induction s as [|c s IH]; cbn [contains]; rewrite orb_true_iff, prefix_iff.
  - split.
    + intros [[r H]|H]; [exists "", r; exact H | discriminate].
    + intros [a [b H]]. left. destruct a; [exists b; exact H | discriminate].
  - rewrite IH. split.
    + intros [[r H]|[a [b H]]]; [exists "", r; exact H |].
      exists (String c a), b. rewrite H. reflexivity.
    + intros [[|x a] [b H]]; [left; exists b; exact H|].
      right. inversion H; subst. exists a, b. reflexivity.
Qed.

Lemma endswith_iff : forall p s, endswith p s = true <-> exists a, s = a ++ p.
Proof.
  intros p; induction s as [|c s IH]; cbn [endswith]; rewrite orb_true_iff, String.eqb_eq.
  - split.
    + intros [-> |H]; [exists ""; reflexivity | discriminate].
    + intros [a H]. left. destruct a; [symmetry; exact H | discriminate].
  - rewrite IH. split.
    + intros [-> |[a H]]; [exists ""; reflexivity|]. exists (String c a). rewrite H. reflexivity.
    + intros [[|x a] H]; [left; symmetry; exact H|]. right. inversion H; subst. exists a. reflexivity.
Qed.

(** Characters of a string. *)
Fixpoint has_char (c : ascii) (s : string) : bool :=
  match s with EmptyString => false | String d r => Ascii.eqb c d || has_char c r end.

Lemma has_char_append : forall c a b, has_char c (a ++ b) = has_char c a || has_char c b.
Proof.
  induction a as [|x a IH]; intros b; cbn; [reflexivity|]. rewrite IH, orb_assoc. reflexivity.
Qed.

(** The part before the first [c] is determined. *)
Lemma split_at_char : forall c a a' b b',
  has_char c a = false -> has_char c a' = false ->
  a ++ String c b = a' ++ String c b' -> a = a' /\ b = b'.
Proof.
  induction a as [|x a IH]; intros a' b b' Ha Ha' E; destruct a' as [|y a']; cbn in *.
  - inversion E; auto.
  - inversion E; subst. rewrite Ascii.eqb_refl in Ha'. discriminate.
  - inversion E; subst. rewrite Ascii.eqb_refl in Ha. discriminate.
  - apply orb_false_iff in Ha, Ha'. inversion E; subst.
    destruct (IH a' b b') as [-> ->]; tauto.
Qed.
