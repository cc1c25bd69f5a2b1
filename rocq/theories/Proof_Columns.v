(** Lemmas about names of columns. *)
From Coq Require Import List Arith Bool Lia String Ascii Wf_nat.
From Verif Require Import Base Proof_Base Model_Strings Proof_Strings Model_Choices Spec_Choices Proof_Regex Proof_Choices Proof_Labels.
Import ListNotations.
Open Scope string_scope.

Lemma prefix_exp_iff : forall s, prefix "exp" s = true <-> exists r, s = "exp" ++ r.
Proof. intros s. apply prefix_iff. Qed.

Lemma length_title_from : forall s w, String.length (title_from w s) = String.length s.
Proof. induction s as [|c s IH]; intros w; cbn; [reflexivity | rewrite IH; reflexivity]. Qed.
Lemma length_lower : forall s, String.length (lower s) = String.length s.
Proof. induction s as [|c s IH]; cbn; [reflexivity | rewrite IH; reflexivity]. Qed.

(** Induction over a name: it is empty, begins with "exp", or begins with something else. *)
Lemma exp_ind : forall P : string -> Prop,
  P "" -> (forall b, P b -> P ("exp" ++ b)) ->
  (forall c r, prefix "exp" (String c r) = false -> P r -> P (String c r)) ->
  forall s, P s.
Proof.
  intros P P0 P1 P2 s. remember (String.length s) as n eqn:E. revert s E.
  induction n as [n IH] using lt_wf_ind. intros s E. destruct s as [|c r]; [exact P0|].
  destruct (prefix "exp" (String c r)) eqn:X.
  - pose proof X as X'. apply prefix_exp_iff in X'. destruct X' as [b B]. rewrite B. apply P1.
    apply (IH (String.length b)); [|reflexivity]. rewrite E, B, length_append. cbn [String.length]. lia.
  - apply P2; [exact X|]. apply (IH (String.length r)); [|reflexivity]. rewrite E. cbn [String.length]. lia.
Qed.

Definition to_data (w : bool) (x : string) : string := title_from w (replace "exp" "Experience" x).

Lemma to_data_exp : forall w b, to_data w ("exp" ++ b) =
  (if w then "experience" else "Experience") ++ to_data true b.
Proof.
  intros w b. unfold to_data, replace.
  rewrite (replace_hit "e"%char "xp" "Experience" b).
  destruct w; reflexivity.
Qed.

Lemma to_data_other : forall w c r, prefix "exp" (String c r) = false ->
  to_data w (String c r) = String (if w then to_lower c else to_upper c) (to_data (is_letter c) r).
Proof.
  intros w c r H. unfold to_data, replace. rewrite replace_miss by exact H. reflexivity.
Qed.

Definition from_data (y : string) : string := lower (replace "Experience" "exp" y).

Lemma lower_append : forall a b, lower (a ++ b) = lower a ++ lower b.
Proof. induction a as [|c a IH]; intros b; cbn; [reflexivity | rewrite IH; reflexivity]. Qed.

Lemma from_data_hit : forall r, from_data ("Experience" ++ r) = "exp" ++ from_data r.
Proof.
  intros r. unfold from_data, replace.
  rewrite (replace_hit "E"%char "xperience" "exp" r). rewrite lower_append. reflexivity.
Qed.
Lemma from_data_lower : forall r, from_data ("experience" ++ r) = "experience" ++ from_data r.
Proof.
  intros r. unfold from_data, replace.
  rewrite (replace_pass "E"%char "xperience" "exp" "experience" r eq_refl).
  rewrite lower_append. reflexivity.
Qed.
Lemma from_data_miss : forall c r, prefix "Experience" (String c r) = false ->
  from_data (String c r) = String (to_lower c) (from_data r).
Proof. intros c r H. unfold from_data, replace. rewrite replace_miss by exact H. reflexivity. Qed.

(** The names of the data begin with "Experience" only where the internal ones begin with "exp". *)
Ltac all_ascii c := destruct c as [[|] [|] [|] [|] [|] [|] [|] [|]]; vm_compute; try reflexivity; try congruence; try (intros; congruence).

Lemma lower_char : forall c x, is_upper c = false -> to_lower c = x -> c = x.
Proof. intros c x U E. unfold to_lower in E. rewrite U in E. exact E. Qed.

Lemma upper_E : forall c, to_upper c = "E"%char -> is_upper c = false -> c = "e"%char.
Proof. intros c. all_ascii c. Qed.
Lemma lower_not_E : forall c, to_lower c <> "E"%char.
Proof. intros c. all_ascii c. Qed.

Lemma to_lower_lower : forall c, is_upper c = false -> to_lower (to_lower c) = c.
Proof. intros c U. unfold to_lower. rewrite U, U. reflexivity. Qed.
Lemma to_lower_upper : forall c, is_upper c = false -> to_lower (to_upper c) = c.
Proof. intros c. all_ascii c. Qed.

Lemma to_data_head : forall x d y, to_data true x = String d y -> d <> "e"%char -> no_upper x ->
  exists r, x = String d r /\ y = to_data (is_letter d) r.
Proof.
  intros x d y E N U. destruct x as [|c r]; [discriminate|].
  destruct (prefix "exp" (String c r)) eqn:X.
  - apply prefix_exp_iff in X. destruct X as [b B]. rewrite B, to_data_exp in E.
    cbn [append] in E. inversion E. congruence.
  - rewrite to_data_other in E by exact X. inversion E as [[E1 E2]].
    unfold no_upper in U. cbn in U. apply andb_true_iff in U. destruct U as [U _].
    apply negb_true_iff in U.
    assert (K : to_lower c = c) by (unfold to_lower; rewrite U; reflexivity).
    exists r. rewrite K in *. subst. split; reflexivity.
Qed.

Lemma to_data_no_hit : forall (w : bool) c r, no_upper (String c r) -> prefix "exp" (String c r) = false ->
  prefix "Experience" (String (if w then to_lower c else to_upper c) (to_data (is_letter c) r)) = false.
Proof.
  intros w c r U X. destruct (prefix "Experience" _) eqn:P; [|reflexivity].
  apply prefix_iff in P. destruct P as [t P]. cbn [append] in P. inversion P as [[P1 P2]].
  destruct w; [exfalso; apply (lower_not_E c); exact P1|].
  pose proof U as U'. unfold no_upper in U. cbn in U. apply andb_true_iff in U. destruct U as [U1 U2].
  apply negb_true_iff in U1. apply upper_E in P1; [|exact U1]. subst c.
  change (is_letter "e"%char) with true in P2.
  apply to_data_head in P2; [|discriminate | exact U2]. destruct P2 as [r' [-> P2]].
  change (is_letter "x"%char) with true in P2. symmetry in P2.
  unfold no_upper in U2. cbn in U2.
  apply to_data_head in P2; [|discriminate | exact U2]. destruct P2 as [r2 [-> _]].
  change (prefix "exp" ("exp" ++ r2) = false) in X.
  assert (T : prefix "exp" ("exp" ++ r2) = true) by (apply prefix_exp_iff; eauto). congruence.
Qed.

(** The names grow. *)
Lemma round_trip_grows : forall x w, no_upper x -> String.length x <= String.length (from_data (to_data w x)).
Proof.
  intros x. induction x as [|b IH|c r X IH] using exp_ind; intros w U.
  - cbn. lia.
  - rewrite to_data_exp.
    assert (U' : no_upper b) by (unfold no_upper in *; rewrite all_chars_append in U; apply andb_true_iff in U; apply U).
    specialize (IH true U').
    destruct w; [rewrite from_data_lower | rewrite from_data_hit]; rewrite !length_append; cbn [String.length]; lia.
  - rewrite to_data_other by exact X. rewrite from_data_miss by (apply to_data_no_hit; assumption).
    cbn [String.length]. assert (U' : no_upper r) by (unfold no_upper in *; cbn in U; apply andb_true_iff in U; apply U).
    specialize (IH (is_letter c) U'). lia.
Qed.

Definition ok_from (w : bool) (s : string) : Prop :=
  forall a b, s = a ++ "exp" ++ b ->
    (a = "" /\ w = false) \/ exists a' x, a = a' ++ String x "" /\ is_letter x = false.

Lemma last_char : forall c a, exists a' x, String c a = a' ++ String x "".
Proof.
  intros c a. revert c. induction a as [|d a IH]; intros c.
  - exists "", c. reflexivity.
  - destruct (IH d) as [a' [x E]]. exists (String c a'), x. rewrite E. reflexivity.
Qed.

Lemma snoc_inj : forall a b x y, a ++ String x "" = b ++ String y "" -> a = b /\ x = y.
Proof.
  induction a as [|c a IH]; intros [|d b] x y E; cbn in E.
  - inversion E. auto.
  - inversion E; subst. destruct b; discriminate.
  - inversion E; subst. destruct a; discriminate.
  - inversion E; subst. apply IH in H1. destruct H1. subst. auto.
Qed.

Lemma ok_from_exp : forall b, ok_from false ("exp" ++ b) <-> ok_from true b.
Proof.
  intros b. split.
  - intros O a b' E. right. specialize (O ("exp" ++ a) b').
    destruct O as [[O _]|[a' [x [O X]]]].
    + rewrite E, append_assoc_s. reflexivity.
    + discriminate.
    + destruct a as [|c a].
      * cbn [append] in O. change "exp" with ("ex" ++ String "p" "") in O. apply snoc_inj in O.
        destruct O as [_ <-]. discriminate.
      * destruct (last_char c a) as [a2 [y Y]]. rewrite Y in *. rewrite <- append_assoc_s in O.
        apply snoc_inj in O. destruct O as [_ <-]. exists a2, y. auto.
  - intros O a b' E. destruct a as [|c1 a]; [left; auto|]. right.
    cbn [append] in E. inversion E as [[E1 E2]]. destruct a as [|c2 a]; [discriminate|].
    cbn [append] in E2. inversion E2 as [[E3 E4]]. destruct a as [|c3 a]; [discriminate|].
    cbn [append] in E4. inversion E4 as [[E5 E6]].
    destruct (O a b' E6) as [[_ F]|[a' [x [-> X]]]]; [discriminate|].
    exists ("exp" ++ a'), x. cbn. auto.
Qed.

Lemma ok_from_other : forall w c r, prefix "exp" (String c r) = false ->
  (ok_from w (String c r) <-> ok_from (is_letter c) r).
Proof.
  intros w c r X. split.
  - intros O a b E. subst r. destruct (O (String c a) b eq_refl) as [[F _]|[a' [x [F L]]]]; [discriminate|].
    destruct a as [|d a].
    + destruct a'; [|destruct a'; discriminate]. inversion F; subst. left. auto.
    + destruct (last_char d a) as [a2 [y Y]]. rewrite Y in *.
      change (String c (a2 ++ String y "")) with (String c a2 ++ String y "") in F.
      apply snoc_inj in F. destruct F as [_ <-]. right. eauto.
  - intros O a b E. destruct a as [|d a].
    + exfalso. cbn [append] in E. rewrite E in X.
      assert (T : prefix "exp" ("exp" ++ b) = true) by (apply prefix_exp_iff; eauto). cbn [append] in T. congruence.
    + right. cbn [append] in E. inversion E; subst.
      destruct (O a b eq_refl) as [[-> L]|[a' [x [-> L]]]].
      * exists "", d. auto.
      * exists (String d a'), x. auto.
Qed.

Lemma round_trip_from : forall x w, no_upper x -> (from_data (to_data w x) = x <-> ok_from w x).
Proof.
  intros x. induction x as [|b IH|c r X IH] using exp_ind; intros w U.
  - split; [|reflexivity]. intros _ a b E. destruct a; discriminate.
  - rewrite to_data_exp.
    assert (U' : no_upper b) by (unfold no_upper in *; rewrite all_chars_append in U; apply andb_true_iff in U; apply U).
    destruct w.
    + rewrite from_data_lower. split.
      * intros E. exfalso. pose proof (round_trip_grows b true U') as G.
        apply (f_equal String.length) in E. rewrite !length_append in E. cbn [String.length] in E. lia.
      * intros O. destruct (O "" b eq_refl) as [[_ F]|[a' [x [F _]]]]; [discriminate|].
        destruct a'; discriminate.
    + rewrite from_data_hit, ok_from_exp, <- (IH true U'). split.
      * apply append_inj_l.
      * intros ->. reflexivity.
  - assert (U' : no_upper r) by (unfold no_upper in *; cbn in U; apply andb_true_iff in U; apply U).
    assert (UC : is_upper c = false).
    { unfold no_upper in U; cbn in U; apply andb_true_iff in U; destruct U as [U _]. apply negb_true_iff in U. exact U. }
    rewrite to_data_other by exact X. rewrite from_data_miss by (apply to_data_no_hit; assumption).
    rewrite ok_from_other by exact X. rewrite <- (IH _ U').
    replace (to_lower (if w then to_lower c else to_upper c)) with c
      by (destruct w; [rewrite to_lower_lower | rewrite to_lower_upper]; auto).
    split; [intros E; inversion E as [E']; rewrite E'; exact E' | intros ->; reflexivity].
Qed.

Lemma columns_round_trip : forall x, no_upper x ->
  (rename_labels_to_internal (rename_labels_from_internal x) = x <-> exp_starts_words x).
Proof.
  intros x U. change (from_data (to_data false x) = x <-> exp_starts_words x).
  rewrite round_trip_from by exact U. unfold ok_from, exp_starts_words. split.
  - intros O a b E. destruct (O a b E) as [[H _]|H]; [left; exact H | right; exact H].
  - intros O a b E. destruct (O a b E) as [H|H]; [left; split; [exact H | reflexivity] | right; exact H].
Qed.

(** ** Observables in the output *)

Lemma replace_exp_id : forall x, contains "exp" x = false -> replace "exp" "Experience" x = x.
Proof.
  intros x. unfold replace. induction x as [|c x IH]; intros H; [reflexivity|].
  cbn [contains] in H. apply orb_false_iff in H. destruct H as [H1 H2].
  rewrite replace_miss by exact H1. rewrite IH by exact H2. reflexivity.
Qed.

Lemma replace_exp_grows : forall x, String.length x <= String.length (replace "exp" "Experience" x).
Proof.
  unfold replace. intros x. induction x as [|b IH|c r X IH] using exp_ind.
  - cbn. lia.
  - rewrite (replace_hit "e"%char "xp" "Experience" b). rewrite !length_append. cbn [String.length]. lia.
  - rewrite replace_miss by exact X. cbn [String.length]. lia.
Qed.

Lemma replace_exp_longer : forall x, contains "exp" x = true ->
  String.length x < String.length (replace "exp" "Experience" x).
Proof.
  unfold replace. intros x. induction x as [|b IH|c r X IH] using exp_ind; intros H.
  - discriminate.
  - rewrite (replace_hit "e"%char "xp" "Experience" b). rewrite !length_append.
    pose proof (replace_exp_grows b) as G. unfold replace in G. cbn [String.length]. lia.
  - rewrite replace_miss by exact X. cbn [contains] in H. rewrite X in H. cbn [orb] in H.
    specialize (IH H). cbn [String.length]. lia.
Qed.

Lemma rename_is_title : forall x, rename_labels_from_internal x = title x <-> contains "exp" x = false.
Proof.
  intros x. unfold rename_labels_from_internal, title. split.
  - intros E. destruct (contains "exp" x) eqn:C; [|reflexivity]. exfalso.
    apply replace_exp_longer in C. apply (f_equal String.length) in E.
    rewrite !length_title_from in E. lia.
  - intros H. rewrite replace_exp_id by exact H. reflexivity.
Qed.

Lemma find_observables_iff : forall columns observables,
  find_observables columns observables = Ok tt <->
  forall o, In o observables -> exists c, In c columns /\ rename_labels_from_internal c = title o.
Proof.
  intros columns observables. unfold find_observables.
  destruct (forallb _ _) eqn:F.
  - split; [|reflexivity]. intros _ o O. rewrite forallb_forall in F. specialize (F o O).
    apply mem_iff, in_map_iff in F. destruct F as [c [E I]]. eauto.
  - split; [discriminate|]. intros H. exfalso.
    assert (T : forallb (fun o => mem (title o) (map rename_labels_from_internal columns)) observables = true).
    { apply forallb_forall. intros o O. apply mem_iff, in_map_iff. destruct (H o O) as [c [I E]]. eauto. }
    congruence.
Qed.

Lemma observables_found : forall columns observables,
  (forall o, In o observables -> In o columns) ->
  (forall o, In o observables -> contains "exp" o = false) ->
  find_observables columns observables = Ok tt.
Proof.
  intros columns observables I C. apply find_observables_iff. intros o O. exists o.
  split; [apply I; exact O | apply rename_is_title, C; exact O].
Qed.

Lemma same_name_iff : forall o,
  rename_labels_from_internal o = title o <-> ~ (exists a b, o = a ++ "exp" ++ b).
Proof.
  intros o. rewrite rename_is_title. rewrite <- contains_iff. destruct (contains "exp" o); split; congruence.
Qed.
