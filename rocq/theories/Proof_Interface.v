(** Proofs about the functions for example models. *)
From Coq Require Import List Arith Bool String Lia.
From Verif Require Import Base Proof_Base Model_Strings Model_Choices Model_Solve Proof_Solve Model_Interface Spec_Interface.
Import ListNotations.
Open Scope string_scope.
Open Scope list_scope.

(** ** Names *)
Lemma prefix_weaken : forall p q s, prefix (p ++ q)%string s = true -> prefix p s = true.
Proof.
  induction p as [|a p IH]; intros q s H; [destruct s; reflexivity|].
  destruct s as [|b s]; [discriminate|]. cbn [append prefix] in *. destruct (Ascii.ascii_dec a b); [|discriminate]. eapply IH. exact H.
Qed.
Lemma contains_weaken : forall p q s, contains (p ++ q)%string s = true -> contains p s = true.
Proof.
  intros p q s. induction s as [|b s IH]; intros H; cbn [contains] in *.
  - rewrite orb_false_r in *. eapply prefix_weaken. exact H.
  - apply orb_true_iff in H. apply orb_true_iff. destruct H as [H|H]; [left; eapply prefix_weaken; exact H|right; apply IH; exact H].
Qed.

Definition group (a : nat) : nat := if Nat.eqb a 2 then 1 else a.

Lemma address_small : forall m a, get_parameter_constraints m = Ok a -> a < 5.
Proof.
  intros m a H. unfold get_parameter_constraints in H.
  repeat match type of H with (if ?c then _ else _) = _ => destruct c end; try discriminate; injection H as <-; lia.
Qed.
Lemma address_97 : forall m a, get_parameter_constraints m = Ok a -> a = 1 \/ a = 2 -> contains "kw_97" m = true.
Proof.
  intros m a H Ha. unfold get_parameter_constraints in H.
  destruct (contains "kw_94" m); [injection H as <-; lia|].
  destruct (contains "kw_97_basic" m) eqn:B; [exact (contains_weaken "kw_97" "_basic" m B)|].
  destruct (contains "kw_97_extended" m) eqn:X; [exact (contains_weaken "kw_97" "_extended" m X)|].
  destruct (String.eqb "kw_2000" m); [injection H as <-; lia|]. destruct (contains "robinson_crusoe" m); [injection H as <-; lia|discriminate].
Qed.
Lemma group_eq : forall m m' a a', get_parameter_constraints m = Ok a -> get_parameter_constraints m' = Ok a' ->
  a <> a' -> group a = group a' -> contains "kw_97" m = true /\ contains "kw_97" m' = true.
Proof.
  intros m m' a a' H H' N G. pose proof (address_small m a H). pose proof (address_small m' a' H'). unfold group in G.
  split; [eapply address_97; [exact H|]|eapply address_97; [exact H'|]];
  destruct (Nat.eqb_spec a 2), (Nat.eqb_spec a' 2); lia.
Qed.

(** ** Objects *)
Definition valid (h : objects) : Prop :=
  List.length (ob_lists h) = 5 /\
  (forall a d, In d (nth a (ob_lists h) []) -> d < List.length (ob_dicts h)) /\
  (forall a b d, In d (nth a (ob_lists h) []) -> In d (nth b (ob_lists h) []) -> group a = group b).

Lemma import_valid : valid at_import.
Proof.
  split; [reflexivity|]. split.
  - intros a d H. cbn in *. do 5 (destruct a as [|a]; [cbn in H; intuition lia|]). destruct a; destruct H.
  - intros a b d H H'. cbn in *.
    do 5 (destruct a as [|a]; [do 5 (destruct b as [|b]; [cbn in *; try reflexivity; intuition lia|]); destruct b; destruct H'|]).
    destruct a; destruct H.
Qed.

Lemma nth_set_nth_list : forall A a (x : A) l b d, a < List.length l -> nth b (set_nth a x l) d = if Nat.eqb a b then x else nth b l d.
Proof.
  intros A a x l b d Ha. destruct (Nat.eqb_spec a b) as [<-|N].
  - rewrite (nth_error_nth _ _ _ (nth_error_set_nth_same _ a x l Ha)). reflexivity.
  - destruct (nth_error l b) as [y|] eqn:E.
    + assert (E' : nth_error (set_nth a x l) b = Some y) by (rewrite nth_error_set_nth_other; assumption).
      rewrite (nth_error_nth _ _ _ E'), (nth_error_nth _ _ _ E). reflexivity.
    + assert (E' : nth_error (set_nth a x l) b = None) by (rewrite nth_error_set_nth_other; assumption).
      apply nth_error_None in E, E'. rewrite !nth_overflow by assumption. reflexivity.
Qed.

Lemma in_removed : forall A k (l : list A) x, In x (firstn k l ++ skipn (S k) l) -> In x l.
Proof.
  intros A k l x H. apply in_app_iff in H. destruct H as [H|H].
  - rewrite <- (firstn_skipn k l). apply in_app_iff. left. exact H.
  - rewrite <- (firstn_skipn (S k) l). apply in_app_iff. right. exact H.
Qed.

Lemma valid_list : forall h a new, valid h -> a < 5 ->
  (forall d, In d new -> In d (nth a (ob_lists h) [])) -> valid (mkObjects (set_nth a new (ob_lists h)) (ob_dicts h)).
Proof.
  intros h a new [V1 [V2 V3]] Ha Hn. unfold valid. cbn [ob_lists ob_dicts].
  assert (I : forall b d, In d (nth b (set_nth a new (ob_lists h)) []) -> In d (nth b (ob_lists h) [])).
  { intros b d. rewrite nth_set_nth_list by lia. destruct (Nat.eqb_spec a b) as [<-|]; auto. }
  split; [rewrite length_set_nth; exact V1|]. split.
  - intros b d H. eapply V2. apply I. exact H.
  - intros b c d H H'. eapply V3; apply I; eassumption.
Qed.

Lemma event_valid : forall h e, valid h -> valid (run_event h e).
Proof.
  intros h e V. destruct e as [m|m c|m k|m k key v]; cbn [run_event]; [exact V| | |];
  destruct (get_parameter_constraints m) as [a| | | | |] eqn:G; try exact V; pose proof (address_small m a G) as Ha.
  - destruct V as [V1 [V2 V3]]. unfold valid. cbn [ob_lists ob_dicts]. split; [rewrite length_set_nth; exact V1|].
    assert (I : forall b d, In d (nth b (set_nth a (nth a (ob_lists h) [] ++ [List.length (ob_dicts h)]) (ob_lists h)) []) ->
       In d (nth b (ob_lists h) []) \/ (b = a /\ d = List.length (ob_dicts h))).
    { intros b d. rewrite nth_set_nth_list by lia. destruct (Nat.eqb_spec a b) as [<-|]; [|auto].
      intros H. apply in_app_iff in H. destruct H as [H|[<-|[]]]; auto. }
    split.
    + intros b d H. rewrite app_length. cbn [List.length]. destruct (I b d H) as [H'|[_ ->]]; [|lia]. specialize (V2 b d H'). lia.
    + intros b c' d H H'. destruct (I b d H) as [J|[-> E]], (I c' d H') as [J'|[-> E']].
      * eapply V3; eassumption.
      * specialize (V2 b d J). lia.
      * specialize (V2 c' d J'). lia.
      * reflexivity.
  - apply valid_list; [exact V|exact Ha|]. intros d. apply in_removed.
  - destruct (nth_error (nth a (ob_lists h) []) k) as [d|] eqn:E; [|exact V]. destruct V as [V1 [V2 V3]].
    unfold valid. cbn [ob_lists ob_dicts]. split; [exact V1|]. split; [|exact V3].
    intros b d' H. rewrite length_set_nth. eapply V2. exact H.
Qed.

Lemma event_harmless : forall h m a e, valid h -> get_parameter_constraints m = Ok a -> harmless m e ->
  contents (run_event h e) a = contents h a.
Proof.
  intros h m a e V G HE. pose proof (address_small m a G) as Ha.
  destruct e as [m'|m' c|m' k|m' k key v]; cbn [run_event harmless] in *; [reflexivity| | |];
  destruct (get_parameter_constraints m') as [a'| | | | |] eqn:G'; try reflexivity; pose proof (address_small m' a' G') as Ha';
  destruct V as [V1 [V2 V3]]; unfold contents; cbn [ob_lists ob_dicts].
  - assert (N : a' <> a) by congruence. rewrite nth_set_nth_list by lia. destruct (Nat.eqb_spec a' a); [contradiction|].
    apply map_ext_in. intros d Hd. apply app_nth1. eapply V2. exact Hd.
  - assert (N : a' <> a) by congruence. rewrite nth_set_nth_list by lia. destruct (Nat.eqb_spec a' a); [contradiction|]. reflexivity.
  - destruct HE as [HE H97]. assert (N : a <> a') by congruence.
    destruct (nth_error (nth a' (ob_lists h) []) k) as [d|] eqn:E; [|reflexivity]. cbn [ob_lists ob_dicts].
    apply map_ext_in. intros d' Hd. apply nth_error_In in E.
    rewrite nth_set_nth_list by (eapply V2; exact E).
    destruct (Nat.eqb_spec d d') as [<-|]; [|reflexivity]. exfalso. apply H97.
    eapply group_eq; try eassumption. eapply V3; eassumption.
Qed.

Lemma events_valid : forall es h, valid h -> valid (run_events h es).
Proof. induction es as [|e es IH]; intros h V; [exact V|]. cbn. apply IH. apply event_valid. exact V. Qed.

Lemma separate_from : forall m es h, valid h -> Forall (harmless m) es -> constraints_of (run_events h es) m = constraints_of h m.
Proof.
  intros m es. induction es as [|e es IH]; intros h V F; [reflexivity|]. inversion F as [|? ? F1 F2]; subst.
  cbn [run_events fold_left]. change (fold_left run_event es (run_event h e)) with (run_events (run_event h e) es).
  rewrite IH by (try assumption; apply event_valid; exact V).
  unfold constraints_of. destruct (get_parameter_constraints m) as [a| | | | |] eqn:G; try reflexivity. cbn [result_bind].
  f_equal. eapply event_harmless; eassumption.
Qed.

Lemma constraints_separate : forall m before es, Forall (harmless m) es ->
  constraints_of (run_events at_import (before ++ es)) m = constraints_of (run_events at_import before) m.
Proof.
  intros m before es F. unfold run_events. rewrite fold_left_app. apply separate_from; [|exact F].
  apply events_valid, import_valid.
Qed.

Lemma constraints_looks : forall m es, Forall only_looks es ->
  constraints_of (run_events at_import es) m = constraints_of at_import m.
Proof.
  intros m es F. apply separate_from; [exact import_valid|]. eapply Forall_impl; [|exact F]. intros [] H; try contradiction. exact Logic.I.
Qed.

Lemma constraints_appended : forall m m' before c cs,
  get_parameter_constraints m = get_parameter_constraints m' ->
  constraints_of (run_events at_import before) m' = Ok cs ->
  constraints_of (run_events at_import (before ++ [Append m c])) m' = Ok (cs ++ [c]).
Proof.
  intros m m' before c cs G H. unfold run_events in *. rewrite fold_left_app. cbn [fold_left].
  change (fold_left run_event before at_import) with (run_events at_import before) in *.
  pose proof (events_valid before at_import import_valid) as [V1 [V2 V3]]. set (h := run_events at_import before) in *.
  unfold constraints_of in *. cbn [run_event]. rewrite G.
  destruct (get_parameter_constraints m') as [a| | | | |] eqn:E; try discriminate. cbn [result_bind] in *. injection H as <-. f_equal.
  pose proof (address_small m' a E). unfold contents. cbn [ob_lists ob_dicts]. rewrite nth_set_nth_list by lia. rewrite Nat.eqb_refl.
  rewrite map_app. f_equal.
  - apply map_ext_in. intros d Hd. apply app_nth1. eapply V2. exact Hd.
  - cbn [map]. rewrite app_nth2 by lia. rewrite Nat.sub_diag. reflexivity.
Qed.

Lemma constraints_exist : forall m, In m example_models ->
  exists cs, constraints_of at_import m = Ok ([("loc", Text "shocks_sdcorr"); ("type", Text "sdcorr")] :: cs).
Proof. intros m H. cbn in H. repeat (destruct H as [<-|H]; [vm_compute; eexists; reflexivity|]). destruct H. Qed.

Lemma mem_In : forall x l, mem x l = true <-> In x l.
Proof.
  intros x l. unfold mem. rewrite existsb_exists. split.
  - intros [y [H E]]. apply String.eqb_eq in E. subst. exact H.
  - intros H. exists x. split; [exact H|apply String.eqb_refl].
Qed.

Lemma example_data : forall m,
  (In m example_models -> m <> "kw_2000" -> exists s, get_example_model m true = Ok (Some s, false)) /\
  (In m example_models -> get_example_model m false = Ok (None, false)) /\
  (~ In m example_models -> forall b, get_example_model m b = OtherError).
Proof.
  intros m. split; [|split].
  - intros H N. cbn in H. repeat (destruct H as [<-|H]; [try (vm_compute; eexists; reflexivity); exfalso; apply N; reflexivity|]). destruct H.
  - intros H. unfold get_example_model. rewrite (proj2 (mem_In m example_models) H), !andb_false_r. reflexivity.
  - intros H b. unfold get_example_model. destruct (mem m example_models) eqn:E; [|reflexivity]. apply mem_In in E. contradiction.
Qed.

Lemma changed_by_other_model : exists es m,
  In m example_models /\ (forall e, In e es -> match e with Look a | Append a _ | Remove a _ | SetEntry a _ _ _ => a <> m end) /\
  constraints_of (run_events at_import es) m <> constraints_of at_import m.
Proof.
  exists [Append "kw_94_one" (text_pair "loc" "delta" "type" "fixed")], "kw_94_two".
  split; [cbn; auto|]. split; [intros e [<-|[]]; discriminate|]. vm_compute. discriminate.
Qed.

Lemma changed_single_constraint : exists es m m',
  In m example_models /\ In m' example_models /\ get_parameter_constraints m <> get_parameter_constraints m' /\
  es = [SetEntry m 0 "type" (Text "fixed")] /\
  constraints_of (run_events at_import es) m' <> constraints_of at_import m'.
Proof.
  exists [SetEntry "kw_97_basic" 0 "type" (Text "fixed")], "kw_97_basic", "kw_97_extended".
  split; [cbn; tauto|]. split; [cbn; tauto|]. split; [vm_compute; discriminate|]. split; [reflexivity|]. vm_compute. discriminate.
Qed.

Lemma unknown_name : exists m, ~ In m example_models /\ exists cs, constraints_of at_import m = Ok cs.
Proof.
  exists "kw_94_four". split; [|vm_compute; eexists; reflexivity]. intros H. cbn in H. intuition discriminate.
Qed.

Lemma no_data : In "kw_2000" example_models /\ get_example_model "kw_2000" true = Ok (None, true).
Proof. split; [cbn; tauto|reflexivity]. Qed.
