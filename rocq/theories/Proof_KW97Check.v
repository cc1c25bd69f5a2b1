(** Proofs: regular files lead to data that can be used for the estimation. *)
From Coq Require Import List Arith ZArith Bool String Reals Lia Sorted.
From Verif Require Import Base Model_Strings Model_Choices Model_Data Model_KW97 Spec_Data Spec_KW97
  Proof_Base Proof_Data Proof_DataCheck Proof_DataColumns Proof_DatasetCheck Proof_KW97 Proof_KW97More.
Import ListNotations.
Open Scope string_scope.
Open Scope list_scope.
Open Scope Z_scope.

Lemma F2_nth_r : forall A B (P : A -> B -> Prop) l m a y, Forall2 P l m -> nth_error m a = Some y ->
  exists x, nth_error l a = Some x /\ P x y.
Proof.
  intros A B P l m a y F. revert a. induction F as [|x z l m H F IH]; intros a E; [destruct a; discriminate|].
  destruct a as [|a]; cbn in *; [injection E as <-; exists x; auto|]. apply IH. exact E.
Qed.
Lemma F2_in_l : forall A B (P : A -> B -> Prop) l m x, Forall2 P l m -> In x l -> exists y, In y m /\ P x y.
Proof.
  intros A B P l m x F. induction F as [|u z l m H F IH]; intros I; [contradiction|].
  destruct I as [->|I]; [exists z; split; [left; reflexivity|exact H]|]. destruct (IH I) as [y [Y PY]]. exists y. split; [right; exact Y|exact PY].
Qed.
Lemma sorted_filter : forall A (R : A -> A -> Prop) f l, StronglySorted R l -> StronglySorted R (filter f l).
Proof.
  intros A R f l S. induction S as [|x l S IH F]; cbn; [constructor|]. destruct (f x); [|exact IH]. constructor; [exact IH|].
  rewrite Forall_forall in *. intros y Y. apply filter_In in Y. apply F. tauto.
Qed.
Lemma sorted_seq : forall n s, StronglySorted lt (seq s n).
Proof.
  induction n as [|n IH]; intros s; cbn; constructor; [apply IH|]. apply Forall_forall. intros x X. apply in_seq in X. lia.
Qed.
Lemma smaller_unique : forall file i n n', smaller_identifiers file i n -> smaller_identifiers file i n' -> n = n'.
Proof.
  intros file i n n' [a [A1 [A2 A3]]] [b [B1 [B2 B3]]]. subst.
  apply Nat.le_antisymm; apply NoDup_incl_length; auto; intros x X; [apply B3, A3|apply A3, B3]; exact X.
Qed.
Lemma years_unique : forall file k c n n', years_before file k c n -> years_before file k c n' -> n = n'.
Proof.
  intros file k c n n' [w [a [W [A1 [A2 A3]]]]] [w' [b [W' [B1 [B2 B3]]]]]. rewrite W in W'. injection W' as <-. subst.
  apply Nat.le_antisymm; apply NoDup_incl_length; auto; intros x X; [apply B3, A3|apply A3, B3]; exact X.
Qed.
(** One more row. *)
Lemma years_next : forall file k c n n' v w, years_before file k c n -> years_before file (S k) c n' ->
  nth_error file k = Some v -> nth_error file (S k) = Some w -> w_id v = w_id w ->
  (chose v c -> n' = S n) /\ (~ chose v c -> n' = n).
Proof.
  intros file k c n n' v w [v' [a [V [A1 [A2 A3]]]]] H V' W E. rewrite V' in V. injection V as <-. split; intros C.
  - apply (years_unique file (S k) c); [exact H|]. exists w, (k :: a). split; [exact W|]. split.
    { constructor; [|exact A1]. intros I. apply A3 in I. lia. }
    split; [cbn; congruence|]. intros j. split.
    + intros [<-|J].
      * split; [lia|]. exists v. auto.
      * apply A3 in J. destruct J as [J [u [U [UI UC]]]]. split; [lia|]. exists u. repeat split; auto; congruence.
    + intros [J [u [U [UI UC]]]]. destruct (Nat.eq_dec j k) as [->|N]; [left; reflexivity|]. right. apply A3. split; [lia|].
      exists u. repeat split; auto; congruence.
  - apply (years_unique file (S k) c); [exact H|]. exists w, a. split; [exact W|]. split; [exact A1|]. split; [exact A2|].
    intros j. split.
    + intros J. apply A3 in J. destruct J as [J [u [U [UI UC]]]]. split; [lia|]. exists u. repeat split; auto; congruence.
    + intros [J [u [U [UI UC]]]]. apply A3. destruct (Nat.eq_dec j k) as [->|N]; [rewrite V' in U; injection U as <-; contradiction|].
      split; [lia|]. exists u. repeat split; auto; congruence.
Qed.

Section Check.
  Variable m : info.
  Variable file : list raw.
  Hypothesis RF : regular_file m file.
  Hypothesis UC : usual_choices (i_wage_choices m) (i_exp_choices m).
  Hypothesis LAGS : (i_lags m <= 1)%nat.
  Hypothesis OBS : i_levels m = [].
  Variable data : list row.
  Hypothesis PREP : Forall2 (prepared (i_wage_choices m) (i_exp_choices m) (i_lags m) file) (from_sixteen file) data.

  Let P := prepared (i_wage_choices m) (i_exp_choices m) (i_lags m) file.
  Let idn (i : Z) (z : Z) : Prop := exists n, z = Z.of_nat n /\ smaller_identifiers file i n.

  Lemma in_sixteen : forall k, In k (from_sixteen file) <-> exists w, nth_error file k = Some w /\ 16 <= w_age w.
  Proof.
    intros k. unfold from_sixteen. rewrite filter_In, in_seq. split.
    - intros [_ H]. destruct (nth_error file k) as [w|]; [|discriminate]. exists w. split; [reflexivity|]. apply Z.leb_le. exact H.
    - intros [w [W A]]. split; [|rewrite W; apply Z.leb_le; exact A]. split; [lia|]. apply nth_error_Some. congruence.
  Qed.
  Lemma data_pos : forall a r, nth_error data a = Some r -> exists k w, nth_error (from_sixteen file) a = Some k /\ nth_error file k = Some w /\ 16 <= w_age w /\ P k r /\
    r_period r = w_age w - 16 /\ is_choice_of w (r_choice r) /\ r_wage r = w_wage w /\ idn (w_id w) (r_id r).
  Proof.
    intros a r A. destruct (F2_nth_r _ _ _ _ _ _ _ PREP A) as [k [K PK]]. pose proof PK as PK'. destruct PK' as [[w [W [W1 [W2 [W3 [W4 W5]]]]]] _ _ _ _ _ _].
    exists k, w. pose proof (nth_error_In _ _ K) as I. apply in_sixteen in I. destruct I as [w' [W' A']]. rewrite W in W'. injection W' as <-.
    split; [exact K|]. split; [exact W|]. split; [exact A'|]. split; [exact PK|]. split; [exact W1|]. split; [exact W2|]. split; [exact W3|exact W4].
  Qed.
  Lemma data_in : forall r, In r data -> exists k w, nth_error file k = Some w /\ 16 <= w_age w /\ P k r /\
    r_period r = w_age w - 16 /\ is_choice_of w (r_choice r) /\ r_wage r = w_wage w /\ idn (w_id w) (r_id r).
  Proof.
    intros r I. apply In_nth_error in I. destruct I as [a A]. destruct (data_pos a r A) as [k [w [_ H]]]. exists k, w. exact H.
  Qed.
  Lemma data_of : forall w, In w file -> 16 <= w_age w -> exists r, In r data /\ r_period r = w_age w - 16 /\ idn (w_id w) (r_id r).
  Proof.
    intros w I A. apply In_nth_error in I. destruct I as [k K].
    destruct (F2_in_l _ _ _ _ _ k PREP) as [r [R PR]]; [apply in_sixteen; exists w; auto|].
    exists r. split; [exact R|]. destruct PR as [[w' [W [W1 [_ [_ [W4 _]]]]]] _ _ _ _ _ _]. rewrite K in W. injection W as <-. auto.
  Qed.
  Let people := isort Z.leb (drop_duplicates Z.eq_dec (map w_id file)).
  Let gn := group_number (map w_id file).
  Lemma FEW : few_people file. Proof. apply RF. Qed.
  Lemma idn_gn : forall w z, In w file -> (idn (w_id w) z <-> z = gn (w_id w)).
  Proof.
    intros w z I. assert (J : In (w_id w) people) by (apply In_people; exists w; auto).
    pose proof (gn_is file FEW _ J) as G. pose proof (gn_smaller file _ J) as Sm. split.
    - intros [n [-> H]]. unfold gn. rewrite G. f_equal. apply (smaller_unique file (w_id w)); assumption.
    - intros ->. exists (List.length (below people (w_id w))). split; [exact G|exact Sm].
  Qed.
  Lemma same_id : forall v w z, In v file -> In w file -> idn (w_id v) z -> idn (w_id w) z -> w_id v = w_id w.
  Proof.
    intros v w z V W A B. apply idn_gn in A; [|exact V]. apply idn_gn in B; [|exact W].
    assert (JV : In (w_id v) people) by (apply In_people; exists v; auto). assert (JW : In (w_id w) people) by (apply In_people; exists w; auto).
    pose proof (gn_eqb file FEW _ _ JV JW) as E. apply Z.eqb_eq. rewrite <- E. apply Z.eqb_eq. unfold gn in *. congruence.
  Qed.
  Lemma id_le : forall v w y z, In v file -> In w file -> idn (w_id v) y -> idn (w_id w) z -> w_id v <= w_id w -> y <= z.
  Proof.
    intros v w y z V W A B L. apply idn_gn in A; [|exact V]. apply idn_gn in B; [|exact W]. subst.
    assert (JV : In (w_id v) people) by (apply In_people; exists v; auto). assert (JW : In (w_id w) people) by (apply In_people; exists w; auto).
    destruct (Z.eq_dec (w_id v) (w_id w)) as [->|N]; [lia|]. pose proof (gn_lt file FEW _ _ JV JW). unfold gn. lia.
  Qed.

  Lemma positions_lt : forall a b k l, (a < b)%nat -> nth_error (from_sixteen file) a = Some k -> nth_error (from_sixteen file) b = Some l -> (k < l)%nat.
  Proof.
    intros a b k l L A B. apply (sorted_positions _ lt (from_sixteen file) a b); auto. apply sorted_filter, sorted_seq.
  Qed.
  Lemma order_ids : individuals_in_order data.
  Proof.
    intros a b r q L A B. destruct (data_pos a r A) as [k [v [K [V [_ [_ [_ [_ [_ I]]]]]]]]].
    destruct (data_pos b q B) as [l [w [KL [W [_ [_ [_ [_ [_ J]]]]]]]]].
    pose proof (positions_lt a b k l L K KL) as KL'.
    apply (id_le v w); auto; try (eapply nth_error_In; eassumption).
    destruct (file_ordered _ _ RF k l v w KL' V W); lia.
  Qed.
  Lemma order_periods : in_order data.
  Proof.
    intros a b r q L A B E. destruct (data_pos a r A) as [k [v [K [V [_ [_ [P1 [_ [_ I]]]]]]]]].
    destruct (data_pos b q B) as [l [w [KL [W [_ [_ [P2 [_ [_ J]]]]]]]]].
    pose proof (positions_lt a b k l L K KL) as KL'. rewrite E in I.
    assert (S : w_id v = w_id w) by (apply (same_id v w (r_id q)); auto; eapply nth_error_In; eassumption).
    destruct (file_ordered _ _ RF k l v w KL' V W) as [X|[_ X]]; lia.
  Qed.

  Lemma same_row : forall k l v w, nth_error file k = Some v -> nth_error file l = Some w -> w_id v = w_id w -> w_age v = w_age w -> k = l.
  Proof.
    intros k l v w V W I A. destruct (Nat.lt_total k l) as [L|[L|L]]; [|exact L|].
    - destruct (file_ordered _ _ RF k l v w L V W); lia.
    - destruct (file_ordered _ _ RF l k w v L W V); lia.
  Qed.
  (** A year later is the next row. *)
  Lemma next_row : forall k l v w, nth_error file k = Some v -> nth_error file l = Some w -> w_id v = w_id w -> w_age w = w_age v + 1 -> l = S k.
  Proof.
    intros k l v w V W I A. destruct (Nat.lt_total k l) as [L|[L|L]].
    - destruct (Nat.eq_dec l (S k)) as [E|E]; [exact E|]. exfalso.
      assert (X : (S k < List.length file)%nat) by (assert (l < List.length file)%nat by (apply nth_error_Some; congruence); lia).
      destruct (nth_error file (S k)) as [u|] eqn:U; [|apply nth_error_None in U; lia].
      destruct (file_ordered _ _ RF k (S k) v u ltac:(lia) V U) as [B|[B1 B2]];
      destruct (file_ordered _ _ RF (S k) l u w ltac:(lia) U W) as [C|[C1 C2]]; lia.
    - subst l. rewrite V in W. injection W as <-. lia.
    - destruct (file_ordered _ _ RF l k w v L W V); lia.
  Qed.

  Lemma last_year : forall w, In w file -> exists v, In v file /\ w_id v = w_id w /\ forall u, In u file -> w_id u = w_id w -> w_age u <= w_age v.
  Proof.
    intros w I. clear - I. revert I.
    assert (G : forall l i, (exists v, In v l /\ w_id v = i) -> exists v, In v l /\ w_id v = i /\ forall u, In u l -> w_id u = i -> w_age u <= w_age v).
    { induction l as [|x l IH]; intros i [v [V E]]; [contradiction|].
      destruct (in_dec Z.eq_dec i (map w_id l)) as [J|J].
      - apply in_map_iff in J. destruct J as [y [Y1 Y2]]. destruct (IH i (ex_intro _ y (conj Y2 Y1))) as [z [Z1 [Z2 Z3]]].
        destruct (Z.eq_dec (w_id x) i) as [X|X].
        + destruct (Z.leb_spec (w_age z) (w_age x)) as [L|L].
          * exists x. split; [left; reflexivity|]. split; [exact X|]. intros u [<-|U] EU; [lia|]. specialize (Z3 u U EU). lia.
          * exists z. split; [right; exact Z1|]. split; [exact Z2|]. intros u [<-|U] EU; [lia|]. apply Z3; assumption.
        + exists z. split; [right; exact Z1|]. split; [exact Z2|]. intros u [<-|U] EU; [contradiction|]. apply Z3; assumption.
      - destruct V as [<-|V]; [|exfalso; apply J; apply in_map_iff; exists v; auto].
        exists x. split; [left; reflexivity|]. split; [exact E|]. intros u [<-|U] EU; [lia|]. exfalso. apply J. apply in_map_iff. exists u. auto. }
    intros I. apply G. exists w. auto.
  Qed.
  Lemma no_gaps : forall n v, In v file -> 16 <= w_age v - Z.of_nat n -> exists u, In u file /\ w_id u = w_id v /\ w_age u = w_age v - Z.of_nat n.
  Proof.
    induction n as [|n IH]; intros v V A; [exists v; repeat split; auto; lia|].
    destruct (file_gaps _ _ RF v V) as [u [U [I E]]]; [lia|]. destruct (IH u U) as [t [T [J F]]]; [lia|].
    exists t. split; [exact T|]. split; [congruence|]. lia.
  Qed.

  Lemma panel_ok : complete_panel m data.
  Proof.
    split; [|split].
    - exists (Z.of_nat (List.length people)). intros i. split.
      + intros [r [R <-]]. destruct (data_in r R) as [k [w [W [_ [_ [_ [_ [_ I]]]]]]]]. pose proof (nth_error_In _ _ W) as IW.
        apply idn_gn in I; [|exact IW]. rewrite I. assert (J : In (w_id w) people) by (apply In_people; exists w; auto).
        unfold gn. rewrite (gn_is file FEW _ J). pose proof (below_lt file _ J) as BL. unfold people. lia.
      + intros I. destruct (gn_onto file FEW i I) as [j [J G]]. apply In_people in J. destruct J as [w [W <-]].
        destruct (file_sixteen _ _ RF w W) as [v [V [E A]]]. destruct (data_of v V) as [r [R [_ N]]]; [lia|].
        exists r. split; [exact R|]. rewrite E in N. apply (idn_gn w) in N; [|exact W]. rewrite N. exact G.
    - intros r R. destruct (data_in r R) as [k [w [W [A [_ [_ [_ [_ I]]]]]]]]. pose proof (nth_error_In _ _ W) as IW.
      destruct (last_year w IW) as [v [V [E M]]]. exists (w_age v - 16). split; [pose proof (file_ages _ _ RF v V); lia|].
      intros t. split.
      + intros [q [Q [EI EP]]]. destruct (data_in q Q) as [l [u [U [AU [_ [PU [_ [_ J]]]]]]]]. pose proof (nth_error_In _ _ U) as IU.
        rewrite EI in J. assert (S : w_id u = w_id w) by (apply (same_id u w (r_id r)); auto). specialize (M u IU S). lia.
      + intros T. destruct (no_gaps (Z.to_nat (w_age v - 16 - t)) v V) as [u [U [EU AU]]]; [lia|].
        destruct (data_of u U) as [q [Q [PQ IQ]]]; [lia|]. exists q. split; [exact Q|]. split; [|lia].
        rewrite EU, E in IQ. apply (idn_gn w) in IQ; [|exact IW]. apply idn_gn in I; [|exact IW]. congruence.
    - intros a b r q A B EI EP. destruct (Nat.lt_total a b) as [L|[L|L]]; [|exact L|].
      + pose proof (order_periods a b r q L A B EI). lia.
      + pose proof (order_periods b a q r L B A (eq_sym EI)). lia.
  Qed.

  Lemma school_not_wage : ~ In "school" (i_wage_choices m).
  Proof. intros I. destruct UC as [W _]. apply W in I. repeat (destruct I as [I|I]; [discriminate I|]). destruct I. Qed.

  Lemma exp_value : forall k w r j c, nth_error file k = Some w -> P k r -> nth_error (i_exp_choices m) j = Some c ->
    (c = "school" /\ nth_error (r_exps r) j = Some (Some (w_school w))) \/
    (c <> "school" /\ exists n, nth_error (r_exps r) j = Some (Some (Z.of_nat n)) /\ years_before file k c n).
  Proof.
    intros k w r j c W [[w' [W' [_ [_ [_ [_ Sc]]]]]] EX _ _ _ _ _] J. rewrite W in W'. injection W' as <-.
    destruct UC as [_ EC]. pose proof (EC c (nth_error_In _ _ J)) as I. apply in_app_or in I. destruct I as [I|[<-|[]]].
    - right. split; [intros ->; exact (school_not_wage I)|]. apply EX; assumption.
    - left. split; [reflexivity|]. apply Sc; [exact J|exact school_not_wage].
  Qed.

  Lemma experience_ok : experience_follows m data.
  Proof.
    intros r q j c [R [Q [EI EP]]] J.
    destruct (data_in r R) as [k [v [V [AV [PV [Pr [Cv [_ I]]]]]]]]. destruct (data_in q Q) as [l [w [W [AW [PW [Pq [_ [_ Iq]]]]]]]].
    pose proof (nth_error_In _ _ V) as IV. pose proof (nth_error_In _ _ W) as IW.
    rewrite EI in Iq. assert (S : w_id v = w_id w) by (apply (same_id v w (r_id r)); auto).
    assert (L : l = Datatypes.S k) by (apply (next_row k l v w); auto; lia). subst l.
    assert (CH : forall d, r_choice r = Some d <-> chose v d) by (intros d; apply Cv).
    destruct (exp_value k v r j c V PV J) as [[-> E1]|[N1 [n [E1 Y1]]]]; destruct (exp_value (Datatypes.S k) w q j _ W PW J) as [[X E2]|[N2 [n' [E2 Y2]]]].
    - destruct (file_school _ _ RF (nth_error_In _ _ J) v w IV IW S AV ltac:(lia)) as [F1 F2].
      exists (w_school v). split; [exact E1|]. split; intros C.
      + rewrite E2, F1; [reflexivity|apply CH; exact C].
      + rewrite E2, F2; [reflexivity|]. intros D. apply C, CH, D.
    - contradiction.
    - contradiction.
    - destruct (years_next file k c n n' v w Y1 Y2 V W S) as [F1 F2].
      exists (Z.of_nat n). split; [exact E1|]. split; intros C.
      + rewrite E2, F1; [f_equal; f_equal; lia|apply CH; exact C].
      + rewrite E2, F2; [reflexivity|]. intros D. apply C, CH, D.
  Qed.

  Lemma lag_ok : i_lags m = 1%nat -> forall r, In r data -> exists c, In c (i_choices m) /\ choice_column 1 r = Some c.
  Proof.
    intros L1 r R. destruct (data_in r R) as [k [w [W [A [PW [_ [_ [_ _]]]]]]]]. pose proof (nth_error_In _ _ W) as IW.
    assert (E : exists v, In v file /\ w_id v = w_id w /\ w_age v = w_age w - 1).
    { destruct (Z.eq_dec (w_age w) 16) as [E|E].
      - destruct (file_fifteen _ _ RF ltac:(lia) w IW) as [v [V [I B]]]. exists v. repeat split; auto; lia.
      - apply (file_gaps _ _ RF w IW). lia. }
    destruct E as [v [V [I B]]]. apply In_nth_error in V. destruct V as [l V].
    assert (K : k = S l) by (apply (next_row l k v w); auto; lia). subst k.
    assert (RB : row_before file (S l) v).
    { exists w, l. split; [exact W|]. split; [lia|]. split; [exact V|]. split; [exact I|]. intros i u X. lia. }
    destruct PW as [_ _ _ _ LG _ _]. destruct (LG L1 v RB) as [c [C1 C2]].
    destruct (file_choices _ _ RF v (nth_error_In _ _ V)) as [d [D1 D2]]. apply C2 in D2. subst c.
    exists d. split; [exact D1|]. cbn. rewrite C1. reflexivity.
  Qed.

  Lemma values_ok_ : values_ok m data.
  Proof.
    split.
    - intros r R. destruct (data_in r R) as [k [w [W [A [PW [_ [CW [WW _]]]]]]]]. pose proof (nth_error_In _ _ W) as IW.
      split; [|split; [|split; [|split]]].
      + destruct (file_choices _ _ RF w IW) as [c [C1 C2]]. exists c. split; [exact C1|]. apply CW. exact C2.
      + intros x X. apply (file_wages _ _ RF w x IW). congruence.
      + intros i I. assert (i = 1%nat) by lia. subst i. apply lag_ok; [lia|exact R].
      + intros j J. destruct (nth_error (i_exp_choices m) j) as [c|] eqn:E; [|apply nth_error_None in E; lia].
        destruct (exp_value k w r j c W PW E) as [[_ X]|[_ [n [X _]]]]; eexists; exact X.
      + intros j J. rewrite OBS in J. cbn in J. lia.
    - intros j n J. rewrite OBS in J. destruct j; discriminate.
  Qed.

  Lemma checked : forall categories, categories 1%nat = categories 0%nat -> incl (i_choices m) (categories 0%nat) ->
    check_estimation_data m categories data = Ok tt.
  Proof.
    intros categories C0 C1. apply accepted_iff; auto.
    - intros r R. destruct (data_in r R) as [k [w [W [A [_ [Pr _]]]]]]. lia.
    - exact order_ids.
    - exact order_periods.
    - split; [exact values_ok_|]. split; [exact panel_ok|]. split; [exact experience_ok|]. split; intros; lia.
  Qed.
End Check.

Theorem regular_files_accepted : forall m file categories, regular_file m file -> usual_choices (i_wage_choices m) (i_exp_choices m) ->
  (i_lags m <= 1)%nat -> i_levels m = [] -> categories 1%nat = categories 0%nat -> incl (i_choices m) (categories 0%nat) ->
  exists data, create_kw_97 (i_wage_choices m) (i_exp_choices m) (i_lags m) [] file = Ok data /\
    check_estimation_data m categories data = Ok tt.
Proof.
  intros m file categories RF UC L O C0 C1.
  destruct (rows_prepared _ (i_exp_choices m) (i_lags m) file UC (file_people _ _ RF) L) as [data [D PREP]].
  exists data. split; [exact D|]. apply (checked m file RF UC L O data PREP categories C0 C1).
Qed.
