(** Concrete data sets for the examples of Props_Data. *)
From Coq Require Import List ZArith Bool String Reals Lra Lia.
From Verif Require Import Base Proof_Base Model_Choices Model_Data Spec_Data Proof_Data Proof_DataCheck.
Import ListNotations.
Open Scope string_scope.
Open Scope Z_scope.

Definition the_info (lags : nat) : info := mkInfo 3 ["a"; "home"] ["a"] ["a"] lags [2%nat] 2.
Definition a := Some "a".
Definition home := Some "home".
Definition observation (i t : Z) (c : option string) (lags : list (option string)) (e : Z) : row :=
  mkRow i t c None lags [Some e] [Some (Number 0)] (Some 0).
Definition same (i : nat) : list string := ["a"; "home"].

(** One individual works, then stays at home; the other is observed once. *)
Definition good : list row :=
  [ observation 0 0 a [home; home; home] 0; observation 0 1 home [a; home; home] 1; observation 0 2 a [home; a; home] 1;
    observation 1 0 home [a; a; a] 2 ].
(** The lagged choice of the second row is not the choice of the first row. *)
Definition bad_lag : list row := [ observation 0 0 a [home] 0; observation 0 1 home [home] 1 ].
(** The period 1 comes first. *)
Definition unordered : list row := [ observation 0 1 a [home] 0; observation 0 0 a [home] 1 ].
Definition negative : list row := [ observation 0 (-1) a [home] 0; observation 0 1 a [a] 1 ].

Lemma In_rows : forall (x : row) l (P : row -> Prop), Forall P l -> In x l -> P x.
Proof. intros x l P F. apply Forall_forall. exact F. Qed.

Ltac two_rows := intros [|[|x]] [|[|y]] r q L A B; cbn in A, B; try lia; try (destruct x; discriminate); try (destruct y; discriminate);
    inversion A; inversion B; subst; cbn; lia.

Lemma nonneg_by : forall data, forallb (fun r => Z.leb 0 (r_period r)) data = true -> forall r, In r data -> 0 <= r_period r.
Proof. intros data H r I. rewrite forallb_forall in H. specialize (H r I). apply Z.leb_le in H. exact H. Qed.

(** Pairs of rows by computation. *)
Fixpoint all_pairs (P : row -> row -> bool) (l : list row) : bool :=
  match l with [] => true | x :: l => forallb (P x) l && all_pairs P l end.
Lemma all_pairs_nth : forall P l, all_pairs P l = true -> forall i j x y, (i < j)%nat -> nth_error l i = Some x -> nth_error l j = Some y -> P x y = true.
Proof.
  induction l as [|z l IH]; intros H i j x y L A B; [destruct i; discriminate|]. cbn in H. apply andb_true_iff in H. destruct H as [H1 H2].
  destruct j as [|j]; [lia|]. cbn in B. destruct i as [|i].
  - inversion A; subst. rewrite forallb_forall in H1. apply H1. apply (nth_error_In _ j). exact B.
  - cbn in A. apply (IH H2 i j x y); auto. lia.
Qed.
Lemma in_order_by : forall data, all_pairs (fun r q => negb (Z.eqb (r_id r) (r_id q)) || Z.ltb (r_period r) (r_period q)) data = true -> in_order data.
Proof.
  intros data H i j r q L A B E. pose proof (all_pairs_nth _ _ H i j r q L A B) as X. cbv beta in X. rewrite E, Z.eqb_refl in X.
  cbn in X. apply Z.ltb_lt in X. exact X.
Qed.
Lemma individuals_by : forall data, all_pairs (fun r q => Z.leb (r_id r) (r_id q)) data = true -> individuals_in_order data.
Proof.
  intros data H i j r q L A B. pose proof (all_pairs_nth _ _ H i j r q L A B) as X. cbv beta in X. apply Z.leb_le in X. exact X.
Qed.

Lemma good_accepted : (forall r, In r good -> 0 <= r_period r) /\ individuals_in_order good /\ in_order good /\
  same 1 = same 0 /\ incl (i_choices (the_info 2)) (same 0) /\
  check_estimation_data (the_info 2) same good = Ok tt.
Proof.
  split; [apply nonneg_by; reflexivity|]. split; [apply individuals_by; reflexivity|]. split; [apply in_order_by; reflexivity|].
  split; [reflexivity|]. split; [apply incl_refl|]. vm_compute. reflexivity.
Qed.

Lemma single_lag_refuted : exists m categories data r q,
  (forall r, In r data -> 0 <= r_period r) /\ individuals_in_order data /\ in_order data /\
  categories 1%nat = categories 0%nat /\ incl (i_choices m) (categories 0%nat) /\ i_lags m = 1%nat /\
  check_estimation_data m categories data = Ok tt /\ next_period data r q /\ choice_column 1 q <> r_choice r.
Proof.
  exists (the_info 1), same, bad_lag, (observation 0 0 a [home] 0), (observation 0 1 home [home] 1).
  split; [apply nonneg_by; reflexivity|]. split; [apply individuals_by; reflexivity|]. split; [apply in_order_by; reflexivity|].
  split; [reflexivity|]. split; [apply incl_refl|]. split; [reflexivity|]. split; [vm_compute; reflexivity|].
  split; [repeat split; cbn; auto|discriminate].
Qed.

Lemma order_refuted : exists m categories data,
  (forall r, In r data -> 0 <= r_period r) /\ individuals_in_order data /\
  categories 1%nat = categories 0%nat /\ incl (i_choices m) (categories 0%nat) /\
  check_estimation_data m categories data = Ok tt /\ ~ experience_follows m data.
Proof.
  exists (the_info 1), same, unordered.
  split; [apply nonneg_by; reflexivity|]. split; [apply individuals_by; reflexivity|].
  split; [reflexivity|]. split; [apply incl_refl|]. split; [vm_compute; reflexivity|].
  intros H. destruct (H (observation 0 0 a [home] 1) (observation 0 1 a [home] 0) 0%nat "a") as [e [E [X _]]].
  - repeat split; cbn; auto.
  - reflexivity.
  - specialize (X eq_refl). cbn in E, X. inversion E. inversion X. lia.
Qed.

Lemma negative_refuted : exists m categories data,
  individuals_in_order data /\ in_order data /\ categories 1%nat = categories 0%nat /\ incl (i_choices m) (categories 0%nat) /\
  check_estimation_data m categories data = Ok tt /\
  exists r, In r data /\ r_period r < 0 /\ ~ exists q, In q data /\ r_period q = 0.
Proof.
  exists (the_info 1), same, negative.
  split; [apply individuals_by; reflexivity|]. split; [apply in_order_by; reflexivity|].
  split; [reflexivity|]. split; [apply incl_refl|]. split; [vm_compute; reflexivity|].
  eexists. split; [left; reflexivity|]. split; [reflexivity|].
  intros [q [[<-|[<-|[]]] E]]; cbn in E; discriminate.
Qed.

Lemma next_good : forall r q, next_period good r q ->
  (r = nth 0 good r /\ q = nth 1 good q) \/ (r = nth 1 good r /\ q = nth 2 good q).
Proof.
  intros r q [R [Q [E1 E2]]]. cbn in R, Q.
  destruct R as [<-|[<-|[<-|[<-|[]]]]], Q as [<-|[<-|[<-|[<-|[]]]]]; cbn in E1, E2; try lia; cbn; auto.
Qed.
Lemma three_lags_refuted : exists m categories data,
  (forall r, In r data -> 0 <= r_period r) /\ individuals_in_order data /\ in_order data /\
  (forall i, categories i = i_choices m) /\
  values_ok m data /\ complete_panel m data /\ experience_follows m data /\ lags_follow m data /\
  check_estimation_data m categories data = ValueError.
Proof.
  exists (the_info 3), same, good.
  assert (A2 : check_estimation_data (the_info 0) same good = Ok tt) by (vm_compute; reflexivity).
  destruct good_accepted as [NN [IO [O [SM [INC A]]]]].
  pose proof (proj1 (accepted_iff (the_info 2) same good NN IO O SM INC) A) as [V [C [E _]]].
  split; [exact NN|]. split; [exact IO|]. split; [exact O|]. split; [reflexivity|]. split; [|split; [exact C|split; [exact E|split]]].
  - destruct V as [V1 V2]. split; [|exact V2]. intros r I. destruct (V1 r I) as [U1 [U2 [U3 [U4 U5]]]].
    split; [exact U1|]. split; [exact U2|]. split; [|split; [exact U4|exact U5]].
    intros i Hi. cbn in Hi. assert (X : i = 3%nat \/ (1 <= i <= 2)%nat) by lia. destruct X as [->|X]; [|apply U3; exact X].
    cbn in I. destruct I as [<-|[<-|[<-|[<-|[]]]]]; eexists; (split; [|reflexivity]); cbn; auto.
  - intros r q i NX Hi. cbn in Hi. apply next_good in NX.
    assert (X : i = 0%nat \/ i = 1%nat \/ i = 2%nat) by lia.
    destruct NX as [[-> ->]|[-> ->]], X as [->|[->| ->]]; reflexivity.
  - vm_compute. reflexivity.
Qed.

Lemma categories_refuted : exists m categories data,
  (forall r, In r data -> 0 <= r_period r) /\ individuals_in_order data /\ in_order data /\ i_lags m = 2%nat /\
  (forall i c, In c (categories i) <-> In c (i_choices m)) /\
  values_ok m data /\ complete_panel m data /\ experience_follows m data /\ first_lag_follows data /\
  check_estimation_data m categories data = OtherError.
Proof.
  exists (the_info 2), (fun i => match i with 1%nat => ["home"; "a"] | _ => ["a"; "home"] end), good.
  destruct good_accepted as [NN [IO [O [SM [INC A]]]]].
  pose proof (proj1 (accepted_iff (the_info 2) same good NN IO O SM INC) A) as [V [C [E [L _]]]].
  split; [exact NN|]. split; [exact IO|]. split; [exact O|]. split; [reflexivity|]. split; [intros [|[|i]] c; cbn; tauto|].
  split; [exact V|]. split; [exact C|]. split; [exact E|]. split; [apply L; cbn; lia|]. vm_compute. reflexivity.
Qed.

Definition working (w : option R) : list row := [ mkRow 0 0 a w [home; home] [Some 0] [Some (Number 0)] (Some 1) ].
Lemma simulated_example : check_simulated_data (the_info 2) same (working (Some 1%R)) = Ok tt /\
  check_estimation_data (the_info 2) same (working None) = Ok tt /\
  check_simulated_data (the_info 2) same (working None) = OtherError.
Proof.
  split; [|split; vm_compute; reflexivity].
  apply simulated_iff; [discriminate|]. split; [|split].
  - apply check_data_iff. assert (A : check_estimation_data (the_info 2) same (working None) = Ok tt) by (vm_compute; reflexivity).
    apply check_data_iff in A. destruct A as [[V1 V2] [A1 [A2 [A3 [A4 [A5 A6]]]]]].
    split; [|split; [exact A1|split; [|split; [|split; [exact A4|split; [exact A5|exact A6]]]]]].
    + split; [|intros j n N levels ND H; apply (V2 j n N levels ND); intros l I; destruct (H l I) as [r [[<-|[]] X]];
               eexists; (split; [left; reflexivity|exact X])].
      intros r [<-|[]]. destruct (V1 _ (or_introl eq_refl)) as [U1 [_ [U3 [U4 U5]]]].
      split; [exact U1|]. split; [intros w E; inversion E; lra|]. split; [exact U3|]. split; [exact U4|exact U5].
    + intros r [<-|[]]. cbn. lia.
    + intros P i H. cbn in H. assert (i = 0%nat) by lia. subst i. vm_compute. reflexivity.
  - intros _. split.
    + intros r [<-|[]]. exists 1. split; [reflexivity|cbn; lia].
    + intros r q [<-|[]] [<-|[]] _. reflexivity.
  - intros r [<-|[]]. split; intros _; [exists "a"|exists 1%R]; cbn; auto.
Qed.
