(** Proofs about the processing of data for the estimation. *)
From Coq Require Import List Arith ZArith Bool String Reals Lia Permutation FinFun.
From Verif Require Import Base Proof_Base Model_CoreStateSpace Spec_CoreStateSpace
  Model_StateSpace Spec_StateSpace Proof_StateSpace Model_Cache Model_Choices Proof_Choices Proof_Labels Model_Processing
  Model_Parallel Spec_Parallel Model_Solve Model_Simulate Model_Dataset Spec_Dataset.
From Verif Require Model_Data.
Import ListNotations.
Open Scope list_scope.
Open Scope nat_scope.

Lemma natural_Ok : forall z n, natural z = Ok n -> z = Some (Z.of_nat n).
Proof.
  intros [z|] n H; simpl in H; [|discriminate]. destruct (Z.leb_spec 0 z); [|discriminate].
  injection H as <-. rewrite Z2Nat.id by assumption. reflexivity.
Qed.

Lemma label_to_code_Ok : forall levels v i, NoDup levels -> List.length levels <= 256 ->
  (forall n, v = Number n -> In v levels) -> label_to_code levels v = Ok i -> nth_error levels i = Some v.
Proof.
  intros levels v i ND L HN H.
  assert (I : In v levels).
  { destruct v as [s|n]; [|apply (HN n eq_refl)].
    destruct (in_dec level_eq_dec (Label s) levels) as [I|I]; [exact I|].
    rewrite label_to_code_unknown in H by exact I. discriminate. }
  apply In_nth_error in I. destruct I as [j Hj].
  rewrite (label_to_code_known levels j v ND Hj) in H.
  assert (j < List.length levels) by (apply nth_error_Some; congruence). rewrite Nat.mod_small in H by lia. congruence.
Qed.

Lemma coded_choice_Ok : forall lb c i, NoDup (lb_choices lb) -> List.length (lb_choices lb) <= 256 ->
  coded_choice lb c = Ok i -> exists name, c = Some name /\ nth_error (lb_choices lb) i = Some name.
Proof.
  intros lb [c|] i ND L H; [|discriminate]. exists c. split; [reflexivity|]. unfold coded_choice in H.
  apply label_to_code_Ok in H.
  - rewrite nth_error_map in H. destruct (nth_error (lb_choices lb) i) as [s|]; [|discriminate]. simpl in H. congruence.
  - apply Injective_map_NoDup; [|exact ND]. intros a b E. congruence.
  - rewrite map_length. exact L.
  - intros n E. discriminate.
Qed.

Lemma all_seq : forall B (f : nat -> result B) n xs, result_all (map f (seq 0 n)) = Ok xs ->
  List.length xs = n /\ forall i, i < n -> exists b, nth_error xs i = Some b /\ f i = Ok b.
Proof.
  intros B f n xs H. apply result_all_map_Ok in H.
  assert (L : List.length xs = n) by (rewrite <- (seq_length n 0); symmetry; clear - H; induction H; simpl; congruence).
  split; [exact L|]. intros i Hi.
  assert (G : forall l, Forall2 (fun a x => f a = Ok x) l xs -> forall j a, nth_error l j = Some a -> exists b, nth_error xs j = Some b /\ f a = Ok b).
  { clear. intros l F. induction F as [|a x l xs Hax F IH]; intros [|j] y Hy; try discriminate.
    - injection Hy as <-. exists x. auto.
    - exact (IH j y Hy). }
  apply (G _ H). rewrite nth_error_nth' with (d := 0) by (rewrite seq_length; exact Hi). rewrite seq_nth by exact Hi. reflexivity.
Qed.

Lemma all_enumerate : forall A B (f : nat * A -> result B) l xs, result_all (map f (enumerate l)) = Ok xs ->
  List.length xs = List.length l /\ forall i a, nth_error l i = Some a -> exists b, nth_error xs i = Some b /\ f (i, a) = Ok b.
Proof.
  intros A B f l xs H. apply result_all_map_Ok in H.
  assert (G : forall l, Forall2 (fun a x => f a = Ok x) l xs -> List.length xs = List.length l /\
     forall j a, nth_error l j = Some a -> exists b, nth_error xs j = Some b /\ f a = Ok b).
  { clear. intros l F. induction F as [|a x l xs Hax F [IL IH]]; [split; [reflexivity|intros [|j]; discriminate]|].
    split; [simpl; congruence|]. intros [|j] y Hy.
    - injection Hy as <-. exists x. auto.
    - exact (IH j y Hy). }
  destruct (G _ H) as [GL GN]. split.
  - rewrite GL. unfold enumerate. clear. generalize 0. induction l as [|a l IH]; intros k; simpl; [reflexivity|]. f_equal. apply IH.
  - intros i a Ha. apply GN. rewrite nth_error_enumerate, Ha. reflexivity.
Qed.

Lemma bind_Ok : forall A B (r : result A) (f : A -> result B) b, result_bind r f = Ok b -> exists a, r = Ok a /\ f a = Ok b.
Proof. intros A B [a| | | | |] f b H; simpl in H; try discriminate. exists a. auto. Qed.

Lemma row_meaning : forall lb r c, proper_labels lb -> numbers_are_levels lb r -> process_row lb r = Ok c -> same_meaning lb r c.
Proof.
  intros lb r c [[ND L] PL] NL H. unfold process_row in H.
  apply bind_Ok in H. destruct H as [id [H1 H]]. apply bind_Ok in H. destruct H as [period [H2 H]].
  apply bind_Ok in H. destruct H as [choice [H3 H]]. apply bind_Ok in H. destruct H as [lags [H4 H]].
  apply bind_Ok in H. destruct H as [exps [H5 H]]. apply bind_Ok in H. destruct H as [obs [H6 H]]. injection H as <-.
  apply natural_Ok in H1. apply natural_Ok in H2. injection H1 as H1. injection H2 as H2.
  apply coded_choice_Ok in H3; [|exact ND|exact L].
  apply all_seq in H4. apply all_seq in H5. apply all_enumerate in H6.
  destruct H4 as [L4 H4]. destruct H5 as [L5 H5]. destruct H6 as [L6 H6].
  constructor; cbn [fst snd cd_core cd_obs cd_choice cd_wage cs_lag cs_exp cs_period].
  - exact H1.
  - auto.
  - exact H3.
  - split; [rewrite map_length; exact L4|]. intros i Hi. destruct (H4 i Hi) as [b [B1 B2]].
    apply coded_choice_Ok in B2; [|exact ND|exact L]. destruct B2 as [name [N1 N2]].
    exists name, b. split; [exact N1|]. split; [rewrite nth_error_map, B1; reflexivity|exact N2].
  - split; [exact L5|]. intros i Hi. destruct (H5 i Hi) as [b [B1 B2]]. apply natural_Ok in B2. eauto.
  - split; [exact L6|]. intros i levels Hl. destruct (H6 i levels Hl) as [b [B1 B2]]. cbn [fst snd] in B2.
    unfold coded_observable in B2. destruct (nth i (Model_Data.r_obs r) None) as [v|] eqn:E; [|discriminate].
    destruct (PL levels (nth_error_In _ _ Hl)) as [PD PLn].
    exists v, b. split; [reflexivity|]. split; [exact B1|]. apply (label_to_code_Ok levels v b PD PLn); [|exact B2].
    intros n ->. exact (NL i levels n Hl E).
  - reflexivity.
Qed.

Lemma data_meaning : forall lb data df, proper_labels lb -> (forall r, In r data -> numbers_are_levels lb r) ->
  process_data lb data = Ok df ->
  exists rows, Forall2 (same_meaning lb) data rows /\ Permutation rows df.
Proof.
  intros lb data df PL NL H. unfold process_data in H. apply bind_Ok in H. destruct H as [rows [H E]]. injection E as <-.
  exists rows. split.
  - apply result_all_map_Ok in H. induction H as [|r c data rows Hr H IH]; constructor.
    + apply row_meaning; [exact PL|apply NL; left; reflexivity|exact Hr].
    + apply IH. intros q Hq. apply NL. right. exact Hq.
  - unfold sort_index. symmetry. apply Permutation_isort.
Qed.

Lemma estimation_meaning : forall lb sp csf grid categories data df locations,
  proper_labels lb -> (forall r, In r data -> numbers_are_levels lb r) ->
  prepare_estimation lb sp csf grid categories data = Ok (df, locations) ->
  exists rows, Forall2 (same_meaning lb) data rows /\ Permutation rows df.
Proof.
  intros lb sp csf grid categories data df locations PL NL H. unfold prepare_estimation in H.
  apply bind_Ok in H. destruct H as [u [_ H]]. apply bind_Ok in H. destruct H as [df' [H E]].
  apply bind_Ok in E. destruct E as [l [_ E]]. injection E as <- _. apply data_meaning; assumption.
Qed.

(** Rows without a meaning are rejected. *)
Lemma process_rejected : forall lb data r,
  In r data -> meaningless lb r ->
  forall df, process_data lb data <> Ok df.
Proof.
  intros lb data r Hr BAD df H. unfold process_data in H. apply bind_Ok in H. destruct H as [rows [H _]].
  apply result_all_map_Ok in H.
  assert (X : exists c, process_row lb r = Ok c).
  { clear BAD. induction H as [|q c data rows Hq H IH]; [destruct Hr|]. destruct Hr as [<-|Hr]; eauto. }
  destruct X as [c X]. unfold process_row in X.
  apply bind_Ok in X. destruct X as [id [H1 X]]. apply bind_Ok in X. destruct X as [period [H2 X]].
  apply bind_Ok in X. destruct X as [choice [H3 X]]. apply bind_Ok in X. destruct X as [lags [H4 X]].
  apply bind_Ok in X. destruct X as [exps [H5 X]]. apply bind_Ok in X. destruct X as [obs [H6 _]].
  apply natural_Ok in H1. apply natural_Ok in H2. injection H1 as H1. injection H2 as H2.
  apply all_seq in H4. apply all_seq in H5. apply all_enumerate in H6.
  destruct H4 as [_ H4]. destruct H5 as [_ H5]. destruct H6 as [_ H6].
  destruct BAD as [B|[[x [B1 B2]]|[B|[B|[[i [e [B1 [B2 B3]]]]|[[i [B1 B2]]|[[i [B1 B2]]|[i [levels [B1 B2]]]]]]]]]].
  - rewrite B in H3. discriminate.
  - rewrite B1 in H3. unfold coded_choice in H3. rewrite label_to_code_unknown in H3; [discriminate|].
    intros I. apply in_map_iff in I. destruct I as [y [E I]]. injection E as ->. contradiction.
  - lia.
  - lia.
  - destruct (H5 i B1) as [b [_ Q]]. apply natural_Ok in Q. rewrite B2 in Q. injection Q as Q. lia.
  - destruct (H5 i B1) as [b [_ Q]]. rewrite B2 in Q. discriminate.
  - destruct (H4 i B1) as [b [_ Q]]. rewrite B2 in Q. discriminate.
  - destruct (H6 i levels B1) as [b [_ Q]]. cbn [fst snd] in Q. rewrite B2 in Q. discriminate.
Qed.

Lemma estimation_rejected : forall lb sp csf grid categories data r,
  In r data -> meaningless lb r -> forall out, prepare_estimation lb sp csf grid categories data <> Ok out.
Proof.
  intros lb sp csf grid categories data r Hr BAD out H. unfold prepare_estimation in H.
  apply bind_Ok in H. destruct H as [u [_ H]]. apply bind_Ok in H. destruct H as [df [H _]].
  exact (process_rejected lb data r Hr BAD df H).
Qed.

(** A number which is not a level. *)
Definition fish_labels : labels := mkLabels 1 ["home"%string] 0 0 0 [[Number 10; Number 20]] 1.
Definition fish_row (v : level) : Model_Data.row :=
  Model_Data.mkRow 0 0 (Some "home"%string) None [] [] [Some v] None.
Definition fish_sp : core_spec := mkSpec 1 [] [] 1 0 [].
Lemma unknown_number : exists lb sp csf grid categories r df locations c,
  proper_labels lb /\ prepare_estimation lb sp csf grid categories [r] = Ok (df, locations) /\ In c df /\
  nth 0 (Model_Data.r_obs r) None = Some (Number 1) /\ nth_error (lb_observables lb) 0 = Some [Number 10; Number 20] /\
  nth_error (cd_obs (snd c)) 0 = Some 1 /\ nth_error [Number 10; Number 20] 1 = Some (Number 20).
Proof.
  exists fish_labels, fish_sp, (choice_set_of fish_sp (process fish_sp 1 (fun _ => None))), (dense_state_space_grid [2] 1),
    (simulated_categories fish_labels), (fish_row (Number 1)).
  do 3 eexists. split.
  { constructor.
    - split; [repeat constructor; intros []|simpl; lia].
    - intros l [<-|[]]. split; [|simpl; lia]. constructor; [intros [E|[]]; discriminate|]. constructor; [intros []|constructor]. }
  split; [vm_compute; reflexivity|]. split; [left; reflexivity|]. repeat split.
Qed.

(** The data set with the level in place of the number. *)
Lemma fish_proper : proper_labels fish_labels.
Proof.
  constructor.
  - split; [repeat constructor; intros []|simpl; lia].
  - intros l [<-|[]]. split; [|simpl; lia]. constructor; [intros [E|[]]; discriminate|]. constructor; [intros []|constructor].
Qed.
Lemma fish_levels : forall r, In r [fish_row (Number 20)] -> numbers_are_levels fish_labels r.
Proof.
  intros r [<-|[]] [|[|i]] levels n H1 H2; simpl in *; try discriminate; try (destruct i; discriminate).
  injection H1 as <-. injection H2 as <-. right. left. reflexivity.
Qed.
Lemma fish_prepared : exists df locations,
  prepare_estimation fish_labels fish_sp (choice_set_of fish_sp (process fish_sp 1 (fun _ => None))) (dense_state_space_grid [2] 1)
    (simulated_categories fish_labels) [fish_row (Number 20)] = Ok (df, locations) /\ df <> [].
Proof. do 2 eexists. split; [vm_compute; reflexivity|discriminate]. Qed.
