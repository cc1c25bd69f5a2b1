(** Two individuals of the data of Keane and Wolpin. *)
From Coq Require Import List Arith ZArith Bool String Reals Lra Lia.
From Verif Require Import Base Model_Strings Model_Choices Model_Data Model_KW97 Spec_Data Spec_KW97 Proof_Base Proof_KW97.
Import ListNotations.
Open Scope string_scope.
Open Scope Z_scope.

Definition kw_info : info :=
  mkInfo 3 ["white_collar"; "school"; "home"] ["white_collar"] ["white_collar"; "school"] 1 [] 1.
Definition kw_rows (i : Z) (first : Z) : list raw :=
  [mkRaw i 15 first (Some "1") None; mkRaw i 16 (first + 1) (Some "1") None; mkRaw i 17 (first + 2) (Some "3") (Some 7%R); mkRaw i 18 (first + 2) (Some "2") None].
Definition kw_file : list raw := (kw_rows 6 10 ++ kw_rows 9 8)%list.
Definition kw_categories (_ : nat) : list string := ["white_collar"; "school"; "home"].

Lemma small_people : forall file n, Nat.leb (List.length (drop_duplicates Z.eq_dec (map w_id file))) n = true ->
  Z.of_nat n <= 65536 -> few_people file.
Proof.
  intros file n H B ids N I. apply Nat.leb_le in H.
  assert (L : (List.length ids <= List.length (drop_duplicates Z.eq_dec (map w_id file)))%nat).
  { apply NoDup_incl_length; [exact N|]. intros i J. apply In_drop_duplicates, in_map_iff. destruct (I i J) as [w [W E]]. exists w. auto. }
  lia.
Qed.
Ltac each H := repeat (destruct H as [<-|H]; [|]); try (destruct H; fail).
Lemma kw_regular : regular_file kw_info kw_file.
Proof.
  constructor.
  - apply (small_people _ 2); [reflexivity|lia].
  - intros a b v w L A B.
    do 8 (destruct a as [|a]; [do 8 (destruct b as [|b]; [try lia; cbn in A, B; injection A as <-; injection B as <-; cbn; lia|]); destruct b; discriminate|]).
    destruct a; discriminate.
  - intros w I. cbn in I. repeat (destruct I as [<-|I]; [first [exists (nth 1 kw_file (mkRaw 0 0 0 None None)); cbn; split; [tauto|split; reflexivity]
      | exists (nth 5 kw_file (mkRaw 0 0 0 None None)); cbn; split; [tauto|split; reflexivity]]|]). destruct I.
  - intros w I A. apply In_nth_error in I. destruct I as [k K]. exists (nth (k - 1) kw_file (mkRaw 0 0 0 None None)).
    do 8 (destruct k as [|k]; [cbn in K; injection K as <-; cbn in A; first [lia | cbn; split; [tauto|split; reflexivity]]|]). destruct k; discriminate.
  - intros w I. cbn in I. repeat (destruct I as [<-|I]; [cbn; lia|]). destruct I.
  - intros _ w I. cbn in I. repeat (destruct I as [<-|I]; [first [exists (nth 0 kw_file (mkRaw 0 0 0 None None)); cbn; split; [tauto|split; reflexivity]
      | exists (nth 4 kw_file (mkRaw 0 0 0 None None)); cbn; split; [tauto|split; reflexivity]]|]). destruct I.
  - intros w I. cbn in I.
    repeat (destruct I as [<-|I]; [first
      [exists "school"; split; [cbn; tauto|exists "1"; split; [reflexivity|unfold stands_for; tauto]]
      |exists "white_collar"; split; [cbn; tauto|exists "3"; split; [reflexivity|unfold stands_for; tauto]]
      |exists "home"; split; [cbn; tauto|exists "2"; split; [reflexivity|unfold stands_for; tauto]]]|]). destruct I.
  - intros w x I E. cbn in I. repeat (destruct I as [<-|I]; [cbn in E; first [discriminate | injection E as <-; lra]|]). destruct I.
  - intros _ v w V W I A B.
    assert (C : forall u, chose u "school" <-> decode (w_code u) = Some "school") by (intros u; symmetry; apply decode_ok).
    rewrite !C. clear C. cbn in V, W.
    repeat (destruct V as [<-|V]; [repeat (destruct W as [<-|W]; [cbn in I, A, B |- *; first [lia | split; intros X; first [reflexivity | discriminate X | exfalso; apply X; reflexivity]]|]); destruct W|]).
    destruct V.
Qed.
Lemma kw_usual : usual_choices (i_wage_choices kw_info) (i_exp_choices kw_info).
Proof. split; intros c I; cbn in *; tauto. Qed.
Lemma kw_prepared : exists data, create_kw_97 (i_wage_choices kw_info) (i_exp_choices kw_info) 1 [] kw_file = Ok data /\
  map (fun r => (r_id r, r_period r, r_choice r, r_lags r, r_exps r)) data =
  [(0, 0, Some "school", [Some "school"], [Some 0; Some 11]); (0, 1, Some "white_collar", [Some "school"], [Some 0; Some 12]);
   (0, 2, Some "home", [Some "white_collar"], [Some 1; Some 12]);
   (1, 0, Some "school", [Some "school"], [Some 0; Some 9]); (1, 1, Some "white_collar", [Some "school"], [Some 0; Some 10]);
   (1, 2, Some "home", [Some "white_collar"], [Some 1; Some 10])].
Proof. eexists. split; [cbv; reflexivity|]. reflexivity. Qed.

(** Individuals are numbered before the rows before the age of 16 are dropped. *)
Definition kw_short : list raw := mkRaw 6 15 10 (Some "1") None :: kw_rows 9 8.
Lemma only_fifteen : exists m file data, (forall categories, check_estimation_data m categories data = OtherError) /\
  usual_choices (i_wage_choices m) (i_exp_choices m) /\
  create_kw_97 (i_wage_choices m) (i_exp_choices m) (i_lags m) [] file = Ok data /\
  (exists w rest, file = w :: rest /\ w_age w = 15 /\ exists data', create_kw_97 (i_wage_choices m) (i_exp_choices m) (i_lags m) [] rest = Ok data' /\
     check_estimation_data m kw_categories data' = Ok tt).
Proof.
  exists kw_info, kw_short. eexists. split; [|split; [exact kw_usual|split; [cbv -[Rlt_dec IZR]; reflexivity|]]].
  - intros categories. reflexivity.
  - exists (mkRaw 6 15 10 (Some "1") None), (kw_rows 9 8). split; [reflexivity|]. split; [reflexivity|]. eexists. split; [cbv -[IZR]; reflexivity|].
    cbv -[Rlt_dec IZR]. destruct (Rlt_dec 0 7); [reflexivity|lra].
Qed.
(** The choice at the age of 15 is necessary for models with a lagged choice. *)
Lemma without_fifteen : exists m file data, i_lags m = 1%nat /\ (forall categories, check_estimation_data m categories data = OtherError) /\
  usual_choices (i_wage_choices m) (i_exp_choices m) /\
  create_kw_97 (i_wage_choices m) (i_exp_choices m) (i_lags m) [] file = Ok data /\
  (exists w file', w_age w = 15 /\ file' = w :: file /\ regular_file m file').
Proof.
  assert (R : regular_file kw_info (kw_rows 9 8)).
  { constructor.
    - apply (small_people _ 1); [reflexivity|lia].
    - intros a b v w L A B.
      do 4 (destruct a as [|a]; [do 4 (destruct b as [|b]; [try lia; cbn in A, B; injection A as <-; injection B as <-; cbn; lia|]); destruct b; discriminate|]).
      destruct a; discriminate.
    - intros w I. cbn in I. repeat (destruct I as [<-|I]; [exists (nth 1 (kw_rows 9 8) (mkRaw 0 0 0 None None)); cbn; split; [tauto|split; reflexivity]|]). destruct I.
    - intros w I A. apply In_nth_error in I. destruct I as [k K]. exists (nth (k - 1) (kw_rows 9 8) (mkRaw 0 0 0 None None)).
      do 4 (destruct k as [|k]; [cbn in K; injection K as <-; cbn in A; first [lia | cbn; split; [tauto|split; reflexivity]]|]). destruct k; discriminate.
    - intros w I. apply (file_ages _ _ kw_regular). apply in_or_app. right. exact I.
    - intros _ w I. cbn in I. repeat (destruct I as [<-|I]; [exists (nth 0 (kw_rows 9 8) (mkRaw 0 0 0 None None)); cbn; split; [tauto|split; reflexivity]|]). destruct I.
    - intros w I. apply (file_choices _ _ kw_regular). apply in_or_app. right. exact I.
    - intros w x I. apply (file_wages _ _ kw_regular). apply in_or_app. right. exact I.
    - intros Sc v w V W. apply (file_school _ _ kw_regular Sc); apply in_or_app; right; assumption. }
  exists kw_info, (tl (kw_rows 9 8)). eexists. split; [reflexivity|]. split; [|split; [exact kw_usual|split; [cbv -[Rlt_dec IZR]; reflexivity|]]].
  - intros categories. cbv -[Rlt_dec IZR]. destruct (Rlt_dec 0 7); [reflexivity|lra].
  - exists (hd (mkRaw 0 0 0 None None) (kw_rows 9 8)), (kw_rows 9 8). split; [reflexivity|]. split; [reflexivity|exact R].
Qed.
