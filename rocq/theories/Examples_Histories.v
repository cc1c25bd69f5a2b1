(** Concrete cases for the theorems of Props_Histories.v. *)
From Coq Require Import List Arith Bool Reals Lra Lia Sorting.Permutation.
From Verif Require Import Base Proof_Base Model_Parallel Model_CoreStateSpace Model_StateSpace Model_Solve Spec_Solve
  Model_ConditionalDraws Spec_ConditionalDraws Proof_Matrix Proof_ConditionalDraws
  Model_Likelihood Spec_Likelihood Proof_Likelihood Proof_LikelihoodRows Proof_LikelihoodPanel
  Examples_Likelihood Spec_Histories Proof_Histories.
Import ListNotations.
Open Scope R_scope.

(** Two choices in the first period; someone who takes the second one has to take the first
    one afterwards.  Two types: the keys 0 and 1 belong to states with both choices, the keys
    2 and 3 to states with one choice.  Only the second type likes the second choice. *)
Definition eh_lk : like_spec := mkLikeSpec ex_chol 0 [0; 0] false (95 / 100) 1.
Definition eh_env : like_env :=
  mkLikeEnv (fun k => [true; Nat.ltb k 2]) (fun k _ => if Nat.ltb k 2 then [1; 1] else [1])
            (fun k _ => if Nat.ltb k 2 then [0; INR k] else [1]) (fun k _ => if Nat.ltb k 2 then [0; 0] else [0])
            (fun _ _ => [[0; 0]]).
Definition eh_spent (past : list nat) : bool := existsb (Nat.eqb 1) past.
Definition eh_place (past : list nat) (t : nat) : nat * nat := ((t + if eh_spent past then 2 else 0)%nat, 0%nat).
Definition eh_choice_set (past : list nat) : list bool := [true; negb (eh_spent past)].

Lemma eh_histories : histories (fun past => positions (eh_choice_set past)) 2 [] = [[0; 0]; [0; 1]; [1; 0]]%nat.
Proof. reflexivity. Qed.

Lemma eh_tree : proper_tree eh_lk eh_env 2 eh_place eh_choice_set 2.
Proof.
  split.
  - intros past t _ _ Ht. unfold eh_place, eh_choice_set. cbn [fst snd eh_env le_choice_set le_wages le_nonpec le_cont le_draws].
    destruct (eh_spent past); assert (t = 0%nat \/ t = 1%nat) as [->| ->] by lia; cbn; repeat split; discriminate.
  - intros past past' t t' Ht Ht' E. cbn [eh_place fst] in E. destruct (eh_spent past), (eh_spent past'); lia.
Qed.

Lemma eh_unclipped : forall past t c j lc lw, (t < 2)%nat -> In c (positions (eh_choice_set past)) ->
  let k := fst (eh_place past t) in let pos := snd (eh_place past t) in
  row_loglikes cholesky lazy_qr eh_lk (le_choice_set eh_env k) (le_wages eh_env k pos) (le_nonpec eh_env k pos) (le_cont eh_env k pos) (le_draws eh_env k j) c None
    = Ok (lc, lw) -> - 10 ^ 200 < INR 2 * lc.
Proof.
  intros past t c j lc lw Ht Hc k pos E.
  assert (S : forall cs wages nonpec cont i code, length wages = count_true cs -> length nonpec = length wages -> length cont = length wages ->
    nth_error (positions cs) i = Some code ->
    row_loglikes cholesky lazy_qr eh_lk cs wages nonpec cont [[0; 0]] code None = Ok (lc, lw) ->
    (forall draws, draws = map (conditional_draw (length wages) 0 (fun _ => 0) (of_rows (subset_cholesky ex_chol cs))) [[0; 0]] ->
       1 / 4 <= smoothed_probability wages nonpec cont (95 / 100) draws 1 i) -> - 10 ^ 200 < INR 2 * lc).
  { intros cs wages nonpec cont i code L1 L2 L3 Hi E' B.
    destruct (row_none cholesky lazy_qr eh_lk cs wages nonpec cont [[0; 0]] L1 L2 L3 ltac:(discriminate) ltac:(cbn; lra)) as (draws & _ & Ed & H).
    destruct (H i code Hi) as (lp & El & Ep & Hl). rewrite E' in El. injection El as -> ->.
    cbn [eh_lk lk_nwages lk_chol lk_beta_delta lk_tau seq] in *.
    assert (Ev : select_valid_choices (@nil nat) cs = []) by (unfold select_valid_choices; reflexivity).
    rewrite Ev in Ed. specialize (B draws Ed). rewrite <- Ep in B.
    assert (Lb : - 4 <= lp).
    { apply Rnot_lt_le. intros X. apply exp_increasing in X. replace (-4) with (- (4)) in X by lra. rewrite exp_Ropp in X.
      assert (5 < exp 4) by (pose proof (exp_ineq1 4 ltac:(lra)); lra).
      assert (/ exp 4 < / 5) by (apply Rinv_lt_contravar; lra). lra. }
    assert (G : forall n, 1 <= 10 ^ n) by (induction n as [|n IH]; [simpl; lra|]; cbn [pow]; lra).
    assert (E2 : 10 ^ 200 = 10 * 10 ^ 199) by reflexivity. specialize (G 199%nat).
    assert (M : 10 <= max_float) by (unfold max_float; rewrite E2; lra).
    change (10 ^ 200) with max_float. generalize dependent max_float. intros mf. intros. cbn [INR].
    unfold clip, Rmin, Rmax. repeat destruct (Rle_dec _ _); lra. }
  assert (D0 : forall a b d, 0 + 0 * a = 0 /\ 0 + 0 * b + 0 * d = 0) by (intros; lra).
  assert (T : t = 0%nat \/ t = 1%nat) by lia. unfold k, pos, eh_place in E. cbn [fst snd eh_env le_choice_set le_wages le_nonpec le_cont le_draws] in E.
  unfold eh_choice_set in Hc. destruct (eh_spent past).
  - cbn in Hc. destruct Hc as [<-|[]].
    assert (Q : forall nonpec, length nonpec = 1%nat -> row_loglikes cholesky lazy_qr eh_lk [true; false] [1] nonpec [0] [[0; 0]] 0 None = Ok (lc, lw) ->
      - 10 ^ 200 < INR 2 * lc).
    { intros nonpec L E'. eapply (S [true; false] [1] nonpec [0] 0%nat 0%nat); try reflexivity; try exact L; [exact E'|].
      intros draws ->. unfold smoothed_probability, mean, choice_values, logit. cbn [map length seq nth]. unfold rsum. cbn [fold_right INR].
      match goal with |- context [exp ?a] => pose proof (exp_pos a); set (ea := exp a) in * end. 
      replace ((ea / (ea + 0) + 0) / 1) with 1 by (field; lra). lra. }
    destruct T as [->| ->]; cbn [Nat.add Nat.ltb Nat.leb INR] in E; apply (Q [1] eq_refl E).
  - assert (E1 : exp 1 <= 3) by apply exp_le_3. assert (E0 : 1 < exp 1) by (pose proof (exp_ineq1 1 ltac:(lra)); lra).
    assert (Q : forall a i, a = 0 \/ a = 1 -> (i < 2)%nat -> row_loglikes cholesky lazy_qr eh_lk [true; true] [1; 1] [0; a] [0; 0] [[0; 0]] i None = Ok (lc, lw) ->
      - 10 ^ 200 < INR 2 * lc).
    { intros a i Ha Hi E'. eapply (S [true; true] [1; 1] [0; a] [0; 0] i i); try reflexivity.
      - assert (i = 0%nat \/ i = 1%nat) as [->| ->] by lia; reflexivity.
      - exact E'.
      - intros draws ->. unfold smoothed_probability, mean, choice_values, logit, conditional_draw. cbn [map length seq nth Nat.ltb Nat.leb fold_left].
        unfold rsum. cbn [fold_right INR].
        repeat match goal with |- context [1 * (0 + 0 * ?u)] => replace (1 * (0 + 0 * u)) with 0 by ring end.
        repeat match goal with |- context [1 * (0 + 0 * ?u + 0 * ?v)] => replace (1 * (0 + 0 * u + 0 * v)) with 0 by ring end.
        replace ((0 + 0 + 95 / 100 * 0) / 1) with 0 by field. replace ((0 + a + 95 / 100 * 0) / 1) with a by field.
        rewrite exp_0. assert (Ba : 1 <= exp a <= 3) by (destruct Ha as [->| ->]; [rewrite exp_0|]; lra).
        assert (P : 0 < 1 + (exp a + 0)) by lra.
        assert (i = 0%nat \/ i = 1%nat) as [->| ->] by lia; cbn [nth]; rewrite ?exp_0; apply (Rmult_le_reg_r (1 + (exp a + 0))); try exact P;
        match goal with |- _ <= (?n / ?d + 0) / 1 * ?d => replace ((n / d + 0) / 1 * d) with n by (field; lra) end; lra. }
    assert (Hi : (c < 2)%nat) by (cbn in Hc; lia).
    destruct T as [->| ->]; cbn [Nat.add Nat.ltb Nat.leb INR] in E; [apply (Q 0 c (or_introl eq_refl) Hi E)|apply (Q 1 c (or_intror eq_refl) Hi E)].
Qed.

Lemma eh_probabilities : forall p, In p (logits (type_indices ex_params (ex_x 0))) -> - 10 ^ 200 <= ln p.
Proof. intros p. apply ex_probabilities. cbn. left. reflexivity. Qed.
