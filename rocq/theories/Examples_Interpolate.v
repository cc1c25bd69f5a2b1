(** Concrete objects used in the examples and refutations about the approximate solution. *)
From Coq Require Import List Arith Bool Reals Lra Lia.
From Verif Require Import Base Proof_Base Model_CoreStateSpace Spec_CoreStateSpace
  Proof_CoreStateSpace Model_StateSpace Spec_StateSpace Proof_StateSpace Props_StateSpace
  Model_Solve Spec_Solve Proof_Solve Model_ConditionalDraws 
  Model_Interpolate Spec_Interpolate Proof_Interpolate Proof_InterpolateSolve.
Import ListNotations.
Open Scope R_scope.

(** ** Random draws: the first (last) position with positive probability, the first
    positions. *)
Fixpoint first_positive (l : list R) : nat :=
  match l with [] => 0%nat | x :: r => if Rlt_dec 0 x then 0%nat else S (first_positive r) end.
Definition last_positive (l : list R) : nat := (length l - 1 - first_positive (rev l))%nat.

Lemma first_positive_spec : forall l, (forall x, In x l -> 0 <= x) -> 0 < rsum l ->
  exists p, nth_error l (first_positive l) = Some p /\ 0 < p.
Proof.
  induction l as [|x l IH]; intros H S.
  - unfold rsum in S. simpl in S. lra.
  - change (rsum (x :: l)) with (x + rsum l) in S. cbn [first_positive]. destruct (Rlt_dec 0 x) as [P|P].
    + exists x. split; [reflexivity|exact P].
    + cbn [nth_error]. apply IH; [intros; apply H; right; assumption|].
      specialize (H x (or_introl eq_refl)). lra.
Qed.

Lemma rsum_rev : forall l, rsum (rev l) = rsum l.
Proof.
  induction l as [|x l IH]; [reflexivity|]. cbn [rev].
  assert (A : forall a b, rsum (a ++ b) = rsum a + rsum b).
  { induction a as [|y a IHa]; intros b; [unfold rsum at 2; simpl; lra|].
    change (rsum ((y :: a) ++ b)) with (y + rsum (a ++ b)). rewrite IHa.
    change (rsum (y :: a)) with (y + rsum a). lra. }
  rewrite A, IH. change (rsum (x :: l)) with (x + rsum l). unfold rsum at 2. simpl. lra.
Qed.

Lemma draws_first : draws_position (fun _ => first_positive).
Proof. intros i probs H S. apply first_positive_spec; [exact H|lra]. Qed.

Lemma draws_last : draws_position (fun _ => last_positive).
Proof.
  intros i probs H S.
  destruct (first_positive_spec (rev probs)) as [p [E P]].
  - intros x Hx. apply H. apply in_rev. exact Hx.
  - rewrite rsum_rev. lra.
  - exists p. split; [|exact P]. unfold last_positive.
    assert (L := nth_error_lt _ _ _ _ E). rewrite rev_length in L.
    rewrite (nth_error_nth' probs 0) by lia. f_equal.
    apply (nth_error_nth _ _ 0) in E. rewrite rev_nth in E by exact L.
    rewrite <- E. f_equal. lia.
Qed.

Lemma draws_first_positions : draws_subset (fun _ size => seq 0 size).
Proof.
  intros n size H. split; [apply seq_NoDup|]. split; [apply seq_length|].
  intros i Hi. apply in_seq in Hi. lia.
Qed.

(** ** A model with four periods and one key per period *)
Definition int_sp : core_spec := mkSpec 4 [[0%nat]] [10%nat] 2 0 [].
Definition int_csf : cs_fun := choice_set_of int_sp (process int_sp 1 (fun _ => None)).
Definition int_ss : state_space := Eval vm_compute in
  get_ok (create_state_space 4 (create_core_state_space int_sp) int_csf []).
Lemma int_created : create_state_space 4 (create_core_state_space int_sp) int_csf [] = Ok int_ss.
Proof. vm_compute. reflexivity. Qed.
Definition int_inp (points : nat) : inputs :=
  mkInputs (mkParams (fun c => if Nat.eqb c 0 then Some [(0%nat, / 2)] else None)
                     (fun c => if Nat.eqb c 1 then Some [(0%nat, 1)] else None)
                     (19 / 20) [[1; 0]; [/ 2; 1]] 1)
    [0%nat; 1%nat] (fun _ s _ => INR (nth 0 (cs_exp s) 0%nat))
    (fun n p => [repeat 0 n; repeat 1 n]) points (fun _ _ => OtherError).
Definition int_oracle : interp_oracle :=
  mkInterpOracle (fun _ _ => first_positive) (fun _ _ size => seq 0 size) (fun _ _ => repeat 1 5).

Lemma int_sizes : map (fun p => map (key_size int_ss) (keys_in int_ss p)) (seq 0 4) =
  [[1%nat]; [2%nat]; [3%nat]; [4%nat]].
Proof. vm_compute. reflexivity. Qed.

Lemma int_available : forall d ctx s, dense_combination [] d ctx -> In s (create_core_state_space int_sp) ->
  exists c, available (int_csf ctx s) c.
Proof.
  intros d ctx s Dc Hs. exists 1%nat. destruct d as [d|]; [destruct Dc as [v [H _]]; destruct d; discriminate|].
  assert (E : ctx = None) by apply Dc. subst ctx.
  assert (A : forallb (fun s => match nth_error (int_csf None s) 1 with Some true => true | _ => false end)
                      (create_core_state_space int_sp) = true) by (vm_compute; reflexivity).
  rewrite forallb_forall in A. specialize (A s Hs). unfold available.
  destruct (nth_error _ 1) as [[|]|]; [reflexivity|discriminate|discriminate].
Qed.

(** ** Warnings *)
Lemma share_pos : forall n m, (0 < n)%nat -> (0 < m)%nat -> 0 < INR n / INR m.
Proof.
  intros n m Hn Hm. unfold Rdiv. apply Rmult_lt_0_compat; [apply lt_0_INR; exact Hn|].
  apply Rinv_0_lt_compat, lt_0_INR. exact Hm.
Qed.

Lemma first_of_two : forall a b t, (0 < a)%nat -> (0 < t)%nat ->
  first_positive [INR a / INR t; b] = 0%nat.
Proof.
  intros a b t Ha Ht. cbn [first_positive]. destruct (Rlt_dec 0 (INR a / INR t)) as [_|N]; [reflexivity|].
  exfalso. apply N. apply share_pos; assumption.
Qed.

Lemma last_of_two : forall a b t, (0 < b)%nat -> (0 < t)%nat ->
  last_positive [a; INR b / INR t] = 1%nat.
Proof.
  intros a b t Ha Ht. unfold last_positive. cbn [rev app length first_positive].
  destruct (Rlt_dec 0 (INR b / INR t)) as [_|N]; [reflexivity|].
  exfalso. apply N. apply share_pos; assumption.
Qed.

Lemma missing_warning :
  exists choose ns points ps, draws_position choose /\
    split_interpolation_points_evenly choose ns points = Ok (ps, false) /\ few_points ns ps.
Proof.
  exists (fun _ => last_positive), [300; 3]%nat, 5%nat, [2; 3]%nat. split; [exact draws_last|]. split.
  - unfold split_interpolation_points_evenly.
    change (map (fun n => if Nat.ltb 2 n then 2%nat else n) [300%nat; 3%nat]) with [2%nat; 2%nat].
    change (map (fun n => n - 2)%nat [300%nat; 3%nat]) with [298%nat; 1%nat].
    change (5 - 2 * length [300%nat; 3%nat])%nat with 1%nat. cbn [distribute_points].
    change (Nat.eqb (list_sum [298%nat; 1%nat]) 0) with false. cbn [map].
    rewrite last_of_two by (vm_compute; lia). cbn [nth_error set_nth result_bind last nth].
    destruct (Rlt_dec (INR 3 / INR 3) (1 / 100)) as [H|H]; [|reflexivity].
    exfalso. simpl in H. lra.
  - exists 0%nat, 300%nat, 2%nat. split; [reflexivity|]. split; [reflexivity|]. lia.
Qed.

Lemma needless_warning :
  exists choose ns points ps, draws_position choose /\
    split_interpolation_points_evenly choose ns points = Ok (ps, true) /\ ~ few_points ns ps.
Proof.
  exists (fun _ => first_positive), [300; 3]%nat, 7%nat, [5; 2]%nat. split; [exact draws_first|]. split.
  - unfold split_interpolation_points_evenly.
    change (map (fun n => if Nat.ltb 2 n then 2%nat else n) [300%nat; 3%nat]) with [2%nat; 2%nat].
    change (map (fun n => n - 2)%nat [300%nat; 3%nat]) with [298%nat; 1%nat].
    change (7 - 2 * length [300%nat; 3%nat])%nat with 3%nat. cbn [distribute_points].
    change (Nat.eqb (list_sum [298%nat; 1%nat]) 0) with false. cbn [map].
    rewrite first_of_two by (vm_compute; lia). cbn [nth_error set_nth].
    change (298 - 1)%nat with 297%nat.
    change (Nat.eqb (list_sum [297%nat; 1%nat]) 0) with false. cbn [map].
    rewrite first_of_two by (vm_compute; lia). cbn [nth_error set_nth].
    change (297 - 1)%nat with 296%nat.
    change (Nat.eqb (list_sum [296%nat; 1%nat]) 0) with false. cbn [map].
    rewrite first_of_two by (vm_compute; lia). cbn [nth_error set_nth result_bind last nth].
    destruct (Rlt_dec (INR 2 / INR 300) (1 / 100)) as [H|H]; [reflexivity|].
    exfalso. apply H. assert (E : INR 300 = 300) by (rewrite INR_IZR_INZ; reflexivity). rewrite E. simpl. lra.
  - intros [j [n [p [A [B C]]]]]. destruct j as [|[|[|j]]]; try discriminate; cbn in A, B;
      injection A as <-; injection B as <-; lia.
Qed.
