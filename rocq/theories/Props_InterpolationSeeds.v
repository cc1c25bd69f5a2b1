(** Property theorems: the seeds of the approximate solution. *)
From Coq Require Import List Arith Bool ZArith Reals Lra Lia.
From Verif Require Import Base Model_CoreStateSpace Model_StateSpace Spec_StateSpace Props_StateSpace Model_Solve Spec_Solve
  Model_Interpolate Spec_Interpolate Examples_Interpolate Model_Options Model_InterpolationSeeds Spec_InterpolationSeeds
  Proof_InterpolationSeedsMore Proof_Solve.
Import ListNotations.
Local Open Scope nat_scope.

(** ** C114 *)
(** The states which are simulated are fixed by the state space, the number of points and the
    seed of the user: they are the same for all parameters, all regressions and all calls. *)
Theorem C114_simulated_states : forall nchoices nperiods core csf grid ss points rn randint user,
  NoDup core -> closed_under_choices nperiods core csf -> collision_free core csf grid ->
  create_state_space nperiods core csf grid = Ok ss ->
  (forall s, In s core -> cs_period s < nperiods) ->
  (forall d ctx s, dense_combination grid d ctx -> In s core -> exists c, available (csf ctx s) c) ->
  (forall p, p < nperiods -> solved_exactly ss points p \/ interpolated_period ss points p) ->
  proper_numbers rn ->
  (let '(a, b, c) := user in 0 <= a < 2 ^ 32 /\ 0 <= b < 2 ^ 32 /\ 0 <= c < 2 ^ 32)%Z ->
  let start := (randint (fst (fst user)) 1000000 2000000 + 1000000)%Z in
  exists masks,
    (forall p, p < nperiods -> simulated_states ss points masks p) /\
    (forall p k n, p < nperiods -> interpolated_period ss points p -> seed_of_key ss points p k n ->
       forall r, r < key_size ss k ->
       (nth r (masks k) false = true <-> In r (rn_subset rn (start + Z.of_nat n) (key_size ss k) (count_true (masks k))))) /\
    forall inp ols opt ev0, wf_inputs nchoices csf inp -> in_points inp = points -> p_delta (in_params inp) <> 0%R ->
      so_user opt = user -> ev_shape ss ev0 ->
      exists ev opt', seeded_solve ss inp rn ols randint opt ev0 = Ok (ev, opt') /\ ev_shape ss ev /\
        (exists s e, so_iteration opt' = Some ((start + Z.of_nat (list_sum (map (seeds_of_period ss points) (seq 0 nperiods))))%Z, s, e)) /\
        forall k r s d ctx, located ss k r s d -> dense_combination grid d ctx ->
          exists v next, value_at ss ev s d v /\ successor_values nperiods ss ev (csf ctx s) s d next /\
            if nth r (masks k) false
            then v = simulated_value (model_problem csf inp ctx) (p_delta (in_params inp)) s next
            else above_mean_values inp ctx (csf ctx s) s next v.
Proof. exact seeded_solution. Qed.
Print Assumptions C114_simulated_states.

(** All seeds are different. *)
Theorem C114_different_seeds : forall ss points p q, p < ss_nperiods ss -> q < ss_nperiods ss ->
  interpolated_period ss points p -> interpolated_period ss points q ->
  (forall k k' n n', seed_of_key ss points p k n -> seed_of_key ss points q k' n' -> (p, k) <> (q, k') -> n <> n') /\
  (forall k n n', seed_of_key ss points p k n -> seed_of_distribution ss points q n' -> n <> n') /\
  (forall n n', seed_of_distribution ss points p n -> seed_of_distribution ss points q n' -> p <> q -> n <> n').
Proof. exact different_seeds. Qed.
Print Assumptions C114_different_seeds.

(** The model of C40, in which the last of four periods is interpolated; the numbers depend on
    the seed. *)
Example C114_example : exists rn,
  proper_numbers rn /\ rn_subset rn 0 4 2 <> rn_subset rn 1 4 2 /\
  interpolated_period int_ss 3 3 /\ solved_exactly int_ss 3 2 /\ seed_of_key int_ss 3 3 3 0 /\ seed_of_distribution int_ss 3 3 1 /\
  map (seeds_of_period int_ss 3) (seq 0 4) = [0; 0; 0; 2] /\ wf_inputs 2 int_csf (int_inp 3) /\ in_points (int_inp 3) = 3.
Proof.
  exists (mkRandomNumbers (fun _ _ => first_positive) (fun s n size => if Z.eqb s 0 then seq 0 size else seq (n - size) size)).
  split.
  - split; [intros s; exact draws_first|]. intros s n size H. cbn [rn_subset]. destruct (Z.eqb s 0).
    + split; [apply seq_NoDup|]. split; [apply seq_length|]. intros i Hi. apply in_seq in Hi. lia.
    + split; [apply seq_NoDup|]. split; [apply seq_length|]. intros i Hi. apply in_seq in Hi. lia.
  - split; [discriminate|]. split; [split; vm_compute; lia|]. split; [left; vm_compute; lia|].
    split; [exists 0; split; vm_compute; reflexivity|]. split; [vm_compute; reflexivity|]. split; [vm_compute; reflexivity|].
    split; [|reflexivity]. split; [reflexivity|split; [intros; reflexivity|reflexivity]].
Qed.
