(** C107: where the draws come from. *)
From Coq Require Import List Arith ZArith Bool Lia Strings.String Sorting.Permutation Reals.
From Verif Require Import Base Model_Draws Spec_Draws Spec_LikelihoodDraws Proof_Draws.
Import ListNotations.
Open Scope string_scope.
Open Scope list_scope.
Open Scope nat_scope.

(** The draws for the solution: every dense key has a table with one row per draw and one
    column per available choice.  For each number of available choices there is one seed, and
    the draws of all periods are consecutive numbers of its stream. *)
Theorem C107_random_draws_of_the_solution : forall A (src : sources A) order T n seed keys,
  (forall l, Permutation (order l) l) -> (forall k t cs, In (k, (t, cs)) keys -> t < T) -> NoDup (map fst keys) ->
  exists draws q, create_draws src order T n seed "random" keys = Ok draws /\ map fst draws = map fst keys /\
  (forall c c', number_occurs keys c -> number_occurs keys c' -> q c = q c' -> c = c') /\
  (forall c, number_occurs keys c -> q c < n_numbers keys) /\
  forall k t cs, In (k, (t, cs)) keys -> exists table, dict_get Nat.eq_dec k draws = Some table /\
    table_of n (count_true cs) table /\
    forall d j, d < n -> j < count_true cs ->
      entry table d j = Some (normal src (seed + Z.of_nat (q (count_true cs))) (position n (count_true cs) t d j)).
Proof. exact random_solution. Qed.
Print Assumptions C107_random_draws_of_the_solution.

(** No number is used twice. *)
Theorem C107_different_positions : forall n c t d j t' d' j', d < n -> d' < n -> j < c -> j' < c ->
  position n c t d j = position n c t' d' j' -> t = t' /\ d = d' /\ j = j'.
Proof. exact position_inj. Qed.
Print Assumptions C107_different_positions.

(** With Sobol and Halton sequences each draw of each period is one point of the sequence. *)
Theorem C107_points_of_the_solution : forall A (src : sources A) order T n seed name rule keys,
  (name = "sobol" /\ rule = "S") \/ (name = "halton" /\ rule = "H") -> installed src = true ->
  (forall l, Permutation (order l) l) -> (forall k t cs, In (k, (t, cs)) keys -> t < T) -> NoDup (map fst keys) ->
  exists draws q, create_draws src order T n seed name keys = Ok draws /\ map fst draws = map fst keys /\
  (forall c c', number_occurs keys c -> number_occurs keys c' -> q c = q c' -> c = c') /\
  (forall c, number_occurs keys c -> q c < n_numbers keys) /\
  forall k t cs, In (k, (t, cs)) keys -> exists table, dict_get Nat.eq_dec k draws = Some table /\
    table_of n (count_true cs) table /\
    forall d j, d < n -> j < count_true cs ->
      entry table d j = Some (quasi src (seed + Z.of_nat (q (count_true cs))) rule (T * n) (count_true cs) j (t * n + d)).
Proof. exact quasi_solution. Qed.
Print Assumptions C107_points_of_the_solution.

(** Individuals who differ in types or observables face the same draws if they are in the
    same period and have equally many choices, whichever these are. *)
Theorem C107_shared_draws : forall A (src : sources A) order T n seed name keys draws k k' t cs cs',
  (forall l, Permutation (order l) l) -> NoDup (map fst keys) -> (forall k t cs, In (k, (t, cs)) keys -> t < T) ->
  create_draws src order T n seed name keys = Ok draws ->
  In (k, (t, cs)) keys -> In (k', (t, cs')) keys -> count_true cs = count_true cs' ->
  exists table, dict_get Nat.eq_dec k draws = Some table /\ dict_get Nat.eq_dec k' draws = Some table.
Proof. exact shared_draws. Qed.
Print Assumptions C107_shared_draws.

(** The draws of the simulation are always random. *)
Theorem C107_draws_of_the_simulation : forall A (src : sources A) n c seed,
  exists draws, create_base_draws2 src n c seed "random" = Ok draws /\ table_of n c draws /\
    forall i j, i < n -> j < c -> entry draws i j = Some (normal src seed (i * c + j)).
Proof. exact simulation_draws. Qed.
Print Assumptions C107_draws_of_the_simulation.

(** Which names are accepted. *)
Theorem C107_names_of_sequences : forall A (src : sources A) a b c seed name,
  (exists draws, create_base_draws3 src a b c seed name = Ok draws) <->
  name = "random" \/ ((name = "sobol" \/ name = "halton") /\ installed src = true).
Proof. exact base_draws_usable. Qed.
Print Assumptions C107_names_of_sequences.

(** More periods (in the solution) or more observations (in the estimation) leave the draws
    for the first ones as they are. *)
Theorem C107_more_periods : forall A (src : sources A) a a' b c seed name, a <= a' ->
  name = "random" \/ extensible_points src ->
  name = "random" \/ (quasi_name name /\ installed src = true) ->
  exists draws draws', create_base_draws3 src a b c seed name = Ok draws /\ create_base_draws3 src a' b c seed name = Ok draws' /\
    List.length draws = a /\ draws = firstn a draws'.
Proof. exact base_draws_extended. Qed.
Print Assumptions C107_more_periods.

(** This is what C99 assumes about the generator. *)
Theorem C107_random_draws_are_extendable : forall (src : sources R) n,
  extendable (fun seed rows c => match create_base_draws3 src rows n c seed "random" with Ok d => d | _ => [] end).
Proof. exact random_extendable. Qed.
Print Assumptions C107_random_draws_are_extendable.

(** More draws change the draws of the second period. *)
Theorem C107_more_draws_refuted :
  exists (src : sources nat) T n n' c seed draws draws' first first',
    n <= n' /\ create_base_draws3 src T n c seed "random" = Ok draws /\ create_base_draws3 src T n' c seed "random" = Ok draws' /\
    nth_error draws 1 = Some first /\ nth_error draws' 1 = Some first' /\ first <> firstn n first'.
Proof.
  exists (mkSources (fun _ i => i) (fun _ _ _ _ _ _ => 0) false), 2, 1, 2, 1, 0%Z.
  do 4 eexists. split; [lia|]. repeat (split; [reflexivity|]). vm_compute. discriminate.
Qed.
Print Assumptions C107_more_draws_refuted.

(** Sequences which do not use random numbers do not depend on the seed; all dense keys with
    equally many observations and choices then have the same draws. *)
Theorem C107_seeds_of_points : forall A (src : sources A) a b c s s' name, deterministic_points src -> quasi_name name ->
  create_base_draws3 src a b c s name = create_base_draws3 src a b c s' name.
Proof. exact deterministic_seeds. Qed.
Print Assumptions C107_seeds_of_points.

(** Three dense keys in two periods; with numbers which show where they come from. *)
Definition draws_src : sources (nat * nat) :=
  mkSources (fun s i => (Z.to_nat s, i)) (fun s _ _ _ j p => (j, p)) true.
Definition draws_keys : list (nat * (nat * list bool)) := [(0, (0, [true; true])); (1, (1, [true; false])); (2, (1, [true; true])); (3, (1, [false; true]))].

Example C107_example :
  create_draws draws_src (isort Nat.leb) 2 2 100 "random" draws_keys =
  Ok [(0, [[(101, 0); (101, 1)]; [(101, 2); (101, 3)]]);
      (1, [[(100, 2)]; [(100, 3)]]);
      (2, [[(101, 4); (101, 5)]; [(101, 6); (101, 7)]]);
      (3, [[(100, 2)]; [(100, 3)]])] /\
  create_draws draws_src (isort Nat.leb) 2 2 100 "sobol" draws_keys =
  Ok [(0, [[(0, 0); (1, 0)]; [(0, 1); (1, 1)]]);
      (1, [[(0, 2)]; [(0, 3)]]);
      (2, [[(0, 2); (1, 2)]; [(0, 3); (1, 3)]]);
      (3, [[(0, 2)]; [(0, 3)]])] /\
  create_draws draws_src (isort Nat.leb) 2 2 100 "latin" draws_keys = OtherError /\
  (forall k t cs, In (k, (t, cs)) draws_keys -> t < 2) /\ NoDup (map fst draws_keys) /\ deterministic_points draws_src /\ extensible_points draws_src.
Proof.
  repeat (split; [reflexivity|]). split.
  - intros k t cs H. cbn in H. repeat (destruct H as [H|H]; [injection H as <- <- <-; lia|]). destruct H.
  - split; [repeat constructor; cbn; intuition congruence|]. split; intros; intro; intros; reflexivity.
Qed.
