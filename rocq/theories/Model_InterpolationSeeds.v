(** Model of the seeds of the approximate solution: interpolate.py:87-97, 127-134, 165-177,
    204-228 and solve.py:54-56, 163-210.  Definitions only. *)
From Coq Require Import List Arith Bool ZArith Reals.
From Verif Require Import Base Model_CoreStateSpace Model_StateSpace Model_Solve Model_Interpolate Model_Options.
Import ListNotations.

(** The random numbers after [np.random.seed(s)]: [rn_choose s i probs] is the result of the
    [i]-th call of [np.random.choice] with probabilities (interpolate.py:181), and
    [rn_subset s n size] that of the call without replacement (interpolate.py:228). *)
Record random_numbers := mkRandomNumbers {
  rn_choose : Z -> nat -> list R -> nat;
  rn_subset : Z -> nat -> nat -> list nat
}.

(** interpolate.py:127-134 (_get_seeds_to_create_not_interpolate_indicator) *)
Fixpoint get_seeds (keys : list nat) (o : seed_options) : result (list (nat * Z) * seed_options) :=
  match keys with
  | [] => Ok ([], o)
  | k :: r => result_bind (next_seed (Solution, Iteration) o) (fun s =>
              result_bind (get_seeds r (snd s)) (fun rest => Ok ((k, fst s) :: fst rest, snd rest)))
  end.

(** interpolate.py:165-177: another seed is taken only if there are points left. *)
Definition split_seed (points n_keys : nat) (o : seed_options) : result (Z * seed_options) :=
  if Nat.ltb 0 (points - 2 * n_keys) then next_seed (Solution, Iteration) o else Ok (0%Z, o).

(** interpolate.py:73-124 (kw_94_interpolation) with its seeds: first one for each key, then
    the one for the distribution of the points.  Without a seed of its own ([0] above) the
    distribution draws no numbers. *)
Definition seeded_interpolation (ss : state_space) (inp : inputs) (rn : random_numbers)
  (ols : list R -> list (list R) -> list R) (period : nat) (conts : list (nat * list (list R))) (o : seed_options)
  : result (list (nat * list R) * seed_options) :=
  let keys := dense_keys_from_period ss period in
  result_bind (get_seeds keys o) (fun seeds =>
  result_bind (split_seed (in_points inp) (length keys) (snd seeds)) (fun split =>
  let subset := fun k => match dict_get Nat.eq_dec k (fst seeds) with
                         | Some s => rn_subset rn s | None => fun _ _ => [] end in
  result_bind (kw_94_interpolation ss inp (mkInterpOracle (fun _ => rn_choose rn (fst split)) subset ols) period conts)
  (fun vals => Ok (vals, snd split)))).

(** solve.py:163-210, one period: only periods which are interpolated take seeds. *)
Definition seeded_period (ss : state_space) (inp : inputs) (rn : random_numbers)
  (ols : list R -> list (list R) -> list R) (period : nat) (st : list (list R) * seed_options)
  : result (list (list R) * seed_options) :=
  let keys := dense_keys_from_period ss period in
  let values :=
    if Req_EM_T (p_delta (in_params inp)) 0 then
      result_bind (period_values ss inp (fst st) period) (fun v => Ok (v, snd st))
    else if any_interpolated ss (in_points inp) period then
      result_bind (result_all (map (fun k => result_bind (get_continuation_values 0%R ss (fst st) period k)
                                               (fun c => Ok (k, c))) keys))
      (fun conts => seeded_interpolation ss inp rn ols period conts (snd st))
    else result_bind (period_values ss inp (fst st) period) (fun v => Ok (v, snd st)) in
  result_bind values (fun v =>
  result_bind (fold_result (fun p ev => set_ev ev (fst p) (snd p)) (fst v) (fst st)) (fun ev =>
  Ok (ev, snd v))).

(** solve.py:54-78: the options, with whatever streams they have, are processed again; then
    backward induction. *)
Definition seeded_solve (ss : state_space) (inp : inputs) (rn : random_numbers)
  (ols : list R -> list (list R) -> list R) (randint : Z -> Z -> Z -> Z) (o : seed_options) (ev : list (list R))
  : result (list (list R) * seed_options) :=
  result_bind (create_internal_seeds randint o) (fun x =>
  fold_result (seeded_period ss inp rn ols) (rev (seq 0 (ss_nperiods ss))) (ev, fst x)).
