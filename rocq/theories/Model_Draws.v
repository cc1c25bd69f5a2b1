(** Model of the creation of draws from the standard normal distribution: create_base_draws
    (shared.py:61-132) and StateSpace.create_draws (state_space.py:339-358).  Definitions
    only; see Props_Draws.v for the theorems. *)
From Coq Require Import List Arith ZArith Bool Strings.String.
From Verif Require Import Base Model_Strings.
Import ListNotations.
Open Scope string_scope.
Open Scope list_scope.

(** Cut a list into [n] pieces of length [len]. *)
Fixpoint chunks {A} (n len : nat) (flat : list A) : list (list A) :=
  match n with
  | 0 => []
  | S n' => firstn len flat :: chunks n' len (skipn len flat)
  end.

(** [numpy.reshape] to two and to three dimensions (the last index changes fastest); a
    ValueError if the number of elements does not fit. *)
Definition reshape2 {A} (n c : nat) (flat : list A) : result (list (list A)) :=
  if Nat.eqb (List.length flat) (n * c) then Ok (chunks n c flat) else ValueError.
Definition reshape3 {A} (a b c : nat) (flat : list A) : result (list (list (list A))) :=
  if Nat.eqb (List.length flat) (a * b * c) then Ok (map (chunks b c) (chunks a (b * c) flat)) else ValueError.

(** The sources of numbers: [normal s i] is the [i]-th number of [np.random.standard_normal]
    after [np.random.seed(s)]; [quasi s rule n d c p] is coordinate [c] of point [p] of
    [cp.MvNormal(zeros(d), eye(d)).sample(n, rule)], called after [np.random.seed(s)];
    [installed] says whether chaospy can be imported. *)
Record sources (A : Type) := mkSources {
  normal : Z -> nat -> A;
  quasi : Z -> string -> nat -> nat -> nat -> nat -> A;
  installed : bool
}.
Arguments mkSources {A} _ _ _.
Arguments normal {A} _ _ _.
Arguments quasi {A} _ _ _ _ _ _ _.
Arguments installed {A} _.

(** shared.py:120: [monte_carlo_sequence[0].capitalize()] *)
Definition rule_of (name : string) : string :=
  match name with EmptyString => EmptyString | String c _ => String (to_upper c) EmptyString end.

(** shared.py:111-132 up to the last reshape: the numbers in the order of the memory for
    [n_points] points of dimension [c].  The sample has one row for each coordinate and is
    transposed.  ImportError and NotImplementedError are both [OtherError]. *)
Definition flat_draws {A} (src : sources A) (n_points c : nat) (seed : Z) (name : string) : result (list A) :=
  if String.eqb name "random" then Ok (map (normal src seed) (seq 0 (n_points * c)))
  else if existsb (String.eqb name) ["sobol"; "halton"] then
    if installed src then
      let sample := map (fun i => map (quasi src seed (rule_of name) n_points c i) (seq 0 n_points)) (seq 0 c) in
      let transposed := map (fun p => flat_map (fun row => match nth_error row p with Some x => [x] | None => [] end) sample)
                            (seq 0 n_points) in
      Ok (List.concat transposed)
    else OtherError
  else OtherError.

(** shared.py:61-132 for shapes of length two (simulation) and three. *)
Definition create_base_draws2 {A} (src : sources A) (n c : nat) (seed : Z) (name : string) : result (list (list A)) :=
  result_bind (flat_draws src n c seed name) (reshape2 n c).
Definition create_base_draws3 {A} (src : sources A) (a b c : nat) (seed : Z) (name : string) : result (list (list (list A))) :=
  result_bind (flat_draws src (a * b) c seed name) (reshape3 a b c).

(** [list.index] *)
Fixpoint index_of (x : nat) (l : list nat) : result nat :=
  match l with
  | [] => ValueError
  | y :: r => if Nat.eqb x y then Ok 0 else result_bind (index_of x r) (fun i => Ok (S i))
  end.

Definition lookup_result {A} (l : list A) (i : nat) : result A :=
  match nth_error l i with Some x => Ok x | None => IndexError end.

(** state_space.py:339-358: [keys] are the dense keys with their period and choice set
    (dense_key_to_choice_set is a part of dense_key_to_complex, state_space.py:147-149);
    [order] is the order of the iteration over the set of numbers of choices; [seed] is the
    next seed of the startup sequence. *)
Definition create_draws {A} (src : sources A) (order : list nat -> list nat) (n_periods n_draws : nat) (seed : Z) (name : string)
  (keys : list (nat * (nat * list bool))) : result (list (nat * list (list A))) :=
  let n_choices_in_sets := order (drop_duplicates Nat.eq_dec (map (fun k => count_true (snd (snd k))) keys)) in
  result_bind (result_all (map (fun p => create_base_draws3 src n_periods n_draws (snd p) (seed + Z.of_nat (fst p)) name)
                               (enumerate n_choices_in_sets))) (fun shocks_sets =>
  result_all (map (fun k =>
    result_bind (index_of (count_true (snd (snd k))) n_choices_in_sets) (fun idx =>
    result_bind (lookup_result shocks_sets idx) (fun set =>
    result_bind (lookup_result set (fst (snd k))) (fun draws => Ok (fst k, draws))))) keys)).
