(** Model of the processing and validation of options:
    pre_processing/model_processing.py:67-115 (seeds), 891-903 (cache directory),
    pre_processing/model_checking.py:6-31, 74-79 (validation).  Definitions only. *)
From Coq Require Import List Arith Bool ZArith String Ascii Reals.
From Verif Require Import Base Model_Strings.
Import ListNotations.
Open Scope string_scope.

(** ** Seeds *)

(** The three seeds of the user and, if created, the six sequences of seeds
    ([itertools.count]), each given by its next value. *)
Record seed_options := mkSeedOptions {
  so_user : Z * Z * Z;                       (* solution, simulation, estimation *)
  so_startup : option (Z * Z * Z);
  so_iteration : option (Z * Z * Z)
}.

(** config.py:56 *)
Definition seed_startup_iteration_gap : Z := 1000000%Z.

(** [np.random.seed(s)] accepts 32-bit unsigned integers; [randint s lo hi] is the integer
    drawn right after it. *)
Definition seeded_randint (randint : Z -> Z -> Z -> Z) (s lo hi : Z) : result Z :=
  if (Z.leb 0 s && Z.ltb s (2 ^ 32))%bool then Ok (randint s lo hi) else ValueError.

(** model_processing.py:67-115 (_create_internal_seeds_from_user_seeds): the options and
    whether there is a warning.  [np.bincount] rejects negative numbers. *)
Definition create_internal_seeds (randint : Z -> Z -> Z -> Z) (o : seed_options)
  : result (seed_options * bool) :=
  let '(a, b, c) := so_user o in
  if (Z.ltb a 0 || Z.ltb b 0 || Z.ltb c 0)%bool then ValueError else
  let warn := (Z.eqb a b || Z.eqb a c || Z.eqb b c)%bool in
  result_bind (seeded_randint randint a 1000000 2000000) (fun sa =>
  result_bind (seeded_randint randint b 4000000 5000000) (fun sb =>
  result_bind (seeded_randint randint c 7000000 8000000) (fun sc =>
  Ok (mkSeedOptions (a, b, c) (Some (sa, sb, sc))
        (Some (sa + seed_startup_iteration_gap, sb + seed_startup_iteration_gap,
               sc + seed_startup_iteration_gap)%Z), warn)))).

(** What the sequences are for. *)
Inductive purpose := Solution | Simulation | Estimation.
Inductive kind := Startup | Iteration.
Definition stream := (purpose * kind)%type.

Definition component {A} (p : purpose) (t : A * A * A) : A :=
  match p with Solution => fst (fst t) | Simulation => snd (fst t) | Estimation => snd t end.
Definition set_component {A} (p : purpose) (x : A) (t : A * A * A) : A * A * A :=
  match p with
  | Solution => (x, snd (fst t), snd t)
  | Simulation => (fst (fst t), x, snd t)
  | Estimation => (fst t, x)
  end.

(** [next(options["..._seed_..."])]: the next seed of a sequence, which is advanced
    (simulate.py:94, 97, 537, likelihood.py:112, state_space.py:347, interpolate.py:131, 177). *)
Definition next_seed (s : stream) (o : seed_options) : result (Z * seed_options) :=
  match snd s with
  | Startup => match so_startup o with
               | None => KeyError
               | Some t => Ok (component (fst s) t,
                               mkSeedOptions (so_user o)
                                 (Some (set_component (fst s) (component (fst s) t + 1)%Z t))
                                 (so_iteration o))
               end
  | Iteration => match so_iteration o with
                 | None => KeyError
                 | Some t => Ok (component (fst s) t,
                                 mkSeedOptions (so_user o) (so_startup o)
                                   (Some (set_component (fst s) (component (fst s) t + 1)%Z t)))
                 end
  end.

(** Any program which takes seeds from the sequences in some order: the seeds it gets and
    the options afterwards. *)
Fixpoint take_seeds (uses : list stream) (o : seed_options) : result (list Z * seed_options) :=
  match uses with
  | [] => Ok ([], o)
  | s :: r => result_bind (next_seed s o) (fun x =>
              result_bind (take_seeds r (snd x)) (fun y => Ok (fst x :: fst y, snd y)))
  end.

(** ** Validation *)

(** Values of options: integers (Python's booleans are integers), floating-point numbers
    (real numbers: not-a-number is an other object, infinity is left out), strings, lists, dictionaries with arbitrary keys, and other objects. *)
Inductive value :=
| VInt (z : Z)
| VFloat (r : R)
| VStr (s : string)
| VList (l : list value)
| VDict (d : list (value * value))
| VOther.

(** model_checking.py:74-79 *)
Definition is_positive_nonzero_integer (v : value) : bool :=
  match v with VInt z => Z.ltb 0 z | _ => false end.
Definition is_nonnegative_integer (v : value) : bool :=
  match v with VInt z => Z.leb 0 z | _ => false end.
Definition is_str (v : value) : bool := match v with VStr _ => true | _ => false end.

(** [0 < v]; comparison with other objects is a type error. *)
Definition is_positive (v : value) : result bool :=
  match v with
  | VInt z => Ok (Z.ltb 0 z)
  | VFloat r => Ok (if Rlt_dec 0 r then true else false)
  | _ => OtherError
  end.
(** [v == -1] *)
Definition is_minus_one (v : value) : bool :=
  match v with
  | VInt z => Z.eqb z (-1)
  | VFloat r => if Req_EM_T r (-1) then true else false
  | _ => false
  end.

Definition option_of (o : list (string * value)) (name : string) : result value :=
  match dict_get string_dec name o with Some v => Ok v | None => KeyError end.
(** [assert b]: a failed assertion is an [OtherError]. *)
Definition assert_ (b : bool) : result unit := if b then Ok tt else OtherError.

(** model_checking.py:10-14 *)
Definition check_option (nv : string * value) : result unit :=
  let (name, v) := nv in
  if contains "draws" name then assert_ (is_positive_nonzero_integer v)
  else if endswith "_seed" name then assert_ (is_nonnegative_integer v)
  else Ok tt.

(** model_checking.py:21-30 *)
Definition is_filter_list (v : value) : bool :=
  match v with VList l => forallb is_str l | _ => false end.
Definition is_negative_choice_set (v : value) : bool :=
  match v with
  | VDict d => forallb (fun kv => is_str (fst kv) &&
                                  match snd kv with VList l => forallb is_str l | _ => false end) d
  | _ => false
  end.
Definition is_sequence (v : value) : bool :=
  match v with
  | VStr s => existsb (String.eqb s) ["random"; "halton"; "sobol"]
  | _ => false
  end.

(** model_checking.py:6-31 (validate_options) *)
Definition validate_options (o : list (string * value)) : result unit :=
  result_bind (option_of o "n_periods") (fun v =>
  result_bind (assert_ (is_positive_nonzero_integer v)) (fun _ =>
  result_bind (result_all (map check_option o)) (fun _ =>
  result_bind (option_of o "estimation_tau") (fun v =>
  result_bind (result_bind (is_positive v) assert_) (fun _ =>
  result_bind (option_of o "interpolation_points") (fun v =>
  result_bind (assert_ (is_positive_nonzero_integer v || is_minus_one v)) (fun _ =>
  result_bind (option_of o "simulation_agents") (fun v =>
  result_bind (assert_ (is_positive_nonzero_integer v)) (fun _ =>
  result_bind (option_of o "core_state_space_filters") (fun v =>
  result_bind (assert_ (is_filter_list v)) (fun _ =>
  result_bind (option_of o "negative_choice_set") (fun v =>
  result_bind (assert_ (is_negative_choice_set v)) (fun _ =>
  result_bind (option_of o "monte_carlo_sequence") (fun v =>
  assert_ (is_sequence v))))))))))))))).

(** config.py:58-71 (DEFAULT_OPTIONS), and model_processing.py:43: the user's options
    update them. *)
Definition default_options : list (string * value) :=
  [("estimation_draws", VInt 200); ("estimation_seed", VInt 1); ("estimation_tau", VInt 500);
   ("interpolation_points", VInt (-1)); ("simulation_agents", VInt 1000);
   ("simulation_seed", VInt 2); ("solution_draws", VInt 200); ("solution_seed", VInt 3);
   ("core_state_space_filters", VList []); ("negative_choice_set", VDict []);
   ("monte_carlo_sequence", VStr "random"); ("cache_compression", VStr "snappy")].
Definition with_defaults (user : list (string * value)) : list (string * value) :=
  dict_update string_dec default_options user.

(** ** Cache directory *)

(** Paths: whether absolute, and the components. *)
Record path := mkPath { pa_absolute : bool; pa_parts : list string }.
Definition path_name (p : path) : string := last (pa_parts p) "".
(** [a / b] *)
Definition path_join (a b : path) : path :=
  if pa_absolute b then b else mkPath (pa_absolute a) (pa_parts a ++ pa_parts b).

(** model_processing.py:891-903 (_parse_cache_directory) *)
Definition parse_cache_directory (cwd : path) (user : option path) : path :=
  let p := match user with Some p => p | None => mkPath false [".respy"] end in
  let p := if pa_absolute p then p else path_join cwd p in
  if String.eqb (path_name p) ".respy" then p
  else path_join p (mkPath false [".respy"]).
