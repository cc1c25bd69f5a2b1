(** What is claimed about seeds, options and the cache directory. *)
From Coq Require Import List Arith Bool ZArith String Reals.
From Verif Require Import Base Model_Options.
Import ListNotations.
Open Scope string_scope.

(** What is known about numpy's generator: the integer is in the requested range. *)
Definition draws_in_range (randint : Z -> Z -> Z -> Z) : Prop :=
  forall s lo hi, (lo < hi -> lo <= randint s lo hi < hi)%Z.

(** Seeds that numpy accepts. *)
Definition seed_ok (s : Z) : Prop := (0 <= s < 2 ^ 32)%Z.

(** Before and after processing, the options of a user with these three seeds. *)
Definition unprocessed (a b c : Z) : seed_options := mkSeedOptions (a, b, c) None None.

Definition stream_eq_dec (x y : stream) : {x = y} + {x <> y}.
Proof. repeat decide equality. Defined.

(** Admissible values of options. *)
Definition positive_integer (v : value) : Prop := exists z, v = VInt z /\ (0 < z)%Z.
Definition nonnegative_integer (v : value) : Prop := exists z, v = VInt z /\ (0 <= z)%Z.
Definition positive_number (v : value) : Prop :=
  positive_integer v \/ exists r, v = VFloat r /\ (0 < r)%R.
Definition strings (v : value) : Prop := exists l, v = VList (map VStr l).
Definition strings_by_string (v : value) : Prop :=
  exists d : list (string * list string),
    v = VDict (map (fun kl => (VStr (fst kl), VList (map VStr (snd kl)))) d).

(** [o] has the option [name] and its value satisfies [P]. *)
Definition option_with (o : list (string * value)) (name : string) (P : value -> Prop) : Prop :=
  exists v, dict_get string_dec name o = Some v /\ P v.

Definition mentions_draws (name : string) : Prop := exists a b, name = a ++ "draws" ++ b.
Definition ends_in_seed (name : string) : Prop := exists a, name = a ++ "_seed".

Record valid_options (o : list (string * value)) : Prop := {
  vo_periods : option_with o "n_periods" positive_integer;
  vo_draws : forall name v, In (name, v) o -> mentions_draws name -> positive_integer v;
  vo_seeds : forall name v, In (name, v) o -> ~ mentions_draws name -> ends_in_seed name ->
             nonnegative_integer v;
  vo_tau : option_with o "estimation_tau" positive_number;
  vo_points : option_with o "interpolation_points"
                (fun v => positive_integer v \/ v = VInt (-1) \/ v = VFloat (-1));
  vo_agents : option_with o "simulation_agents" positive_integer;
  vo_filters : option_with o "core_state_space_filters" strings;
  vo_restrictions : option_with o "negative_choice_set" strings_by_string;
  vo_sequence : option_with o "monte_carlo_sequence"
                  (fun v => v = VStr "random" \/ v = VStr "halton" \/ v = VStr "sobol")
}.

(** The options whose values are checked by name. *)
Definition checked_names : list string :=
  ["n_periods"; "estimation_tau"; "interpolation_points"; "simulation_agents";
   "core_state_space_filters"; "negative_choice_set"; "monte_carlo_sequence"].
