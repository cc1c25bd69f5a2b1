(** Properties of seeds, options and the cache directory. *)
From Coq Require Import List Arith Bool ZArith String Reals Lia.
From Verif Require Import Base Model_Strings Model_Options Spec_Options Proof_Options.
Import ListNotations.
Open Scope string_scope.

(** C43 *)
Theorem C43_seeds_differ : forall randint o a b c uses, so_user o = (a, b, c) ->
  seed_ok a -> seed_ok b -> seed_ok c -> draws_in_range randint ->
  (forall s, (Z.of_nat (count_occ stream_eq_dec uses s) <= 1000000)%Z) ->
  exists o' w seeds o'', create_internal_seeds randint o = Ok (o', w) /\
    take_seeds uses o' = Ok (seeds, o'') /\ List.length seeds = List.length uses /\ NoDup seeds.
Proof. exact streams_disjoint. Qed.
Print Assumptions C43_seeds_differ.

Example C43_example_seeds : exists seeds o'',
  draws_in_range (fun s lo hi => lo) /\
  result_bind (create_internal_seeds (fun s lo hi => lo) (unprocessed 1 1 1))
    (fun r => take_seeds [(Solution, Startup); (Solution, Iteration); (Solution, Startup);
                          (Estimation, Startup)] (fst r)) = Ok (seeds, o'') /\
  seeds = [1000000; 2000000; 1000001; 7000000]%Z.
Proof. eexists _, _. split; [intros s lo hi H; lia | split; reflexivity]. Qed.

Theorem C43_million_uses_refuted : forall randint a b c, draws_in_range randint ->
  seed_ok a -> seed_ok b -> seed_ok c ->
  exists uses o' w seeds o'',
    (forall s, (Z.of_nat (count_occ stream_eq_dec uses s) <= 1000001)%Z) /\
    create_internal_seeds randint (unprocessed a b c) = Ok (o', w) /\
    take_seeds uses o' = Ok (seeds, o'') /\ ~ NoDup seeds.
Proof. exact streams_overlap. Qed.
Print Assumptions C43_million_uses_refuted.

Example C43_example_million : draws_in_range (fun s lo hi => (hi - 1)%Z) /\ seed_ok 1 /\ seed_ok 2 /\ seed_ok 3.
Proof. split; [intros s lo hi H; lia | unfold seed_ok; lia]. Qed.

Theorem C43_processing_restarts : forall randint o uses o1 w seeds o2,
  create_internal_seeds randint o = Ok (o1, w) ->
  take_seeds uses o1 = Ok (seeds, o2) ->
  create_internal_seeds randint o2 = Ok (o1, w).
Proof. exact seeds_restart. Qed.
Print Assumptions C43_processing_restarts.

Example C43_example_restart : exists o1 seeds o2,
  create_internal_seeds (fun s lo hi => (lo + s)%Z) (unprocessed 1 2 2) = Ok (o1, true) /\
  take_seeds [(Simulation, Startup); (Simulation, Startup)] o1 = Ok (seeds, o2) /\
  seeds = [4000002; 4000003]%Z /\ o1 <> o2.
Proof. eexists _, _, _. split; [reflexivity|]. split; [reflexivity|]. split; [reflexivity|]. discriminate. Qed.

Theorem C43_accepted_seeds : forall randint a b c,
  (exists r, create_internal_seeds randint (unprocessed a b c) = Ok r) <->
  (seed_ok a /\ seed_ok b /\ seed_ok c).
Proof. exact seeds_rejected. Qed.
Print Assumptions C43_accepted_seeds.

Example C43_example_accepted : seed_ok 4294967295 /\ ~ seed_ok 4294967296 /\ ~ seed_ok (-1) /\
  create_internal_seeds (fun s lo hi => lo) (unprocessed 1 (-1) 2) = ValueError.
Proof. unfold seed_ok. split; [lia|]. split; [lia|]. split; [lia|]. reflexivity. Qed.

(** C54 *)
Theorem C54_accepted_options : forall o, validate_options o = Ok tt <-> valid_options o.
Proof. exact validate_iff. Qed.
Print Assumptions C54_accepted_options.

Theorem C54_other_options_ignored : forall o name v,
  ~ In name checked_names -> ~ mentions_draws name -> ~ ends_in_seed name ->
  (validate_options (o ++ [(name, v)]) = Ok tt <-> validate_options o = Ok tt).
Proof. exact unknown_ignored. Qed.
Print Assumptions C54_other_options_ignored.

Theorem C54_defaults_suffice : forall k, (0 < k)%Z ->
  validate_options (with_defaults [("n_periods", VInt k)]) = Ok tt.
Proof. exact defaults_accepted. Qed.
Print Assumptions C54_defaults_suffice.

Example C54_example :
  validate_options (with_defaults [("n_periods", VInt 5); ("solution_draws", VInt 0)]) = OtherError /\
  validate_options (with_defaults [("n_periods", VInt 5); ("my_draws", VFloat 10)]) = OtherError /\
  validate_options (with_defaults [("n_periods", VInt 5); ("any_seed", VInt (-1))]) = OtherError /\
  validate_options (with_defaults []) = KeyError /\
  validate_options (with_defaults [("n_periods", VInt 5); ("interpolation_points", VInt (-1));
    ("core_state_space_filters", VList [VStr "period > 1 and exp_a == 0"]);
    ("negative_choice_set", VDict [(VStr "a", VList [VStr "period < 1"])]);
    ("no_such_option", VOther)]) = Ok tt.
Proof. repeat split. Qed.

(** C16 *)
Theorem C16_directory_name : forall cwd user,
  path_name (parse_cache_directory cwd user) = ".respy".
Proof. exact cache_directory_name. Qed.
Print Assumptions C16_directory_name.

Theorem C16_processing_again : forall cwd cwd' user, pa_absolute cwd = true ->
  parse_cache_directory cwd' (Some (parse_cache_directory cwd user)) = parse_cache_directory cwd user.
Proof. exact cache_directory_again. Qed.
Print Assumptions C16_processing_again.

Theorem C16_directory_location : forall cwd user, pa_absolute cwd = true ->
  let requested := match user with
                   | None => (pa_parts cwd ++ [".respy"])%list
                   | Some p => if pa_absolute p then pa_parts p else (pa_parts cwd ++ pa_parts p)%list
                   end in
  pa_parts (parse_cache_directory cwd user) = requested \/
  pa_parts (parse_cache_directory cwd user) = (requested ++ [".respy"])%list.
Proof. exact cache_directory_location. Qed.
Print Assumptions C16_directory_location.

Example C16_example_directory :
  parse_cache_directory (mkPath true ["home"; "me"]) (Some (mkPath false ["data"])) =
    mkPath true ["home"; "me"; "data"; ".respy"] /\
  parse_cache_directory (mkPath true ["home"; "me"]) None = mkPath true ["home"; "me"; ".respy"] /\
  parse_cache_directory (mkPath true ["home"; "me"]) (Some (mkPath true ["tmp"; ".respy"])) =
    mkPath true ["tmp"; ".respy"].
Proof. repeat split. Qed.
