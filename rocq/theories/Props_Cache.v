(** Properties of the cache on disk. *)
From Coq Require Import List Arith Bool String Reals Lia.
From Verif Require Import Base Model_CoreStateSpace Model_StateSpace Model_Cache Spec_Cache Proof_Cache
  Examples_Cache.
Import ListNotations.
Open Scope string_scope.

(** C15 *)
Theorem C15_undisturbed_calls : forall ms before after i m k,
  (forall m', In m' ms -> created m') ->
  nth_error ms i = Some m ->
  (forall e, In e (before ++ Create i :: after) -> (event_model e < List.length ms)%nat) ->
  (forall j m', In (Create j) after -> nth_error ms j = Some m' -> j <> i ->
     ~ below (cm_dir m') (cm_dir m)) ->
  exists k', run_events ms (before ++ Create i :: after) k = Ok k' /\
    forall A trans (f : state_space -> result A), snd (call_on_disk m trans f k') = f (cm_ss m).
Proof. intros ms before after i m k C. exact (undisturbed ms C before after i m k). Qed.
Print Assumptions C15_undisturbed_calls.

(** Sharing a directory is harmless while no other model is created in it. *)
Example C15_example_undisturbed : exists k',
  run_events [model0; model1] [Create 1; Create 0; Call 1 (Some (fun _ => 3%nat))] empty_disk = Ok k' /\
  snd (call_on_disk model0 None solve_cached k') = Ok [[0%R]].
Proof.
  destruct (C15_undisturbed_calls [model0; model1] [Create 1] [Call 1 (Some (fun _ => 3%nat))] 0 model0 empty_disk)
    as [k' [E H]].
  - intros m' [<-|[<-|[]]]; [exact model0_created | exact model1_created].
  - reflexivity.
  - intros e [<-|[<-|[<-|[]]]]; cbn; lia.
  - intros j m' [H|[]]. discriminate.
  - exists k'. split; [exact E|]. rewrite H. exact solved0.
Qed.

Theorem C15_separate_directories : forall ms es i m k,
  (forall m', In m' ms -> created m') ->
  nth_error ms i = Some m -> In (Create i) es ->
  (forall e, In e es -> (event_model e < List.length ms)%nat) ->
  (forall j m', nth_error ms j = Some m' -> j <> i -> ~ below (cm_dir m') (cm_dir m)) ->
  exists k', run_events ms es k = Ok k' /\
    forall A trans (f : state_space -> result A), snd (call_on_disk m trans f k') = f (cm_ss m).
Proof. intros ms es i m k C. exact (separate ms C es i m k). Qed.
Print Assumptions C15_separate_directories.

Example C15_example_separate : exists k',
  run_events [model0; model1'; model2'] [Create 0; Create 1; Call 1 None; Create 2; Create 1] empty_disk = Ok k' /\
  snd (call_on_disk model0 None solve_cached k') = Ok [[0%R]].
Proof.
  destruct (C15_separate_directories [model0; model1'; model2']
              [Create 0; Create 1; Call 1 None; Create 2; Create 1] 0 model0 empty_disk) as [k' [E H]].
  - intros m' [<-|[<-|[<-|[]]]]; [exact model0_created | exact model1'_created | exact model2'_created].
  - reflexivity.
  - left. reflexivity.
  - intros e [<-|[<-|[<-|[<-|[<-|[]]]]]]; cbn; lia.
  - intros [|[|[|j]]] m' N D; try congruence.
    + injection N as <-. intros [r R]. discriminate.
    + injection N as <-. intros [r R]. discriminate.
    + destruct j; discriminate.
  - exists k'. split; [exact E|]. rewrite H. exact solved0.
Qed.

Theorem C15_shared_directory_refuted : exists m m' k k' f,
  created m /\ created m' /\ cm_dir m = cm_dir m' /\
  run_events [m; m'] [Create 0; Create 1] k = Ok k' /\
  f (cm_ss m) = Ok [[0%R]] /\ snd (call_on_disk m None f k') = Ok [[1%R]].
Proof.
  exists model0, model1, empty_disk, disk01, solve_cached.
  exact (conj model0_created (conj model1_created (conj eq_refl (conj disk01_run (conj solved0 wrong_states))))).
Qed.
Print Assumptions C15_shared_directory_refuted.

Theorem C15_shared_directory_error_refuted : exists m m' k k',
  created m /\ created m' /\ cm_dir m = cm_dir m' /\
  run_events [m; m'] [Create 0; Create 1] k = Ok k' /\
  snd (call_on_disk m None solve_cached k') = OtherError.
Proof.
  exists model2, model1, empty_disk, disk21.
  exact (conj model2_created (conj model1_created (conj eq_refl (conj disk21_run missing_states)))).
Qed.
Print Assumptions C15_shared_directory_error_refuted.

(** C16 *)
Theorem C16_file_names_differ : forall t t' cx cx', no_underscore t -> no_underscore t' ->
  file_name t cx = file_name t' cx' -> t = t' /\ cx = cx'.
Proof. exact file_name_inj. Qed.
Print Assumptions C16_file_names_differ.

Example C16_example_names :
  file_name "states" (1%nat, [true; false], Some 11%nat) = "states_1_10_11.parquet" /\
  file_name "states" (11%nat, [false], None) = "states_11_0.parquet" /\
  no_underscore "states" /\ no_underscore "transition".
Proof.
  split; [reflexivity|]. split; [reflexivity|]. split; [exact states_topic | exact transition_topic].
Qed.

Theorem C16_files_outside_kept : forall d k f, outside d f ->
  dict_get file_eq_dec f (dk_files (prepare_cache_directory d k)) = dict_get file_eq_dec f (dk_files k).
Proof. exact prepare_keeps. Qed.
Print Assumptions C16_files_outside_kept.

Example C16_example_outside : outside ["home"; ".respy"] (["home"], "thesis.tex") /\
  ~ outside ["home"; ".respy"] (["home"; ".respy"; "notes"], "thesis.tex").
Proof.
  split; [intros [r R]; discriminate | intros H; apply H; exists ["notes"]; reflexivity].
Qed.
