(** Model of the cache on disk: shared.py:675-716, and its use in state_space.py:28-30,
    780, 810, solve.py:99, 106.  Definitions only. *)
From Coq Require Import List Arith Bool String Ascii DecimalString.
From Verif Require Import Base Model_CoreStateSpace Model_StateSpace.
Import ListNotations.
Open Scope string_scope.

(** Decimal numbers, [str(n)]. *)
Definition dec (n : nat) : string := NilEmpty.string_of_uint (Nat.to_uint n).

(** shared.py:692-703 (_create_file_name_from_complex_index) *)
Definition bits (cs : list bool) : string :=
  String.concat "" (map (fun b : bool => if b then "1" else "0") cs).
Definition file_name (topic : string) (cx : complex) : string :=
  match cx_dense cx with
  | Some d => topic ++ "_" ++ dec (cx_period cx) ++ "_" ++ bits (cx_choice_set cx) ++ "_" ++ dec d
              ++ ".parquet"
  | None => topic ++ "_" ++ dec (cx_period cx) ++ "_" ++ bits (cx_choice_set cx) ++ ".parquet"
  end.

(** The disk: the directories that exist and the files, given by directory and name.
    Directories are absolute, without links and "..". *)
Definition dir := list string.
Inductive content :=
| States (f : states_file)
| Other (n : nat).
Record disk := mkDisk {
  dk_dirs : list dir;
  dk_files : list ((dir * string) * content)
}.
Definition dir_eq_dec (x y : dir) : {x = y} + {x <> y} := list_eq_dec string_dec x y.
Definition file_eq_dec (x y : dir * string) : {x = y} + {x <> y}.
Proof. decide equality; [apply string_dec | apply dir_eq_dec]. Defined.

(** [d] is [root] or below it. *)
Fixpoint inside (root d : dir) : bool :=
  match root, d with
  | [], _ => true
  | x :: r, y :: s => if string_dec x y then inside r s else false
  | _ :: _, [] => false
  end.

(** [shutil.rmtree] and [mkdir(parents=True, exist_ok=True)] *)
Definition rmtree (root : dir) (k : disk) : disk :=
  mkDisk (filter (fun d => negb (inside root d)) (dk_dirs k))
         (filter (fun f => negb (inside root (fst (fst f)))) (dk_files k)).
Fixpoint prefixes (d : dir) : list dir :=
  match d with
  | [] => [[]]
  | x :: r => [] :: map (cons x) (prefixes r)
  end.
Definition mkdir (d : dir) (k : disk) : disk :=
  mkDisk (dk_dirs k ++ filter (fun e => if in_dec dir_eq_dec e (dk_dirs k) then false else true)
                              (prefixes d)) (dk_files k).

(** shared.py:704-716 (prepare_cache_directory) *)
Definition prepare_cache_directory (d : dir) (k : disk) : disk :=
  mkdir d (if in_dec dir_eq_dec d (dk_dirs k) then rmtree d k else k).

(** shared.py:675-689 (dump_objects, load_objects); a missing directory or file is an
    [OtherError]. *)
Definition dump (d : dir) (name : string) (c : content) (k : disk) : result disk :=
  if in_dec dir_eq_dec d (dk_dirs k)
  then Ok (mkDisk (dk_dirs k) (dict_set file_eq_dec (d, name) c (dk_files k)))
  else OtherError.
Definition load (d : dir) (name : string) (k : disk) : result content :=
  match dict_get file_eq_dec (d, name) (dk_files k) with
  | Some c => Ok c
  | None => OtherError
  end.

Fixpoint dump_all (d : dir) (l : list (string * content)) (k : disk) : result disk :=
  match l with
  | [] => Ok k
  | (n, c) :: r => result_bind (dump d n c k) (dump_all d r)
  end.

(** A model: the cache directory in its options and the state space that
    [create_state_space_class] makes for it. *)
Record cached_model := mkCachedModel { cm_dir : dir; cm_ss : state_space }.

(** What creation leaves on disk (state_space.py:28-30, 755-817). *)
Definition create_on_disk (m : cached_model) (k : disk) : result disk :=
  dump_all (cm_dir m)
    (map (fun p => (file_name "states" (fst p), States (snd p))) (ss_files (cm_ss m)))
    (prepare_cache_directory (cm_dir m) k).

(** The states of all dense keys as read by a call of the solve function (solve.py:99). *)
Definition load_states (m : cached_model) (k : disk) (cx : complex) : result (complex * states_file) :=
  result_bind (load (cm_dir m) (file_name "states" cx) k)
    (fun c => match c with States f => Ok (cx, f) | Other _ => OtherError end).
Definition with_files (ss : state_space) (files : list (complex * states_file)) : state_space :=
  mkSS (ss_nperiods ss) (ss_core ss) (ss_keys ss) (ss_groups ss) (ss_indexer ss) (ss_grid ss)
       (ss_dpc ss) files (ss_transit ss) (ss_child ss).
(** The state space a call works with. *)
Definition loaded_state_space (m : cached_model) (k : disk) : result state_space :=
  result_bind (result_all (map (load_states m k) (map fst (ss_dpc (cm_ss m)))))
    (fun files => Ok (with_files (cm_ss m) files)).

(** A call of a function of the model: it reads the states, stores for every dense key the
    transition probabilities if there are exogenous processes ([trans] gives the contents,
    solve.py:102-106) and computes [f] of the state space.  (What it reads from these
    transition files later on is what it has just written.) *)
Definition call_on_disk {A} (m : cached_model) (trans : option (complex -> nat))
  (f : state_space -> result A) (k : disk) : disk * result A :=
  match loaded_state_space m k with
  | Ok ss =>
      match trans with
      | None => (k, f ss)
      | Some t =>
          match dump_all (cm_dir m)
                  (map (fun cx => (file_name "transition" cx, Other (t cx))) (map fst (ss_dpc ss))) k with
          | Ok k' => (k', f ss)
          | _ => (k, OtherError)
          end
      end
  | e => (k, result_bind e f)
  end.

(** Histories: models (by number) are created and their functions are called in any
    order. *)
Inductive event :=
| Create (i : nat)
| Call (i : nat) (trans : option (complex -> nat)).
Definition run_event (ms : list cached_model) (e : event) (k : disk) : result disk :=
  match e with
  | Create i => match nth_error ms i with Some m => create_on_disk m k | None => IndexError end
  | Call i trans =>
      match nth_error ms i with
      | Some m => Ok (fst (call_on_disk m trans (fun ss => Ok ss) k))
      | None => IndexError
      end
  end.
Fixpoint run_events (ms : list cached_model) (es : list event) (k : disk) : result disk :=
  match es with
  | [] => Ok k
  | e :: r => result_bind (run_event ms e k) (run_events ms r)
  end.
