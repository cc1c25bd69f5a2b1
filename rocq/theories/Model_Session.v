(** Objects in memory while several models are specified in one session.

    Python passes options as dictionaries whose values are objects (dictionaries and
    lists); the default values of options are objects of the module [config].  Functions
    that process options update some of these objects in place.  This file models
    [process_params_and_options] with a heap of objects such that it can be asked which
    objects are changed and which objects two models have in common.

    Simplifications: an object that is referenced from two places of the same options is
    copied twice by a deep copy (in Python, copies share such an object as well); the
    covariates that are separated into core, dense and mixed covariates at the end
    (process_covariates.py:60-110) are new objects and left out here (see
    Model_Covariates.v); all options apart from covariates, filters and restrictions are
    immutable values. *)
From Coq Require Import List Arith Bool String.
From Verif Require Import Base Model_Solve.
Import ListNotations.
Open Scope string_scope.
Open Scope list_scope.

(** The entries of an options dictionary: references to the covariates, the filters of
    the core state space and the restrictions of choices ("negative_choice_set"), if
    present, and the other options. *)
Record entries := mkEntries {
  e_cov : option nat;
  e_filters : option nat;
  e_restr : option nat;
  e_rest : list (string * string)
}.

(** Objects: options, covariates (name -> formula), lists of formulas and restrictions
    (choice -> reference to a list of formulas). *)
Inductive obj :=
| Options (e : entries)
| Formulas (d : list (string * string))
| Texts (l : list string)
| Restrictions (d : list (string * nat)).
Definition heap := list obj.

(** Computations that read and write objects; objects stay changed if an error occurs. *)
Definition M (A : Type) := heap -> heap * result A.
Definition ret {A} (x : A) : M A := fun h => (h, Ok x).
Definition lift {A} (r : result A) : M A := fun h => (h, r).
Definition bind {A B} (m : M A) (f : A -> M B) : M B :=
  fun h => match m h with
           | (h', Ok a) => f a h'
           | (h', KeyError) => (h', KeyError)
           | (h', ValueError) => (h', ValueError)
           | (h', IndexError) => (h', IndexError)
           | (h', NameError) => (h', NameError)
           | (h', OtherError) => (h', OtherError)
           end.
Fixpoint each {A B} (f : A -> M B) (l : list A) : M (list B) :=
  match l with
  | [] => ret []
  | x :: r => bind (f x) (fun y => bind (each f r) (fun ys => ret (y :: ys)))
  end.
Definition new (o : obj) : M nat := fun h => (h ++ [o], Ok (List.length h)).
Definition write (a : nat) (o : obj) : M unit := fun h => (set_nth a o h, Ok tt).
Definition get_options (a : nat) : M entries :=
  fun h => (h, match nth_error h a with Some (Options e) => Ok e | _ => OtherError end).
Definition get_formulas (a : nat) : M (list (string * string)) :=
  fun h => (h, match nth_error h a with Some (Formulas d) => Ok d | _ => OtherError end).
Definition get_texts (a : nat) : M (list string) :=
  fun h => (h, match nth_error h a with Some (Texts l) => Ok l | _ => OtherError end).
Definition get_restrictions (a : nat) : M (list (string * nat)) :=
  fun h => (h, match nth_error h a with Some (Restrictions d) => Ok d | _ => OtherError end).
Definition entry (x : option nat) : M nat :=
  lift match x with Some a => Ok a | None => KeyError end.

(** [copy.deepcopy] of options. *)
Definition copy_formulas (a : nat) : M nat := bind (get_formulas a) (fun d => new (Formulas d)).
Definition copy_texts (a : nat) : M nat := bind (get_texts a) (fun l => new (Texts l)).
Definition copy_restrictions (a : nat) : M nat :=
  bind (get_restrictions a) (fun d =>
  bind (each (fun ca => bind (copy_texts (snd ca)) (fun a' => ret (fst ca, a'))) d) (fun d' =>
  new (Restrictions d'))).
Definition copy_entry (copy : nat -> M nat) (x : option nat) : M (option nat) :=
  match x with
  | Some a => bind (copy a) (fun a' => ret (Some a'))
  | None => ret None
  end.
Definition copy_options (a : nat) : M nat :=
  bind (get_options a) (fun e =>
  bind (copy_entry copy_formulas (e_cov e)) (fun c =>
  bind (copy_entry copy_texts (e_filters e)) (fun f =>
  bind (copy_entry copy_restrictions (e_restr e)) (fun r =>
  new (Options (mkEntries c f r (e_rest e))))))).

(** model_processing.py:41: [{**DEFAULT_OPTIONS, **options}], a new dictionary with the
    objects of both. *)
Definition either {A} (x y : option A) : option A := match x with Some a => Some a | None => y end.
Definition merge (defaults user : entries) : entries :=
  mkEntries (either (e_cov user) (e_cov defaults)) (either (e_filters user) (e_filters defaults))
            (either (e_restr user) (e_restr defaults)) (dict_update string_dec (e_rest defaults) (e_rest user)).

(** What can be seen of an options dictionary. *)
Record contents := mkContents {
  c_cov : option (list (string * string));
  c_filters : option (list string);
  c_restr : option (list (string * list string));
  c_rest : list (string * string)
}.
Definition see {A} (f : nat -> M A) (x : option nat) : M (option A) :=
  match x with
  | Some a => bind (f a) (fun v => ret (Some v))
  | None => ret None
  end.
Definition see_restrictions (a : nat) : M (list (string * list string)) :=
  bind (get_restrictions a) (fun d =>
  each (fun ca => bind (get_texts (snd ca)) (fun l => ret (fst ca, l))) d).
Definition see_options (a : nat) : M contents :=
  bind (get_options a) (fun e =>
  bind (see get_formulas (e_cov e)) (fun c =>
  bind (see get_texts (e_filters e)) (fun f =>
  bind (see see_restrictions (e_restr e)) (fun r =>
  ret (mkContents c f r (e_rest e)))))).

(** What the parameters say about a model: choices with experience and their default
    restriction (model_processing.py:770-777), choices without experience, covariates of
    types (model_processing.py:751-754), the conversion of labels in a formula to codes
    and of all filters. *)
Record parsed := mkParsed {
  pa_with_exp : list (string * string);
  pa_without_exp : list string;
  pa_types : list (string * string);
  pa_codes : string -> string;
  pa_filters : list string -> result (list string)
}.

(** The parameters enter as the functions they are used by: the selection of covariates
    (process_covariates.py:5-57) and the validation of options and parsing of parameters
    (model_processing.py:44-47).  The final validation of parameters
    (model_processing.py:50) reads objects only and is left out. *)
Record parameters := mkParameters {
  q_relevant : list (string * string) -> result (list (string * string));
  q_parse : contents -> result parsed
}.

(** process_covariates.py:5-57 (remove_irrelevant_covariates): a deep copy with a new
    dictionary of covariates. *)
Definition remove_irrelevant_covariates (q : parameters) (a : nat) : M nat :=
  bind (copy_options a) (fun a =>
  bind (get_options a) (fun e =>
  bind (entry (e_cov e)) (fun c =>
  bind (get_formulas c) (fun d =>
  bind (lift (q_relevant q d)) (fun rel =>
  bind (new (Formulas rel)) (fun c' =>
  bind (write a (Options (mkEntries (Some c') (e_filters e) (e_restr e) (e_rest e)))) (fun _ =>
  ret a))))))).

(** model_processing.py:737-758 (_add_type_covariates): a new dictionary if there are
    types. *)
Definition add_types (p : parsed) (a : nat) : M unit :=
  match pa_types p with
  | [] => ret tt
  | types =>
      bind (get_options a) (fun e =>
      bind (entry (e_cov e)) (fun c =>
      bind (get_formulas c) (fun d =>
      bind (new (Formulas (dict_update string_dec d types))) (fun c' =>
      write a (Options (mkEntries (Some c') (e_filters e) (e_restr e) (e_rest e)))))))
  end.

(** model_processing.py:761-784 (_add_default_is_inadmissible): the dictionary of
    restrictions is updated in place; choices with experience get a new list, choices
    without experience keep theirs. *)
Definition restrict_with_exp (r : nat) (cf : string * string) : M unit :=
  bind (get_restrictions r) (fun d =>
  bind (match dict_get string_dec (fst cf) d with Some l => get_texts l | None => ret [] end) (fun formulas =>
  bind (new (Texts (formulas ++ [snd cf]))) (fun l =>
  write r (Restrictions (dict_set string_dec (fst cf) l d))))).
Definition restrict_without_exp (r : nat) (c : string) : M unit :=
  bind (get_restrictions r) (fun d =>
  bind (match dict_get string_dec c d with Some l => ret l | None => new (Texts ["False"]) end) (fun l =>
  write r (Restrictions (dict_set string_dec c l d)))).
Definition add_default_restrictions (p : parsed) (a : nat) : M unit :=
  bind (get_options a) (fun e =>
  bind (entry (e_restr e)) (fun r =>
  bind (each (restrict_with_exp r) (pa_with_exp p)) (fun _ =>
  bind (each (restrict_without_exp r) (pa_without_exp p)) (fun _ =>
  ret tt)))).

(** model_processing.py:787-812 (_convert_labels_in_formulas_to_codes): covariates and
    the lists of restrictions are updated in place, the list of filters is a new one. *)
Definition convert_restriction (p : parsed) (r : nat) (c : string) : M unit :=
  bind (get_restrictions r) (fun d =>
  match dict_get string_dec c d with
  | Some l => bind (get_texts l) (fun fs => write l (Texts (map (pa_codes p) fs)))
  | None => ret tt
  end).
Definition convert_labels (p : parsed) (a : nat) : M unit :=
  bind (get_options a) (fun e =>
  bind (entry (e_cov e)) (fun c =>
  bind (get_formulas c) (fun d =>
  bind (write c (Formulas (map (fun nf => (fst nf, pa_codes p (snd nf))) d))) (fun _ =>
  bind (entry (e_filters e)) (fun f =>
  bind (get_texts f) (fun fs =>
  bind (lift (pa_filters p fs)) (fun fs' =>
  bind (new (Texts fs')) (fun f' =>
  bind (write a (Options (mkEntries (e_cov e) (Some f') (e_restr e) (e_rest e)))) (fun _ =>
  bind (entry (e_restr e)) (fun r =>
  bind (each (convert_restriction p r) (map fst (pa_with_exp p) ++ pa_without_exp p)) (fun _ =>
  ret tt))))))))))).

(** model_processing.py:32-52 (process_params_and_options) for the options at [user];
    [defaults] are DEFAULT_OPTIONS (config.py:58-71).  The internal seeds
    (model_processing.py:42) are new entries of the new dictionary. *)
Definition process (defaults : nat) (q : parameters) (user : nat) : M nat :=
  bind (copy_options user) (fun a =>
  bind (get_options defaults) (fun ed =>
  bind (get_options a) (fun eu =>
  bind (new (Options (merge ed eu))) (fun a =>
  bind (remove_irrelevant_covariates q a) (fun a =>
  bind (see_options a) (fun c =>
  bind (lift (q_parse q c)) (fun p =>
  bind (add_types p a) (fun _ =>
  bind (add_default_restrictions p a) (fun _ =>
  bind (convert_labels p a) (fun _ =>
  ret a)))))))))).

(** A session: models are specified, and the user changes objects. *)
Inductive event :=
| Specify (q : parameters) (user : nat)
| Change (a : nat) (o : obj).
Definition run_event (defaults : nat) (h : heap) (e : event) : heap :=
  match e with
  | Specify q user => fst (process defaults q user h)
  | Change a o => set_nth a o h
  end.
Definition session (defaults : nat) (events : list event) (h : heap) : heap :=
  fold_left (run_event defaults) events h.
