(** Model of the method of simulated moments, method_of_simulated_moments.py. Functions do
    not change their arguments, so that copies are not modelled. *)
From Coq Require Import List Arith Bool String Reals.
From Verif Require Import Base Model_Choices Model_Cache.
Import ListNotations.
Open Scope string_scope.

(** Numbers with missing values: every operation with a missing value is missing. *)
Definition value := option R.
Definition vmap2 (f : R -> R -> R) (x y : value) : value :=
  match x, y with Some x, Some y => Some (f x y) | _, _ => None end.
Definition vsqrt (x : value) : value :=
  match x with Some x => if Rlt_dec x 0 then None else Some (sqrt x) | None => None end.

(** A set of moments: pandas.Series or pandas.DataFrame. Labels of the index are strings:
    what [index.map(str)] returns. *)
Inductive moments :=
| Series (index : list string) (values : list value)
| Frame (index : list string) (columns : list (string * list value)).

(** ** Inputs *)

(** One object, a list, a dictionary, or something else. *)
Inductive input (A : Type) :=
| Single (x : A)
| Listed (l : list A)
| Named (d : list (string * A))
| Other.
Arguments Single {A}. Arguments Listed {A}. Arguments Named {A}. Arguments Other {A}.

(** Lines 326-360 (_harmonize_input) *)
Definition harmonize {A} (x : input A) : result (list (string * A)) :=
  match x with
  | Single x => Ok [("0", x)]
  | Listed l => Ok (map (fun p => (dec (fst p), snd p)) (enumerate l))
  | Named d => Ok d
  | Other => OtherError
  end.
(** Lines 461-478 (_reconstruct_input_from_dict) *)
Definition reconstruct {A} (d : list (string * A)) : input A :=
  match map snd d with
  | [x] => Single x
  | l => Listed l
  end.

(** ** Labels *)

Definition lookup {A} (d : A) (index : list string) (values : list A) (l : string) : A :=
  match dict_get string_dec l (combine index values) with Some v => v | None => d end.
Fixpoint distinct (l : list string) : bool :=
  match l with [] => true | x :: l => negb (mem x l) && distinct l end.
Definition same_labels (a b : list string) : bool := if list_eq_dec string_dec a b then true else false.

(** [reindex]: values in the order of other labels; missing labels have the value [d]. An
    index with repeated labels can only be reindexed with itself. *)
Definition reindex {A} (d : A) (index : list string) (values : list A) (target : list string) : result (list A) :=
  if same_labels index target then Ok values
  else if distinct index then Ok (map (lookup d index values) target)
  else ValueError.
(** [reindex_like]. A series and a frame are not alike. *)
Definition reindex_like (x like : moments) : result moments :=
  match x, like with
  | Series i v, Series i' _ => result_bind (reindex None i v i') (fun v' => Ok (Series i' v'))
  | Frame i c, Frame i' c' =>
      result_bind (reindex (map (fun _ => None) i) (map fst c) (map snd c) (map fst c')) (fun cols =>
      result_bind (result_all (map (fun v => reindex None i v i') cols)) (fun cols' =>
      Ok (Frame i' (combine (map fst c') cols'))))
  | _, _ => OtherError
  end.

(** Lines 363-396 (_flatten_index). There has to be at least one set. *)
Definition flatten_set (nm : string * moments) : list (string * value) :=
  match snd nm with
  | Series i v => map (fun p => (fst nm ++ "_" ++ fst p, snd p)) (combine i v)
  | Frame i c => flat_map (fun nc => map (fun p => ((fst nm ++ "_" ++ fst nc) ++ "_" ++ fst p, snd p)) (combine i (snd nc))) c
  end.
Definition flatten_index (d : list (string * moments)) : result (list (string * value)) :=
  match d with
  | [] => ValueError
  | _ => Ok (flat_map flatten_set d)
  end.

(** The difference of two labelled vectors. If the labels or their order differ, the result
    has all labels in alphabetical order. Repeated labels are then not modelled. *)
Definition subtract (a b : list (string * value)) : result (list (string * value)) :=
  if same_labels (map fst a) (map fst b)
  then Ok (map (fun p => (fst (fst p), vmap2 Rminus (snd (fst p)) (snd (snd p)))) (combine a b))
  else if distinct (map fst a) && distinct (map fst b)
  then Ok (map (fun l => (l, vmap2 Rminus (lookup None (map fst a) (map snd a) l) (lookup None (map fst b) (map snd b) l)))
               (sorted_set (map fst a ++ map fst b)%list))
  else OtherError.

(** ** Weights *)

Definition matrix := list (list value).
(** [np.diag] *)
Definition diag (w : list value) : matrix :=
  map (fun i => map (fun j => if Nat.eqb i j then nth i w None else Some 0%R) (seq 0 (List.length w))) (seq 0 (List.length w)).
Definition dot (u v : list value) : value :=
  fold_right (vmap2 Rplus) (Some 0%R) (map (fun p => vmap2 Rmult (fst p) (snd p)) (combine u v)).
(** The product of a vector and a matrix. *)
Definition vector_matrix (v : list value) (m : matrix) : list value :=
  map (fun j => dot v (map (fun row => nth j row None) m)) (seq 0 (List.length v)).
Definition is_square (n : nat) (m : matrix) : bool :=
  Nat.eqb (List.length m) n && forallb (fun row => Nat.eqb (List.length row) n) m.

(** Lines 254-299 (get_diag_weighting_matrix) *)
Definition get_diag_weighting_matrix (empirical : input moments) (weights : option (input moments)) : result matrix :=
  result_bind (harmonize empirical) (fun empirical =>
  match weights with
  | None => result_bind (flatten_index empirical) (fun flat => Ok (diag (map (fun _ => Some 1%R) flat)))
  | Some weights =>
      result_bind (harmonize weights) (fun weights =>
      result_bind (result_all (map (fun nw => match dict_get string_dec (fst nw) empirical with
                                              | Some m => result_bind (reindex_like (snd nw) m) (fun w => Ok (fst nw, w))
                                              | None => KeyError
                                              end) weights)) (fun weights =>
      result_bind (flatten_index weights) (fun flat_weights =>
      result_bind (flatten_index empirical) (fun flat =>
      result_bind (reindex None (map fst flat_weights) (map snd flat_weights) (map fst flat)) (fun w => Ok (diag w))))))
  end).

(** ** The criterion *)

Record outcome := mkOutcome {
  o_value : value;
  o_errors : list (string * value);
  o_roots : list value;
  o_simulated : list (string * moments) }.

(** Lines 165-251 (moment_errors). [simulated] are the results of the functions in
    [calc_moments] for the simulated data. *)
Definition moment_errors (simulated : list (string * moments)) (replace_nans : list (string * (moments -> moments)))
    (empirical : list (string * moments)) (weighting_matrix : matrix) : result outcome :=
  result_bind (result_all (map (fun nm => match dict_get string_dec (fst nm) empirical with
                                          | Some m => result_bind (reindex_like (snd nm) m) (fun s => Ok (fst nm, s))
                                          | None => KeyError
                                          end) simulated)) (fun simulated =>
  result_bind (result_all (map (fun nm => match dict_get string_dec (fst nm) replace_nans with
                                          | Some f => Ok (fst nm, f (snd nm))
                                          | None => KeyError
                                          end) simulated)) (fun simulated =>
  result_bind (flatten_index empirical) (fun flat_empirical =>
  result_bind (flatten_index simulated) (fun flat_simulated =>
  result_bind (subtract flat_empirical flat_simulated) (fun errors =>
  let e := map snd errors in
  if is_square (List.length e) weighting_matrix then
    Ok (mkOutcome (dot (vector_matrix e weighting_matrix) e) errors
                  (vector_matrix e (map (map vsqrt) weighting_matrix)) simulated)
  else ValueError))))).

(** Lines 27-162 (get_moment_errors_func). [simulate] is the simulation for given
    parameters. *)
Definition get_moment_errors_func {P D : Type} (simulate : P -> D) (calc_moments : input (D -> moments))
    (replace_nans : option (input (moments -> moments))) (empirical : input moments) (weighting_matrix : option matrix) :
    result (P -> result outcome) :=
  result_bind (match weighting_matrix with Some w => Ok w | None => get_diag_weighting_matrix empirical None end) (fun w =>
  result_bind (harmonize empirical) (fun empirical =>
  result_bind (harmonize calc_moments) (fun calc_moments =>
  result_bind (match replace_nans with
               | None => Ok (map (fun nm => (fst nm, fun x => x)) empirical)
               | Some (Single f) => Ok (map (fun nm => (fst nm, f)) empirical)
               | Some other => harmonize other
               end) (fun replace_nans =>
  if Nat.ltb 1 (List.length replace_nans) && Nat.ltb (List.length replace_nans) (List.length empirical) then ValueError
  else if Nat.ltb (List.length empirical) (List.length replace_nans) then ValueError
  else if negb (Nat.eqb (List.length calc_moments) (List.length empirical)) then ValueError
  else Ok (fun params => moment_errors (map (fun nf => (fst nf, snd nf (simulate params))) calc_moments) replace_nans empirical w))))).

(** Lines 110 and 247-250: the simulated moments in the structure of the empirical moments. *)
Definition returned_moments (empirical : input moments) (o : outcome) : input moments :=
  match empirical with
  | Named _ => Named (o_simulated o)
  | _ => reconstruct (o_simulated o)
  end.

(** Lines 399-458: rows of the data for the comparison plot: column, index, value, set and
    kind. *)
Definition tidy_set (nm : string * moments) : list (string * string * value * string) :=
  match snd nm with
  | Series i v => map (fun p => (fst nm, fst p, snd p, fst nm)) (combine i v)
  | Frame i c => flat_map (fun nc => map (fun p => (fst nc, fst p, snd p, fst nm)) (combine i (snd nc))) c
  end.
Definition comparison_plot_data (empirical simulated : list (string * moments)) : list (string * string * value * string * string) :=
  (map (fun r => (r, "empirical")) (flat_map tidy_set empirical) ++
   map (fun r => (r, "simulated")) (flat_map tidy_set simulated))%list.
