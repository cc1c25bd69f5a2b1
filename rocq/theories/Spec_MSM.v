(** What is claimed about the method of simulated moments. *)
From Coq Require Import List Arith Bool String Reals.
From Verif Require Import Base Spec_Solve Model_MSM.
Import ListNotations.
Open Scope string_scope.

(** A set of moments without repeated labels. *)
Definition well_formed (m : moments) : Prop :=
  match m with
  | Series i v => NoDup i /\ List.length v = List.length i
  | Frame i c => NoDup i /\ NoDup (map fst c) /\ forall n v, In (n, v) c -> List.length v = List.length i
  end.
Definition alike (a b : moments) : Prop :=
  match a, b with Series _ _, Series _ _ | Frame _ _, Frame _ _ => True | _, _ => False end.

(** The places of a set of moments - a column, if the set is a frame, and a label of the
    index - and the value at a place. *)
Definition place := (option string * string)%type.
Definition places (m : moments) : list place :=
  match m with
  | Series i _ => map (fun l => (None, l)) i
  | Frame i c => flat_map (fun nc => map (fun l => (Some (fst nc), l)) i) c
  end.
Fixpoint at_label (index : list string) (values : list value) (l : string) : value :=
  match index, values with
  | x :: index, v :: values => if string_dec x l then v else at_label index values l
  | _, _ => None
  end.
Definition at_place (m : moments) (p : place) : value :=
  match m, fst p with
  | Series i v, None => at_label i v (snd p)
  | Frame i c, Some n => match dict_get string_dec n c with Some v => at_label i v (snd p) | None => None end
  | _, _ => None
  end.
(** The name of a moment. *)
Definition moment_label (set : string) (p : place) : string :=
  match fst p with
  | None => set ++ "_" ++ snd p
  | Some c => (set ++ "_" ++ c) ++ "_" ++ snd p
  end.
(** All moments of all sets in order: a name and what [f] is for the set and the place. *)
Definition over_moments {A} (d : list (string * moments)) (f : string -> place -> A) : list (string * A) :=
  flat_map (fun nm => map (fun p => (moment_label (fst nm) p, f (fst nm) p)) (places (snd nm))) d.
Definition moment_of (d : list (string * moments)) (set : string) (p : place) : value :=
  match dict_get string_dec set d with Some m => at_place m p | None => None end.
Definition difference (x y : value) : value :=
  match x, y with Some x, Some y => Some (x - y)%R | _, _ => None end.

(** The same sets of moments, possibly in another order. *)
Definition same_sets (a b : list (string * moments)) : Prop :=
  NoDup (map fst a) /\ NoDup (map fst b) /\ (forall n, In n (map fst a) <-> In n (map fst b)) /\
  (forall n m, In (n, m) a -> well_formed m) /\ (forall n m, In (n, m) b -> well_formed m) /\
  (forall n m m', In (n, m) a -> In (n, m') b -> alike m m').

(** Do nothing about missing values. *)
Definition keep_missing (d : list (string * moments)) : list (string * (moments -> moments)) :=
  map (fun nm => (fst nm, fun x => x)) d.

Definition sum_of_squares (l : list R) : R := rsum (map (fun x => (x * x)%R) l).
Definition weighted_sum_of_squares (w e : list R) : R := rsum (map (fun p => (fst p * (snd p * snd p))%R) (combine w e)).

(** No two moments have the same name. *)
Definition distinct_names (d : list (string * moments)) : Prop := NoDup (map fst (over_moments d (moment_of d))).
(** Empirical minus simulated moments, in the order of the empirical moments. *)
Definition errors_of (empirical simulated : list (string * moments)) : list (string * value) :=
  over_moments empirical (fun set p => difference (moment_of empirical set p) (moment_of simulated set p)).
(** The simulated moments: every function applied to the simulated data. *)
Definition calculated {D} (calc_moments : list (string * (D -> moments))) (data : D) : list (string * moments) :=
  map (fun nf => (fst nf, snd nf data)) calc_moments.

(** [s] has the structure of the empirical moments [m] and the values of the simulated
    moments [x]. *)
Definition has_structure (s m x : moments) : Prop :=
  alike s m /\ places s = places m /\ forall p, In p (places m) -> at_place s p = at_place x p.

(** A row of the data for plots: column, index, value and set. The column of a series is the
    name of the set. *)
Definition plot_row (set : string) (p : place) (v : value) : string * string * value * string :=
  (match fst p with Some c => c | None => set end, snd p, v, set).
Definition plot_rows (order : list (string * moments)) (f : string -> place -> value) : list (string * string * value * string) :=
  flat_map (fun nm => map (fun p => plot_row (fst nm) p (f (fst nm) p)) (places (snd nm))) order.
(** The rows of one kind. *)
Definition rows_of (kind : string) (data : list (string * string * value * string * string)) : list (string * string * value * string) :=
  map fst (filter (fun r => String.eqb (snd r) kind) data).
