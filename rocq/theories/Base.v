(** General-purpose executable helpers that mirror Python / NumPy / pandas
    primitives used all over /repo.  Definitions only. *)
From Coq Require Import List Arith Bool.
Import ListNotations.

(** Python's [enumerate(l)] (start value [n]). *)
Fixpoint enumerate_from {A} (n : nat) (l : list A) : list (nat * A) :=
  match l with
  | [] => []
  | x :: xs => (n, x) :: enumerate_from (S n) xs
  end.
Definition enumerate {A} (l : list A) : list (nat * A) := enumerate_from 0 l.

(** Python's [dict] in insertion order: lookup, and assignment [d[k] = v], which
    overwrites in place if the key exists and appends otherwise. *)
Fixpoint dict_get {K V} (eqd : forall x y : K, {x = y} + {x <> y}) (k : K)
         (d : list (K * V)) : option V :=
  match d with
  | [] => None
  | (k', v) :: r => if eqd k k' then Some v else dict_get eqd k r
  end.
Fixpoint dict_set {K V} (eqd : forall x y : K, {x = y} + {x <> y}) (k : K) (v : V)
         (d : list (K * V)) : list (K * V) :=
  match d with
  | [] => [(k, v)]
  | (k', v') :: r => if eqd k k' then (k', v) :: r else (k', v') :: dict_set eqd k v r
  end.
Definition dict_keys {K V} (d : list (K * V)) : list K := map fst d.
Definition dict_values {K V} (d : list (K * V)) : list V := map snd d.
(** [{**d1, **d2}] *)
Definition dict_update {K V} (eqd : forall x y : K, {x = y} + {x <> y})
           (d1 d2 : list (K * V)) : list (K * V) :=
  fold_left (fun d kv => dict_set eqd (fst kv) (snd kv) d) d2 d1.
(** [dict(pairs)] *)
Definition dict_of_pairs {K V} (eqd : forall x y : K, {x = y} + {x <> y})
           (l : list (K * V)) : list (K * V) :=
  dict_update eqd [] l.

(** pandas' [drop_duplicates()] (keeps the first occurrence). *)
Fixpoint drop_duplicates {A} (eqd : forall x y : A, {x = y} + {x <> y})
         (l : list A) : list A :=
  match l with
  | [] => []
  | x :: xs => x :: filter (fun y => if eqd x y then false else true)
                           (drop_duplicates eqd xs)
  end.

(** itertools.product of the lists [ls]: the last factor varies fastest. *)
Fixpoint product {A} (ls : list (list A)) : list (list A) :=
  match ls with
  | [] => [[]]
  | l :: r => flat_map (fun x => map (cons x) (product r)) l
  end.

(** Stable insertion sort for a boolean total preorder [leb]. *)
Fixpoint insert {A} (leb : A -> A -> bool) (x : A) (l : list A) : list A :=
  match l with
  | [] => [x]
  | y :: ys => if leb x y then x :: l else y :: insert leb x ys
  end.
Definition isort {A} (leb : A -> A -> bool) (l : list A) : list A :=
  fold_right (insert leb) [] l.

(** [np.where(mask)[0]] / [[i for i, v in enumerate(mask) if v]] *)
Definition positions (mask : list bool) : list nat :=
  map fst (filter (fun p => snd p) (enumerate mask)).

(** [[x for i, x in enumerate(l) if mask[i]]]; an index beyond the mask is an
    IndexError in Python, here the value is dropped (callers use equal lengths). *)
Fixpoint compress {A} (mask : list bool) (l : list A) : list A :=
  match mask, l with
  | b :: m, x :: xs => if b then x :: compress m xs else compress m xs
  | _, _ => []
  end.

(** [sum(mask)] of booleans. *)
Fixpoint count_true (mask : list bool) : nat :=
  match mask with
  | [] => 0
  | b :: m => (if b then 1 else 0) + count_true m
  end.

(** A result type for code which may raise. *)
Inductive result (A : Type) : Type :=
| Ok (a : A)
| KeyError
| ValueError
| IndexError
| NameError
| OtherError.
Arguments Ok {A} a.
Arguments KeyError {A}.
Arguments ValueError {A}.
Arguments IndexError {A}.
Arguments NameError {A}.
Arguments OtherError {A}.

Definition result_bind {A B} (m : result A) (f : A -> result B) : result B :=
  match m with
  | Ok a => f a
  | KeyError => KeyError
  | ValueError => ValueError
  | IndexError => IndexError
  | NameError => NameError
  | OtherError => OtherError
  end.

(** Sequencing of results over a list. *)
Fixpoint result_all {A} (l : list (result A)) : result (list A) :=
  match l with
  | [] => Ok []
  | x :: r => result_bind x (fun y => result_bind (result_all r) (fun ys => Ok (y :: ys)))
  end.

(** Sequencing of optional values over a list; [None] if any is missing. *)
Fixpoint option_all {A} (l : list (option A)) : option (list A) :=
  match l with
  | [] => Some []
  | Some x :: r => match option_all r with Some xs => Some (x :: xs) | None => None end
  | None :: _ => None
  end.
