(** Model of the distribution of work over dense keys (respy/parallelization.py).
    Definitions only; see Props_Parallel.v for the theorems. *)
From Coq Require Import List Arith Bool.
From Verif Require Import Base.
Import ListNotations.

(** Python values as far as the decorator looks at them: dictionaries, whose keys are
    integers or other objects (named by a number), and everything else. *)
Inductive pykey := KInt (n : nat) | KOther (n : nat).
Definition pykey_eq_dec (x y : pykey) : {x = y} + {x <> y}.
Proof. decide equality; apply Nat.eq_dec. Defined.

Inductive pyval (A : Type) :=
| PAtom (a : A)
| PDict (d : list (pykey * pyval A)).
Arguments PAtom {A} a.
Arguments PDict {A} d.

Definition is_int_key (k : pykey) : bool :=
  match k with KInt _ => true | KOther _ => false end.

(** parallelization.py:114-120 (_is_dictionary_with_integer_keys). *)
Definition is_dictionary_with_integer_keys {A} (v : pyval A) : bool :=
  match v with
  | PDict d => Nat.ltb 0 (length d) && forallb is_int_key (map fst d)
  | PAtom _ => false
  end.

Definition int_keys {A} (v : pyval A) : list nat :=
  match v with
  | PDict d => flat_map (fun kv => match fst kv with KInt n => [n] | KOther _ => [] end) d
  | PAtom _ => []
  end.

Definition mem (n : nat) (l : list nat) : bool := existsb (Nat.eqb n) l.

(** parallelization.py:86-111 (_infer_dense_keys_from_arguments): intersection of the key
    sets of all dictionaries with integer keys among the arguments; empty if there is no
    such argument.  The result is a set: [distribute] takes the iteration order as
    argument. *)
Definition infer_dense_keys {A} (args : list (pyval A)) (kwargs : list (nat * pyval A))
  : list nat :=
  match filter is_dictionary_with_integer_keys (args ++ map snd kwargs) with
  | [] => []
  | d :: ds =>
      filter (fun k => forallb (fun d' => mem k (int_keys d')) ds)
             (drop_duplicates Nat.eq_dec (int_keys d))
  end.

(** parallelization.py:151-158 (_is_dense_dictionary_argument). *)
Definition is_dense_dictionary_argument {A} (v : pyval A) (dense_keys : list nat) : bool :=
  match v with
  | PDict d => forallb (fun k => match dict_get pykey_eq_dec (KInt k) d with
                                 | Some _ => true | None => false end) dense_keys
  | PAtom _ => false
  end.

(** parallelization.py:123-148 (_broadcast_arguments), the value of one argument for the
    dense key [idx]. *)
Definition broadcast {A} (dense_keys : list nat) (idx : nat) (v : pyval A) : pyval A :=
  if is_dense_dictionary_argument v dense_keys then
    match v with
    | PDict d => match dict_get pykey_eq_dec (KInt idx) d with Some x => x | None => v end
    | PAtom _ => v
    end
  else v.

(** What the decorated function returns. *)
Inductive ret (R : Type) := RVal (r : R) | RTuple (l : list R).
Arguments RVal {R} r.
Arguments RTuple {R} l.

(** What the wrapper returns: a dictionary over dense keys, a tuple of such dictionaries,
    or the return value of the function itself. *)
Inductive wrapped (R : Type) :=
| WDict (d : list (nat * R))
| WTuple (l : list (list (nat * R)))
| WPlain (r : ret R).
Arguments WDict {R} d.
Arguments WTuple {R} l.
Arguments WPlain {R} r.

Definition ret_val {R} (r : ret R) : result R :=
  match r with RVal x => Ok x | RTuple _ => OtherError end.
Definition ret_component {R} (i : nat) (r : ret R) : result R :=
  match r with
  | RTuple l => match nth_error l i with Some x => Ok x | None => IndexError end
  | RVal _ => OtherError            (* depends on the object *)
  end.
Fixpoint results {A} (l : list (result A)) : result (list A) :=
  match l with
  | [] => Ok []
  | x :: r => result_bind x (fun y => result_bind (results r) (fun ys => Ok (y :: ys)))
  end.

(** parallelization.py:29-66 (the wrapper).  [keys] is the set of dense keys in iteration
    order; joblib evaluates the calls in any order and returns the results in the order
    of the generator.  A function which sometimes returns a tuple and sometimes not is
    outside the model ([OtherError]). *)
Definition distribute_over {A R} (keys : list nat)
  (func : list (pyval A) -> list (nat * pyval A) -> ret R)
  (args : list (pyval A)) (kwargs bypass : list (nat * pyval A)) : result (wrapped R) :=
  match keys with
  | [] => Ok (WPlain (func args (kwargs ++ bypass)))
  | k0 :: _ =>
      let call idx := func (map (broadcast keys idx) args)
                           (map (fun nv => (fst nv, broadcast keys idx (snd nv))) kwargs
                            ++ bypass) in
      let out := map call keys in
      match call k0 with
      | RTuple first =>
          result_bind
            (results (map (fun i => results (map (ret_component i) out))
                          (seq 0 (length first))))
            (fun lists => Ok (WTuple (map (combine keys) lists)))
      | RVal _ =>
          result_bind (results (map ret_val out)) (fun vals => Ok (WDict (combine keys vals)))
      end
  end.

(** The wrapper with the inferred keys; [order] is the iteration order of the set. *)
Definition distribute {A R} (order : list nat -> list nat)
  (func : list (pyval A) -> list (nat * pyval A) -> ret R)
  (args : list (pyval A)) (kwargs bypass : list (nat * pyval A)) : result (wrapped R) :=
  distribute_over (order (infer_dense_keys args kwargs)) func args kwargs bypass.

(** ** Data frames *)

(** A data frame with the index (identifier, period): rows with their index. *)
Definition index := (nat * nat)%type.
Definition index_leb (a b : index) : bool :=
  if Nat.eqb (fst a) (fst b) then Nat.leb (snd a) (snd b) else Nat.ltb (fst a) (fst b).
Definition frame (A : Type) := list (index * A).

(** [df.sort_index()].  pandas' default algorithm is not stable; the model's is, and the
    theorems assume unique indices. *)
Definition sort_index {A} (df : frame A) : frame A :=
  isort (fun a b => index_leb (fst a) (fst b)) df.

(** parallelization.py:161-163 (_split_dataframe): groups in ascending order of the key. *)
Definition split_dataframe {A} (dense_key : A -> nat) (df : frame A)
  : list (nat * frame A) :=
  map (fun k => (k, filter (fun r => Nat.eqb (dense_key (snd r)) k) df))
      (isort Nat.leb (drop_duplicates Nat.eq_dec (map (fun r => dense_key (snd r)) df))).

(** parallelization.py:68-83 (split_and_combine_df) around a function decorated with
    [parallelize_across_dense_dimensions].  [inj] embeds a data frame into the values
    passed to the function. *)
Definition split_and_combine {V A B} (inj : frame A -> V) (dense_key : A -> nat)
  (order : list nat -> list nat)
  (func : list (pyval V) -> list (nat * pyval V) -> ret (frame B))
  (df : frame A) (args : list (pyval V)) (kwargs bypass : list (nat * pyval V))
  : result (frame B) :=
  let splitted := PDict (map (fun kg => (KInt (fst kg), PAtom (inj (snd kg))))
                             (split_dataframe dense_key df)) in
  result_bind (distribute order func (splitted :: args) kwargs bypass)
    (fun out => match out with
                | WDict d => Ok (sort_index (concat (map snd d)))
                | WPlain (RVal r) => Ok r
                | _ => OtherError
                end).
